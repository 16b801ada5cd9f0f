(** Model of SetAutoDimAdapt and Config, /repo/pkg/core/store.go:82-87, 99-104, on top of the
    model of the store: the configuration has a policy, and the adapter made from it at
    construction (store.go:62-68) has its own. *)
From Coq Require Import List ZArith.
Import ListNotations.
From Verif Require Import Base DimensionModel StoreModel.

Section Adapt.
Variable I : index_ops.
Record cstore := { cs_config : policy; cs_store : store I }.
(** New, store.go:43-73. *)
Definition new_cstore (p : policy) (s : store I) : cstore :=
  {| cs_config := p; cs_store := {| st_db := st_db I s; st_dim := st_dim I s; st_policy := p; st_closed := st_closed I s; st_ix := st_ix I s |} |}.
(** SetAutoDimAdapt, store.go:83-87. *)
Definition set_auto_dim_adapt (p : policy) (c : cstore) : cstore := {| cs_config := p; cs_store := cs_store c |}.
(** Config().AutoDimAdapt, store.go:100-104. *)
Definition config_policy (c : cstore) : policy := cs_config c.
(** Upsert, which asks the adapter, store_crud.go:72-80. *)
Definition c_upsert (ev : env) (c : cstore) (e : embedding) : cstore * outcome unit :=
  let '(s, r) := upsert I ev (cs_store c) e in ({| cs_config := cs_config c; cs_store := s |}, r).
(** A history of the two calls, with what the upserts returned. *)
Inductive aop := ASet (p : policy) | AUpsert (ev : env) (e : embedding).
Fixpoint a_run (c : cstore) (ops : list aop) : cstore * list (outcome unit) :=
  match ops with
  | nil => (c, nil)
  | ASet p :: r => a_run (set_auto_dim_adapt p c) r
  | AUpsert ev e :: r => let '(c1, x) := c_upsert ev c e in let '(c2, xs) := a_run c1 r in (c2, x :: xs)
  end.
End Adapt.
