(** What a user of ExportJSON and ImportJSON relies on. *)
From Coq Require Import String List NArith ZArith Bool.
From Coq Require Import Floats.SpecFloat.
From Verif Require Import Base Floats64 StoreModel GraphModel GraphSpec.
Import ListNotations.
Open Scope string_scope.
Open Scope list_scope.

(** A property map that JSON keeps: absent, or not empty and made of valid text. *)
Definition plain_props (utf8 : string -> string) (m : option smap) : Prop :=
  forall l, m = Some l -> l <> [] /\ forall k v, In (k, v) l -> utf8 k = k /\ utf8 v = v.
(** All text of the graph is valid and no property map is empty but present. *)
Definition plain_node (utf8 : string -> string) (n : gnode) : Prop :=
  utf8 (n_id n) = n_id n /\ utf8 (n_content n) = n_content n /\ utf8 (n_type n) = n_type n /\ plain_props utf8 (n_props n).
Definition plain_edge (utf8 : string -> string) (e : gedge) : Prop :=
  utf8 (ge_id e) = ge_id e /\ utf8 (ge_from e) = ge_from e /\ utf8 (ge_to e) = ge_to e /\ utf8 (ge_type e) = ge_type e /\ plain_props utf8 (ge_props e).
Definition plain (utf8 : string -> string) (g : gdb) : Prop :=
  (forall n, In n (g_nodes g) -> plain_node utf8 n) /\ (forall e, In e (g_edges g) -> plain_edge utf8 e).
(** Finite numbers: a float32 is given by its bits (8 exponent bits above 23 others). *)
Definition finite_vector (v : list N) : Prop := forall b, In b v -> N.modulo (N.div b 8388608) 256 <> 255%N.
Definition finite_number (w : float) : Prop := not_nan w /\ forall s, w <> S754_infinity s.
Definition finite_node (n : gnode) : Prop := finite_vector (n_vec n).
Definition finite_edge (e : gedge) : Prop := finite_number (ge_weight e) /\ finite_vector (ge_vec e).
(** An edge is in the export when its source is a node all of whose outgoing edges have
    weights that are numbers. *)
Definition exported (g : gdb) (e : gedge) : Prop :=
  In e (g_edges g) /\ has_node g (ge_from e) /\ forall e', In e' (g_edges g) -> ge_from e' = ge_from e -> not_nan (ge_weight e').
