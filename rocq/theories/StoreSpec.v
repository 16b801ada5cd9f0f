(** What the store theorems are stated in terms of. *)
From Coq Require Import String List NArith ZArith Bool.
From Verif Require Import Base EncodingModel EncodingSpec DimensionModel StoreModel.
Import ListNotations.
Open Scope string_scope.
Open Scope list_scope.

(** Every component of an embedding's vector is a float32 bit pattern. *)
Definition emb_bits (e : embedding) : Prop := float32_bits (vec_of e).

(** The collection an embedding is destined for: explicit id, else by name, else
    the default collection (id 1). *)
Definition target_collection (d : db) (e : embedding) (cid : Z) : Prop :=
  (e_collid e <> 0%Z /\ cid = e_collid e) \/
  (e_collid e = 0%Z /\ e_coll e = "" /\ cid = 1%Z) \/
  (e_collid e = 0%Z /\ e_coll e <> "" /\ exists c, In c (t_colls d) /\ c_name c = e_coll e /\ c_id c = cid).

(** [e] stored with vector [v] in collection [cid], as a reader sees it. *)
Definition seen_as (d : db) (e : embedding) (cid : Z) (v : list N) : embedding :=
  {| e_id := e_id e; e_collid := 0; e_coll := coll_name d cid; e_vec := Some v;
     e_content := e_content e; e_doc := e_doc e; e_meta := e_meta e; e_acl := e_acl e |}.

(** The vector stored for an embedding under a configured dimension (0 = not yet
    known): its own vector when the dimension fits, else the adapted one. *)
Definition stored_vector (noise : nat -> Floats64.float) (p : policy) (dim : Z) (e : embedding) (v : list N) : Prop :=
  (e_vec e = Some v /\ (dim = 0%Z \/ dim = Z.of_nat (length v))) \/
  (dim <> 0%Z /\ dim <> Z.of_nat (length (vec_of e)) /\ adapt_bits noise p (vec_of e) dim = Ok v).

(** The last embedding of a batch with a given id. *)
Fixpoint last_with (id : string) (es : list embedding) : option embedding :=
  match es with
  | [] => None
  | e :: es' => match last_with id es' with
                | Some x => Some x
                | None => if String.eqb (e_id e) id then Some e else None
                end
  end.

(** Referential integrity of a database. *)
Definition integrity (d : db) : Prop :=
  NoDup (map c_id (t_colls d)) /\ NoDup (map c_name (t_colls d)) /\
  (forall c, In c (t_colls d) -> (c_id c < t_next d)%Z) /\
  NoDup (map d_id (t_docs d)) /\ NoDup (map r_id (t_rows d)) /\
  (forall r, In r (t_rows d) -> In (r_coll r) (map c_id (t_colls d))) /\
  (forall r x, In r (t_rows d) -> r_doc r = Some x -> In x (map d_id (t_docs d))).

(** Environment in which every statement succeeds on a connection with foreign keys. *)
Definition good_env : env := {| ev_fk := true; ev_ok := fun _ => true; ev_noise := fun _ => Floats64.f_zero |}.

(** The ids DeleteBatch looks at: blank ones are skipped. *)
Definition valid_ids (ids : list string) : list string := filter (fun id => negb (all_space id)) ids.

Section Reach.
Variable I : index_ops.

(** States reachable from a new database file by any sequence of operations, each
    meeting any environment, and any number of losses of memory (clean or crash)
    followed by reopening the file with any configuration. *)
Inductive reachable (envs : env -> Prop) : store I -> Prop :=
| reach_new dim p i s : open_store I dim p empty_db i = Ok s -> reachable envs s
| reach_step s ev o : reachable envs s -> envs ev -> reachable envs (fst (step I ev s o))
| reach_reopen s dim p i s' : reachable envs s -> open_store I dim p (st_db I s) i = Ok s' -> reachable envs s'.

(** The document of the embedding stored under an id, as readers see it. *)
Definition in_doc (s : store I) (x id : string) : Prop :=
  exists e, get_by_id I s id = Ok e /\ e_doc e = x.
End Reach.

Definition any_env (ev : env) : Prop := True.
Definition fk_env (ev : env) : Prop := ev_fk ev = true.

(** Operations that do not concern the embedding [id] of document [doc] in
    collection [col]. *)
Definition leaves_alone (o : op) (id doc col : string) : Prop :=
  match o with
  | OUpsert e => e_id e <> id
  | OUpsertBatch es => forall e, In e es -> e_id e <> id
  | ODelete x => x <> id
  | ODeleteByDoc x => x <> doc
  | ODeleteBatch ids => ~ In id ids
  | ODeleteWhere c => forall r, r_id r = id -> c r <> Some true
  | OClear => False
  | OClearDocs xs => ~ In doc xs
  | OCreateColl _ _ => True
  | ODeleteColl n => n <> col
  | OCreateDoc _ | OUpdateDoc _ => True
  | ODeleteDoc x => x <> doc
  | OClose => False
  end.

(** An embedding the store has every reason to accept: a vector of float32 bits of
    encodable length, an existing collection, no document or an existing one. *)
Definition acceptable (d : db) (e : embedding) : Prop :=
  (exists v, e_vec e = Some v /\ float32_bits v /\ (N.of_nat (length v) <= 2^31 - 1)%N) /\
  (exists cid, target_collection d e cid /\ In cid (map c_id (t_colls d))) /\
  (e_doc e = "" \/ In (e_doc e) (map d_id (t_docs d))).
