(** C09-C15, C64, C67: the embeddings store, for every index implementation behind
    it and every history.  [get_by_id] is the reader; a failed operation is one
    whose result is not [Ok]. *)
From Coq Require Import String List NArith ZArith Bool.
From Verif Require Import Base Floats64 EncodingSpec EncodingModel DimensionModel StoreModel StoreSpec
  StoreProofs StoreInv StoreProofs2 StoreProofs3.
Import ListNotations.
Open Scope string_scope.
Open Scope list_scope.

(** A store without an index, to run examples on. *)
Definition no_index : index_ops :=
  {| ix := unit; ix_insert := fun i _ _ => i; ix_delete := fun i _ => i; ix_search := fun _ _ _ => [] |}.
Definition emb (id : string) (v : list N) : embedding :=
  {| e_id := id; e_collid := 0; e_coll := ""; e_vec := Some v; e_content := "text"; e_doc := "";
     e_meta := Some [("k", "v")]; e_acl := ["u"] |}.
Definition emb_in (id col doc : string) (v : list N) : embedding :=
  {| e_id := id; e_collid := 0; e_coll := col; e_vec := Some v; e_content := "text"; e_doc := doc;
     e_meta := None; e_acl := [] |}.
Definition new_store (dim : Z) (p : policy) : store no_index :=
  Build_store no_index (init_db dim empty_db) dim p false tt.
Definition doc1 (id : string) : document :=
  {| d_id := id; d_title := "t"; d_url := ""; d_content := ""; d_version := 1; d_author := ""; d_meta := None; d_acl := [] |}.
Definition good (o : op) : env * op := (good_env, o).
Definition nofk_env : env := {| ev_fk := false; ev_ok := fun _ => true; ev_noise := fun _ => f_zero |}.
Definition one_half : list N := [0x3f800000%N; 0x3f000000%N].

(** ** C09 *)
Theorem get_after_upsert :
  forall I ev s e s', emb_bits e -> upsert I ev s e = (s', Ok tt) ->
  exists v cid,
    target_collection (st_db I s) e cid /\
    stored_vector (ev_noise ev) (st_policy I s) (st_dim I s) e v /\
    get_by_id I s' (e_id e) = Ok (seen_as (st_db I s) e cid v) /\
    (forall id, id <> e_id e -> get_by_id I s' id = get_by_id I s id).
Proof. exact get_after_upsert_lemma. Qed.
Example get_after_upsert_ex :
  upsert no_index good_env (new_store 0 SmartAdapt) (emb "a" one_half) <> (new_store 0 SmartAdapt, Ok tt) /\
  get_by_id no_index (run no_index (new_store 0 SmartAdapt) [good (OUpsert (emb "a" one_half))]) "a"
  = Ok {| e_id := "a"; e_collid := 0; e_coll := "default"; e_vec := Some one_half; e_content := "text"; e_doc := "";
          e_meta := Some [("k", "v")]; e_acl := ["u"] |}.
Proof. split; [vm_compute; discriminate|vm_compute; reflexivity]. Qed.

(** Later operations that do not concern the embedding leave it as it is. *)
Theorem stored_until_touched :
  forall I h s id e, reachable I fk_env s -> get_by_id I s id = Ok e ->
  Forall (fun eo => fk_env (fst eo) /\ leaves_alone (snd eo) id (e_doc e) (e_coll e)) h ->
  get_by_id I (run I s h) id = Ok e.
Proof. exact run_frame. Qed.
Example stored_until_touched_ex :
  exists e, let s := run no_index (new_store 2 SmartAdapt) [good (OUpsert (emb "a" one_half))] in
  let h := [good (OUpsert (emb "b" one_half)); good (OCreateColl "c2" 2); good (ODeleteColl "c2"); good (ODelete "b")] in
  reachable no_index fk_env s /\ get_by_id no_index s "a" = Ok e /\
  Forall (fun eo => fk_env (fst eo) /\ leaves_alone (snd eo) "a" (e_doc e) (e_coll e)) h.
Proof.
  eexists. cbn zeta. split; [|split].
  - apply reachable_run; [|repeat constructor]. eapply (reach_new no_index _ 2%Z SmartAdapt tt). reflexivity.
  - vm_compute. reflexivity.
  - repeat constructor; cbn; discriminate.
Qed.

(** A failed upsert changes nothing that is stored. *)
Theorem failed_upsert_stores_nothing :
  forall I ev s e s' r, upsert I ev s e = (s', r) -> r <> Ok tt ->
  st_db I s' = st_db I s /\ st_ix I s' = st_ix I s /\ st_closed I s' = st_closed I s.
Proof. exact upsert_fail. Qed.

(** A well-formed embedding of the configured dimension is accepted when the
    database accepts the statement. *)
Theorem upsert_accepts_valid :
  forall I ev s e, st_closed I s = false -> ev_ok ev 0 = true ->
  acceptable (st_db I s) e -> (st_dim I s = 0%Z \/ st_dim I s = Z.of_nat (length (vec_of e))) ->
  exists s', upsert I ev s e = (s', Ok tt).
Proof. exact upsert_accepts_lemma. Qed.
Example upsert_accepts_valid_ex : acceptable (st_db _ (new_store 2 SmartAdapt)) (emb "a" one_half).
Proof.
  split; [|split].
  - exists one_half. split; [reflexivity|]. split; [repeat constructor|vm_compute; discriminate].
  - exists 1%Z. split; [|vm_compute; auto]. right. left. auto.
  - left. reflexivity.
Qed.

(** Finding: although it stores nothing, a failed first upsert fixes the store's
    dimension, so embeddings that would have been accepted are then refused. *)
Theorem failed_upsert_no_effect_refuted :
  exists ev s bad e s1 x,
    upsert no_index ev s bad = (s1, Err x) /\
    snd (upsert no_index ev s e) = Ok tt /\ snd (upsert no_index ev s1 e) <> Ok tt.
Proof.
  exists good_env, (new_store 0 StrictMode), (emb_in "a" "nosuch" "" [0%N; 0%N; 0%N]), (emb "b" one_half).
  eexists _, _. split; [vm_compute; reflexivity|]. split; vm_compute; [reflexivity|discriminate].
Qed.

(** ** C10 *)
Theorem one_row_per_id :
  forall I envs s, reachable I envs s -> st_closed I s = false ->
  exists ids, NoDup ids /\ stats I s = Ok (Z.of_nat (length ids), st_dim I s) /\
    (forall id, In id ids -> exists e, get_by_id I s id = Ok e /\ e_id e = id) /\
    (forall id, ~ In id ids -> get_by_id I s id = Err ENotFound).
Proof. exact one_row_lemma. Qed.
Example one_row_per_id_ex :
  let s := run no_index (new_store 2 SmartAdapt)
    [good (OUpsert (emb "a" one_half)); good (OUpsertBatch [emb "b" one_half; emb "a" one_half; emb "b" one_half])] in
  reachable no_index any_env s /\ stats no_index s = Ok (2%Z, 2%Z).
Proof.
  cbn zeta. split; [|vm_compute; reflexivity].
  apply reachable_run; [|repeat constructor]. eapply (reach_new no_index _ 2%Z SmartAdapt tt). reflexivity.
Qed.

Theorem collections_unique :
  forall I envs s, reachable I envs s ->
  NoDup (map c_id (t_colls (st_db I s))) /\ NoDup (map c_name (t_colls (st_db I s))).
Proof. intros I envs s H. destruct (reachable_colls I envs s H) as (H1 & H2 & _). exact (conj H1 H2). Qed.

(** ** C67 (and the collection part of C10): with foreign keys enforced on every
    connection, every embedding's collection and document exist. *)
Theorem referential_integrity_partial :
  forall I s, reachable I fk_env s -> integrity (st_db I s).
Proof. exact reachable_integrity. Qed.
Example referential_integrity_ex :
  let s := run no_index (new_store 2 SmartAdapt)
    [good (OCreateDoc (doc1 "d")); good (OUpsert (emb_in "a" "" "d" one_half)); good (OUpsert (emb_in "b" "" "nodoc" one_half))] in
  reachable no_index fk_env s /\ stats no_index s = Ok (1%Z, 2%Z).
Proof.
  cbn zeta. split; [|vm_compute; reflexivity].
  apply reachable_run; [|repeat constructor]. eapply (reach_new no_index _ 2%Z SmartAdapt tt). reflexivity.
Qed.

(** Finding: the pragma reaches one pooled connection only; through another one
    an embedding is stored for a collection and a document that do not exist. *)
Theorem referential_integrity_refuted :
  exists s, reachable no_index any_env s /\ ~ integrity (st_db _ s).
Proof.
  exists (run no_index (new_store 2 SmartAdapt) [(nofk_env, OUpsert (emb_in "a" "" "nodoc" one_half))]). split.
  - apply reachable_run; [|repeat constructor]. eapply (reach_new no_index _ 2%Z SmartAdapt tt). reflexivity.
  - intros (_ & _ & _ & _ & _ & _ & H). specialize (H _ "nodoc" (or_introl eq_refl) eq_refl). vm_compute in H. exact H.
Qed.

(** ** C11 *)
Theorem batch_upsert_atomic :
  forall I ev s es s' r, upsert_batch I ev s es = (s', r) -> r = Ok tt \/ s' = s.
Proof. exact batch_atomic. Qed.
Example batch_upsert_atomic_ex :
  exists x, upsert_batch no_index good_env (new_store 2 SmartAdapt) [emb "a" one_half; emb_in "b" "nosuch" "" one_half]
  = (new_store 2 SmartAdapt, Err x).
Proof. eexists. vm_compute. reflexivity. Qed.

Theorem batch_upsert_effect :
  forall I ev s es s', Forall emb_bits es -> upsert_batch I ev s es = (s', Ok tt) ->
  forall id, match last_with id es with
  | None => get_by_id I s' id = get_by_id I s id
  | Some e => exists v cid, e_vec e = Some v /\ target_collection (st_db I s) e cid /\
                get_by_id I s' id = Ok (seen_as (st_db I s) e cid v)
  end.
Proof. exact batch_effect. Qed.
Example batch_upsert_effect_ex :
  exists s', upsert_batch no_index good_env (new_store 2 SmartAdapt) [emb "a" one_half; emb "b" [0%N]; emb "a" [0%N; 0%N]] = (s', Ok tt) /\
    last_with "a" [emb "a" one_half; emb "b" [0%N]; emb "a" [0%N; 0%N]] = Some (emb "a" [0%N; 0%N]).
Proof. eexists. split; vm_compute; reflexivity. Qed.

(** For vectors of the configured dimension, a batch leaves the store (tables and
    index) exactly as upserting its items one after another. *)
Theorem batch_upsert_one_by_one :
  forall I ev ev' s es s', ev_fk ev' = ev_fk ev -> (forall n, ev_ok ev' n = true) ->
  (forall e, In e es -> Z.of_nat (length (vec_of e)) = st_dim I s /\ st_dim I s <> 0%Z) ->
  upsert_batch I ev s es = (s', Ok tt) -> s' = fold_left (fun s e => fst (upsert I ev' s e)) es s.
Proof. exact batch_one_by_one. Qed.
Example batch_upsert_one_by_one_ex :
  exists s', upsert_batch no_index good_env (new_store 2 SmartAdapt) [emb "a" one_half; emb "a" one_half] = (s', Ok tt) /\
   (forall e, In e [emb "a" one_half; emb "a" one_half] -> Z.of_nat (length (vec_of e)) = st_dim _ (new_store 2 SmartAdapt)).
Proof. eexists. split; [vm_compute; reflexivity|]. intros e [<-|[<-|[]]]; reflexivity. Qed.

Theorem batch_upsert_accepts_valid :
  forall I ev s es, st_closed I s = false -> (forall n, ev_ok ev n = true) ->
  (forall e, In e es -> acceptable (st_db I s) e) -> exists s', upsert_batch I ev s es = (s', Ok tt).
Proof. exact batch_accepts_lemma. Qed.

(** Finding: the batch path does not check or adapt dimensions, so it stores what
    the one-by-one path refuses. *)
Theorem batch_dimension_check_refuted :
  exists s e, snd (upsert_batch no_index good_env s [e]) = Ok tt /\ snd (upsert no_index good_env s e) = Err EOther.
Proof. exists (new_store 2 StrictMode), (emb "a" [0%N; 0%N; 0%N]). split; vm_compute; reflexivity. Qed.

(** ** C12 *)
Theorem delete_exact :
  forall I ev s id, st_closed I s = false -> ev_ok ev 0 = true -> id <> "" ->
  (get_by_id I s id = Err ENotFound -> delete I ev s id = (s, Err ENotFound)) /\
  (get_by_id I s id <> Err ENotFound -> exists s', delete I ev s id = (s', Ok tt) /\
     get_by_id I s' id = Err ENotFound /\ forall id', id' <> id -> get_by_id I s' id' = get_by_id I s id').
Proof. exact delete_exact_lemma. Qed.
Example delete_exact_ex :
  let s := run no_index (new_store 2 SmartAdapt) [good (OUpsert (emb "a" one_half))] in
  st_closed _ s = false /\ get_by_id no_index s "a" <> Err ENotFound /\ get_by_id no_index s "b" = Err ENotFound.
Proof. repeat split; vm_compute; discriminate. Qed.

Theorem delete_failure_changes_nothing :
  forall I ev s id s' r, delete I ev s id = (s', r) -> r <> Ok tt -> s' = s.
Proof. exact delete_nochange. Qed.

(** Finding: an embedding stored under the empty id (which Upsert accepts) can
    never be deleted by id. *)
Theorem delete_empty_id_refuted :
  exists s, reachable no_index fk_env s /\ (exists e, get_by_id no_index s "" = Ok e) /\
    exists x, delete no_index good_env s "" = (s, Err x) /\ delete_batch no_index good_env s [""] = (s, Ok tt).
Proof.
  exists (run no_index (new_store 2 SmartAdapt) [good (OUpsert (emb "" one_half))]). split; [|split].
  - apply reachable_run; [|repeat constructor]. eapply (reach_new no_index _ 2%Z SmartAdapt tt). reflexivity.
  - eexists. vm_compute. reflexivity.
  - eexists. split; vm_compute; reflexivity.
Qed.

Theorem delete_batch_exact :
  forall I envs ev s ids, reachable I envs s -> st_closed I s = false -> (forall n, ev_ok ev n = true) ->
  exists s' r, delete_batch I ev s ids = (s', r) /\
   (forall id, get_by_id I s' id = if mem id (valid_ids ids) then Err ENotFound else get_by_id I s id) /\
   (r = Ok tt \/ r = Err ENotFound) /\
   (r = Err ENotFound <-> valid_ids ids <> [] /\ forall id, In id (valid_ids ids) -> get_by_id I s id = Err ENotFound).
Proof. intros I envs ev s ids Hr Hc Ho. exact (delete_batch_exact_lemma I ev s ids Hc Ho (reachable_uniq I envs s Hr)). Qed.
Example delete_batch_exact_ex :
  let s := run no_index (new_store 2 SmartAdapt) [good (OUpsert (emb "a" one_half)); good (OUpsert (emb "b" one_half))] in
  valid_ids [" "; "a"; "zz"] = ["a"; "zz"] /\ snd (delete_batch no_index good_env s [" "; "a"; "zz"]) = Ok tt /\
  snd (delete_batch no_index good_env s ["zz"]) = Err ENotFound.
Proof. repeat split; vm_compute; reflexivity. Qed.

Theorem delete_by_doc_exact :
  forall I envs ev s x, reachable I envs s -> st_closed I s = false -> x <> "" -> ev_ok ev 0 = true ->
  exists s', delete_by_doc I ev s x = (s', Ok tt) /\
    (forall id e, get_by_id I s id = Ok e ->
       get_by_id I s' id = if String.eqb (e_doc e) x then Err ENotFound else Ok e) /\
    (forall id, get_by_id I s id = Err ENotFound -> get_by_id I s' id = Err ENotFound).
Proof. exact delete_by_doc_lemma. Qed.
Definition two_docs : store no_index := run no_index (new_store 2 SmartAdapt)
  [good (OCreateDoc (doc1 "d")); good (OCreateDoc (doc1 "x")); good (OUpsert (emb_in "a" "" "d" one_half));
   good (OUpsert (emb_in "b" "" "x" one_half)); good (OUpsert (emb "c" one_half))].
Example delete_by_doc_exact_ex :
  reachable no_index fk_env two_docs /\
  get_by_id no_index (fst (delete_by_doc no_index good_env two_docs "d")) "a" = Err ENotFound /\
  stats no_index (fst (delete_by_doc no_index good_env two_docs "d")) = Ok (2%Z, 2%Z).
Proof.
  split; [|split; vm_compute; reflexivity].
  apply reachable_run; [|repeat constructor]. eapply (reach_new no_index _ 2%Z SmartAdapt tt). reflexivity.
Qed.

Theorem clear_by_docs_exact :
  forall I envs ev s xs, reachable I envs s -> st_closed I s = false -> (forall n, ev_ok ev n = true) ->
  exists s', clear_by_docs I ev s xs = (s', Ok tt) /\
    (forall id e, get_by_id I s id = Ok e ->
       get_by_id I s' id = if mem (e_doc e) xs && negb (String.eqb (e_doc e) "") then Err ENotFound else Ok e) /\
    (forall id, get_by_id I s id = Err ENotFound -> get_by_id I s' id = Err ENotFound).
Proof. exact clear_by_docs_lemma. Qed.
Example clear_by_docs_exact_ex :
  stats no_index (fst (clear_by_docs no_index good_env two_docs ["x"; ""; "nodoc"])) = Ok (2%Z, 2%Z).
Proof. vm_compute. reflexivity. Qed.

Theorem clear_by_docs_failure_changes_nothing :
  forall I ev s xs s' r, clear_by_docs I ev s xs = (s', r) -> r = Ok tt \/ s' = s.
Proof. exact clear_by_docs_atomic. Qed.

Theorem clear_removes_everything :
  forall I ev s, st_closed I s = false -> ev_ok ev 0 = true ->
  exists s', clear I ev s = (s', Ok tt) /\ (forall id, get_by_id I s' id = Err ENotFound) /\ stats I s' = Ok (0%Z, st_dim I s).
Proof. exact clear_lemma. Qed.

(** ** C13: one chunk (at most 500 non-blank ids) is atomic; two are not (finding). *)
Theorem delete_batch_atomic_partial :
  forall I ev s ids s' r, length (valid_ids ids) <= 500 ->
  delete_batch I ev s ids = (s', r) -> r = Ok tt \/ st_db I s' = st_db I s /\ st_ix I s' = st_ix I s.
Proof. exact delete_batch_atomic_small. Qed.
Example delete_batch_atomic_ex : length (valid_ids ["a"; " "; "b"]) = 2.
Proof. reflexivity. Qed.

Theorem delete_batch_atomic_refuted :
  exists ev s ids s' x, reachable no_index fk_env s /\ delete_batch no_index ev s ids = (s', Err x) /\
    (exists e, get_by_id no_index s "a" = Ok e) /\ get_by_id no_index s' "a" = Err ENotFound /\
    In "b" ids /\ (exists e, get_by_id no_index s' "b" = Ok e).
Proof.
  exists {| ev_fk := true; ev_ok := fun n => Nat.eqb n 0; ev_noise := fun _ => f_zero |},
         (run no_index (new_store 2 SmartAdapt) [good (OUpsert (emb "a" one_half)); good (OUpsert (emb "b" one_half))]),
         (repeat "a" 500 ++ ["b"]).
  eexists _, _. split; [|split; [|split; [|split; [|split]]]].
  - apply reachable_run; [|repeat constructor]. eapply (reach_new no_index _ 2%Z SmartAdapt tt). reflexivity.
  - vm_compute. reflexivity.
  - eexists. vm_compute. reflexivity.
  - vm_compute. reflexivity.
  - apply in_app_iff. right. left. reflexivity.
  - eexists. vm_compute. reflexivity.
Qed.

(** ** C14 *)
Theorem delete_collection_exact :
  forall I envs ev s name c, reachable I envs s -> st_closed I s = false -> (forall n, ev_ok ev n = true) ->
  name <> "" -> get_collection I s name = Ok c ->
  exists s', delete_collection I ev s name = (s', Ok tt) /\
    (forall id e, get_by_id I s id = Ok e ->
       get_by_id I s' id = if String.eqb (e_coll e) name then Err ENotFound else Ok e) /\
    (forall id, get_by_id I s id = Err ENotFound -> get_by_id I s' id = Err ENotFound) /\
    (exists x, get_collection I s' name = Err x) /\
    (forall n, n <> name -> get_collection I s' n = get_collection I s n) /\
    (forall x, get_document I s' x = get_document I s x).
Proof.
  intros I envs ev s name c Hr Hc Ho Hn. exact (delete_collection_lemma I envs ev s name Hr Hc Ho (or_introl Hn) c).
Qed.
Definition two_colls : store no_index := run no_index (new_store 2 SmartAdapt)
  [good (OCreateColl "k" 2); good (OUpsert (emb_in "a" "k" "" one_half)); good (OUpsert (emb "c" one_half))].
Example delete_collection_exact_ex :
  reachable no_index fk_env two_colls /\
  (exists c, get_collection no_index two_colls "k" = Ok c) /\
  get_by_id no_index (fst (delete_collection no_index good_env two_colls "k")) "a" = Err ENotFound /\
  stats no_index (fst (delete_collection no_index good_env two_colls "k")) = Ok (1%Z, 2%Z).
Proof.
  split; [|split; [eexists; vm_compute; reflexivity|split; vm_compute; reflexivity]].
  apply reachable_run; [|repeat constructor]. eapply (reach_new no_index _ 2%Z SmartAdapt tt). reflexivity.
Qed.

Theorem delete_collection_all_or_nothing :
  forall I ev s name s' r, delete_collection I ev s name = (s', r) -> r = Ok tt \/ s' = s.
Proof. exact delete_collection_atomic. Qed.
Theorem delete_unknown_collection_changes_nothing :
  forall I ev s name x, get_collection I s name = Err x -> exists y, delete_collection I ev s name = (s, Err y).
Proof. exact delete_unknown_collection. Qed.

(** Finding: once the default collection has been deleted, no embedding without an
    explicit collection can be stored any more. *)
Theorem default_collection_deletable_refuted :
  exists s e, reachable no_index fk_env s /\ e_coll e = "" /\ snd (upsert no_index good_env s e) = Err EOther /\
    snd (upsert no_index good_env (new_store 2 SmartAdapt) e) = Ok tt.
Proof.
  exists (run no_index (new_store 2 SmartAdapt) [good (ODeleteColl "default"); good (OCreateColl "default" 2)]), (emb "a" one_half).
  split; [|split; [reflexivity|split; vm_compute; reflexivity]].
  apply reachable_run; [|repeat constructor]. eapply (reach_new no_index _ 2%Z SmartAdapt tt). reflexivity.
Qed.

(** ** C15: the cascade, on connections that enforce foreign keys. *)
Theorem delete_document_cascades_partial :
  forall I ev s x, reachable I fk_env s -> st_closed I s = false ->
  ev_fk ev = true -> (forall n, ev_ok ev n = true) ->
  exists s', delete_document I ev s x = (s', Ok tt) /\
    get_document I s' x = Err ENotFound /\
    (forall y, y <> x -> get_document I s' y = get_document I s y) /\
    (forall id e, get_by_id I s id = Ok e ->
       get_by_id I s' id = if String.eqb (e_doc e) x && negb (String.eqb x "") then Err ENotFound else Ok e) /\
    (forall id, get_by_id I s id = Err ENotFound -> get_by_id I s' id = Err ENotFound) /\
    (x <> "" -> forall by_time, (forall l r, In r (by_time l) <-> In r l) -> get_by_doc I by_time s' x = Ok []).
Proof. exact delete_document_lemma. Qed.
Example delete_document_cascades_ex :
  get_by_id no_index (fst (delete_document no_index good_env two_docs "d")) "a" = Err ENotFound /\
  stats no_index (fst (delete_document no_index good_env two_docs "d")) = Ok (2%Z, 2%Z).
Proof. split; vm_compute; reflexivity. Qed.

Theorem delete_document_cascades_refuted :
  exists s s', reachable no_index fk_env s /\ delete_document no_index nofk_env s "d" = (s', Ok tt) /\
    get_document no_index s' "d" = Err ENotFound /\ exists e, get_by_id no_index s' "a" = Ok e /\ e_doc e = "d".
Proof.
  exists two_docs. eexists. split; [|split; [vm_compute; reflexivity|split; [vm_compute; reflexivity|]]].
  - apply reachable_run; [|repeat constructor]. eapply (reach_new no_index _ 2%Z SmartAdapt tt). reflexivity.
  - eexists. split; vm_compute; reflexivity.
Qed.

(** ** C64 *)
Theorem closed_store_refuses_mutations :
  forall I ev s o, st_closed I s = true -> o <> OClose -> step I ev s o = (s, Err EClosed).
Proof. exact closed_step. Qed.
Theorem closed_store_refuses_reads_partial :
  forall I s, st_closed I s = true ->
  (forall id, get_by_id I s id = Err EClosed) /\
  (forall bt x, get_by_doc I bt s x = Err EClosed) /\
  (forall bt x, get_by_type I bt s x = Err EClosed) /\
  (forall srt, list_documents I srt s = Err EClosed) /\
  (forall n, get_collection I s n = Err EClosed) /\
  (forall n, collection_stats I s n = Err EClosed) /\
  (forall x, get_document I s x = Err EClosed) /\
  stats I s = Err EClosed.
Proof.
  intros I s H. unfold get_by_id, get_by_doc, get_by_type, list_documents, collection_stats, get_collection, get_document, stats.
  rewrite H. exact (conj (fun _ => eq_refl) (conj (fun _ _ => eq_refl) (conj (fun _ _ => eq_refl) (conj (fun _ => eq_refl)
    (conj (fun _ => eq_refl) (conj (fun _ => eq_refl) (conj (fun _ => eq_refl) eq_refl))))))).
Qed.
Theorem close_idempotent :
  forall I ev s, let s1 := fst (step I ev s OClose) in
  st_closed I s1 = true /\ st_db I s1 = st_db I s /\ step I ev s1 OClose = (s1, Ok tt).
Proof. intros I ev s. exact (conj eq_refl (conj eq_refl eq_refl)). Qed.
Example closed_ex : st_closed _ (run no_index two_docs [good OClose]) = true.
Proof. reflexivity. Qed.

(** Finding: ListDocumentsWithFilter has no closed check, callers get some other
    error. *)
Theorem closed_store_lists_documents_refuted :
  exists s, st_closed no_index s = true /\ list_documents_with_filter no_index (fun l => l) s "" 10 = Err EOther.
Proof. exists (run no_index two_docs [good OClose]). split; reflexivity. Qed.

Print Assumptions get_after_upsert.
Print Assumptions stored_until_touched.
Print Assumptions failed_upsert_stores_nothing.
Print Assumptions upsert_accepts_valid.
Print Assumptions failed_upsert_no_effect_refuted.
Print Assumptions one_row_per_id.
Print Assumptions collections_unique.
Print Assumptions referential_integrity_partial.
Print Assumptions referential_integrity_refuted.
Print Assumptions batch_upsert_atomic.
Print Assumptions batch_upsert_effect.
Print Assumptions batch_upsert_one_by_one.
Print Assumptions batch_upsert_accepts_valid.
Print Assumptions batch_dimension_check_refuted.
Print Assumptions delete_exact.
Print Assumptions delete_failure_changes_nothing.
Print Assumptions delete_empty_id_refuted.
Print Assumptions delete_batch_exact.
Print Assumptions delete_by_doc_exact.
Print Assumptions clear_by_docs_exact.
Print Assumptions clear_by_docs_failure_changes_nothing.
Print Assumptions clear_removes_everything.
Print Assumptions delete_batch_atomic_partial.
Print Assumptions delete_batch_atomic_refuted.
Print Assumptions delete_collection_exact.
Print Assumptions delete_collection_all_or_nothing.
Print Assumptions delete_unknown_collection_changes_nothing.
Print Assumptions default_collection_deletable_refuted.
Print Assumptions delete_document_cascades_partial.
Print Assumptions delete_document_cascades_refuted.
Print Assumptions closed_store_refuses_mutations.
Print Assumptions closed_store_refuses_reads_partial.
Print Assumptions close_idempotent.
Print Assumptions closed_store_lists_documents_refuted.
