(** C19 and C20: the index follows the stored rows. [dist] is the index's distance,
    [keep] what it keeps of a vector, [ef] its EfSearch; M and the rest come with the
    index a store is opened with. *)
From Coq Require Import String List NArith ZArith Bool Lia Permutation.
From Coq Require Import Floats.SpecFloat.
From Verif Require Import Base Floats64 TopK EncodingModel EncodingSpec DimensionModel StoreModel StoreSpec StoreProofs3 StoreProps
  SearchModel SearchSpec SimilarityModel SearchProps HnswModel HnswSpec IndexDistModel StoreIndexModel StoreIndexSpec StoreIndexProofs StoreIndexProofs2.
Import ListNotations.
Open Scope string_scope.
Open Scope list_scope.

(** *** A concrete store with an HNSW index and cosine distance, as initHNSWIndex makes it. *)
Definition kept (v : list N) : list N := v.
Definition cix := hnsw_ops cosine_distance kept 8.
Definition level0 : nat -> nat := fun _ => 0.
Definition sess : session := {| ss_dim := 2; ss_policy := SmartAdapt; ss_M := 4; ss_efc := 8; ss_workers := 1; ss_rand := level0 |}.
Definition empty_cix : store cix := Build_store cix (init_db 2 empty_db) 2 SmartAdapt false (fresh 4 level0 8).
Definition made (h : list op) : store cix := run cix empty_cix (map good h).
Definition find_hnsw (s : store cix) (q : list N) (k : Z) : list string :=
  SearchProps.ids_of (search cix (isort by_score) no_noise UseHNSW cosine_scorer s (Some q) (opts "" k [] f_zero)).
Definition find_all (s : store cix) (q : list N) (k : Z) : list string :=
  SearchProps.ids_of (search cix (isort by_score) no_noise Linear cosine_scorer s (Some q) (opts "" k [] f_zero)).

(** ** C19 *)
(** Proved: while every id is written once (updates and re-insertions excluded), all
    statements succeed and the operations that do not tell the index are not used
    (DeleteByDocID, Clear, ClearByDocID, DeleteCollection), the index holds exactly the
    stored ids, each with its current vector. Missing, because false: histories outside
    these conditions, see the refutations below. *)
Theorem index_follows_partial : forall dist keep ef M efc rand dim p s h,
  let I := hnsw_ops dist keep ef in
  open_store I dim p empty_db {| hx_graph := new_hnsw M efc; hx_rand := rand; hx_used := 0 |} = Ok s ->
  write_once h -> st_closed I (run I s h) = false ->
  index_matches_store dist keep ef (run I s h) (hx_graph (st_ix I (run I s h))).
Proof. intros dist keep ef M efc rand dim p s h I. exact (follows_lemma dist keep ef M dim p rand efc s h). Qed.
Example index_follows_ex :
  let h := [OUpsert (emb "a" v10); OUpsertBatch [emb "b" v01; emb "c" v11]; ODelete "b"] in
  write_once (map good h) /\ st_closed cix (made h) = false /\
  map fst (live (cont (st_ix cix (made h)))) = ["a"; "c"].
Proof.
  split; [|split; vm_compute; reflexivity]. split.
  - vm_compute. repeat constructor; cbn; intuition discriminate.
  - repeat constructor; cbn; auto; try (intros x [<-|[<-|[]]]; vm_compute; reflexivity).
Qed.
Print Assumptions index_follows_partial.

(** On small stores the indexed search is then exact: at most 2M+1 ids ever written, all
    within EfSearch and within twice the number of results, none of them empty, no NaN
    distances, no "doc_id" filter (C18). *)
Theorem small_store_search_exact_partial : forall dist keep ef M efc rand dim p s0 h srt noise sc q o out,
  let I := hnsw_ops dist keep ef in
  let ids := flat_map (fun eo => written (snd eo)) h in
  let s := run I s0 h in
  open_store I dim p empty_db {| hx_graph := new_hnsw M efc; hx_rand := rand; hx_used := 0 |} = Ok s0 ->
  write_once h ->
  1 <= M -> length ids <= 2 * M + 1 -> length ids <= ef -> length ids <= 2 * result_count o -> ~ In "" ids ->
  sort_ok by_score srt -> scores_are_numbers I noise sc o s q -> not_nan (o_threshold o) ->
  (forall w, query_used noise (st_policy I s) (st_dim I s) q w -> index_distances_are_numbers dist (st_ix I s) w) ->
  (forall v, ~ In ("doc_id", v) (o_filter o)) ->
  search I srt noise UseHNSW sc s q o = Ok out ->
  exists w all,
    query_used noise (st_policy I s) (st_dim I s) q w /\
    lists_stored I s (fun e => qualifies o e /\ above_threshold o (score sc o w e)) (score sc o w) all /\
    is_topk by_score (result_count o) all out.
Proof.
  intros dist keep ef M efc rand dim p s0 h srt noise sc q o out I ids s E [N F] HM L1 L2 L3 Ne Hs Sn Nt Nn Nd Es.
  apply (open_fresh dist keep ef M) in E as (V & R & _).
  destruct (run_sync dist keep ef M h [] s0 R V N (fun x _ H => H) F) as [V' R'].
  exact (small_search_lemma dist keep ef M srt noise sc s _ q o out Hs R' V' Sn Nt HM L1 L2 L3 Ne Nn Nd Es).
Qed.
Example small_store_search_exact_ex :
  let s := made [OUpsert (emb "a" v10); OUpsertBatch [emb "b" v01; emb "c" v11]; ODelete "b"] in
  find_hnsw s v10 2 = ["a"; "c"] /\ index_distances_are_numbers cosine_distance (st_ix cix s) v10.
Proof.
  split; [vm_compute; reflexivity|]. intros id n G. apply HnswSearchProofs.get_in in G. vm_compute in G.
  destruct G as [[= _ <-]|[[= _ <-]|[[= _ <-]|[]]]]; vm_compute; discriminate.
Qed.
Print Assumptions small_store_search_exact_partial.

Lemma made_reachable h : reachable cix fk_env (made h).
Proof.
  apply reachable_run.
  - eapply (reach_new cix _ 2%Z SmartAdapt (fresh 4 level0 8)). reflexivity.
  - apply Forall_forall. intros eo Hin. apply in_map_iff in Hin as (o & <- & _). reflexivity.
Qed.

(** Finding: updating an embedding leaves its old vector in the index: Insert refuses an
    id it knows and the store ignores that. The query equals the new vector, the
    exact search finds the embedding and the indexed one does not. *)
Theorem index_update_refuted :
  exists h e, let s := made h in
    reachable cix fk_env s /\ get_by_id cix s "a" = Ok e /\ vec_of e = v01 /\
    find_all s v01 1 = ["a"] /\ find_hnsw s v01 1 = ["c"].
Proof.
  exists [OUpsert (emb "a" v10); OUpsert (emb "b" v11); OUpsert (emb "c" v11); OUpsert (emb "a" v01)].
  eexists. cbv zeta. split; [apply made_reachable|]. split; [vm_compute; reflexivity|]. split; [vm_compute; reflexivity|].
  split; vm_compute; reflexivity.
Qed.

(** Finding: an embedding deleted and stored again is never found: the deleted node
    stays and refuses the insertion. Here the query is its very vector. *)
Theorem index_reinsert_refuted :
  exists h e, let s := made h in
    reachable cix fk_env s /\ get_by_id cix s "a" = Ok e /\ vec_of e = v10 /\
    find_all s v10 5 = ["a"; "b"] /\ find_hnsw s v10 5 = ["b"].
Proof.
  exists [OUpsert (emb "a" v10); OUpsert (emb "b" v01); ODelete "a"; OUpsert (emb "a" v10)].
  eexists. cbv zeta. split; [apply made_reachable|]. split; [vm_compute; reflexivity|]. split; [vm_compute; reflexivity|].
  split; vm_compute; reflexivity.
Qed.

(** Finding: deleting by document (likewise Clear, ClearByDocID, DeleteCollection)
    leaves the ids in the index. They fill its answer and the search returns nothing
    although a row is stored. *)
Theorem index_ghosts_refuted :
  exists h e, let s := made h in
    reachable cix fk_env s /\ get_by_id cix s "c" = Ok e /\
    find_all s v10 1 = ["c"] /\ find_hnsw s v10 1 = [].
Proof.
  exists [OCreateDoc (doc1 "d"); OUpsert (emb_doc "a" "d" v10); OUpsert (emb_doc "b" "d" v10); OUpsert (emb "c" v01); ODeleteByDoc "d"].
  eexists. cbv zeta. split; [apply made_reachable|]. split; [vm_compute; reflexivity|].
  split; vm_compute; reflexivity.
Qed.
Theorem index_clear_ghosts_refuted :
  exists h e, let s := made h in
    reachable cix fk_env s /\ get_by_id cix s "c" = Ok e /\
    find_all s v10 1 = ["c"] /\ find_hnsw s v10 1 = [].
Proof.
  exists [OUpsert (emb "a" v10); OUpsert (emb "b" v10); OClear; OUpsert (emb "c" v01)].
  eexists. cbv zeta. split; [apply made_reachable|]. split; [vm_compute; reflexivity|].
  split; vm_compute; reflexivity.
Qed.

(** Finding: a DeleteDocument whose DELETE fails has already removed the document's
    embeddings from the index: they are stored but no longer found. *)
Definition second_fails : env := {| ev_fk := true; ev_ok := fun n => Nat.eqb n 0; ev_noise := fun _ => f_zero |}.
Theorem index_failed_delete_document_refuted :
  exists h s e, step cix second_fails (made h) (ODeleteDoc "d") = (s, Err EOther) /\
    reachable cix fk_env s /\ get_by_id cix s "a" = Ok e /\ vec_of e = v10 /\
    find_all s v10 5 = ["a"; "c"] /\ find_hnsw s v10 5 = ["c"].
Proof.
  pose (h := [OCreateDoc (doc1 "d"); OUpsert (emb_doc "a" "d" v10); OUpsert (emb "c" v01)]).
  exists h, (fst (step cix second_fails (made h) (ODeleteDoc "d"))).
  eexists. split; [rewrite (surjective_pairing (step _ _ _ _)); f_equal; vm_compute; reflexivity|].
  split; [apply reach_step; [apply made_reachable|reflexivity]|]. split; [vm_compute; reflexivity|]. split; [vm_compute; reflexivity|].
  split; vm_compute; reflexivity.
Qed.

(** ** C20 *)
(** Histories of one database file: sessions are opened on it, operations run with any
    statements failing, snapshots are saved or not, memory is lost at any point. *)
Definition reached (dist : list N -> list N -> float) (keep : list N -> list N) (ef : nat) (es : list event) (y : sys dist keep ef) : Prop :=
  exists c y0, open_sys dist keep ef c empty_db None = Ok y0 /\ sys_run dist keep ef y0 es = Ok y.
Definition in_step {dist keep ef} (y : sys dist keep ef) : Prop :=
  index_matches_store dist keep ef (y_store _ _ _ y) (hx_graph (st_ix (hnsw_ops dist keep ef) (y_store _ _ _ y))).

(** Proved: as long as no snapshot has been saved, reopening after any history brings
    back every stored row and an index that holds exactly them. *)
Theorem reopen_without_snapshot_partial : forall dist keep ef es y c,
  let I := hnsw_ops dist keep ef in
  reached dist keep ef es y -> Forall (fun e => e <> EAutoSave true /\ e <> EClose true) es -> (0 <= ss_dim c)%Z ->
  exists y', sys_step dist keep ef y (EReopen c) = Ok y' /\ in_step y' /\
    t_rows (st_db I (y_store _ _ _ y')) = t_rows (st_db I (y_store _ _ _ y)) /\ st_closed I (y_store _ _ _ y') = false.
Proof.
  intros dist keep ef es y c I (c0 & y0 & E0 & E) F D. apply open_new_ok in E0 as [Y0 N0].
  pose proof (sys_run_ok dist keep ef es y0 y Y0 E) as (R & _). pose proof (unsaved_lemma dist keep ef es y0 y F N0 E) as N.
  exact (reopen_none_lemma dist keep ef _ y c R N D).
Qed.

(** Proved: if the index is in step when a save succeeds and only saves, closings and
    reopenings follow, it is in step again in whatever session is then open. *)
Theorem reopen_after_save_partial : forall dist keep ef es y sv y1 later y',
  let I := hnsw_ops dist keep ef in
  reached dist keep ef es y -> st_closed I (y_store _ _ _ y) = false -> in_step y ->
  (sv = EAutoSave true \/ sv = EClose true) -> sys_step dist keep ef y sv = Ok y1 ->
  Forall not_an_operation later -> sys_run dist keep ef y1 later = Ok y' -> st_closed I (y_store _ _ _ y') = false ->
  in_step y' /\ t_rows (st_db I (y_store _ _ _ y')) = t_rows (st_db I (y_store _ _ _ y)).
Proof.
  intros dist keep ef es y sv y1 later y' I (c0 & y0 & E0 & E) C M Hs E1 F E2 C'. apply open_new_ok in E0 as [Y0 N0].
  pose proof (sys_run_ok dist keep ef es y0 y Y0 E) as (R & G & _). split.
  - exact (saved_lemma dist keep ef _ y y1 y' sv later R C G M Hs E1 F E2 C').
  - exact (saved_rows_lemma dist keep ef y y1 y' sv later C Hs E1 F E2).
Qed.
Definition opened : outcome (sys cosine_distance kept 8) := open_sys cosine_distance kept 8 sess empty_db None.
Definition after (es : list event) : outcome (sys cosine_distance kept 8) := bind opened (fun y => sys_run cosine_distance kept 8 y es).
Definition upd_ev (e : embedding) : event := EOp good_env (OUpsert e).
Definition answers (r : outcome (sys cosine_distance kept 8)) (q : list N) (k : Z) : list string * list string :=
  match r with Ok y => (find_all (y_store _ _ _ y) q k, find_hnsw (y_store _ _ _ y) q k) | _ => ([], []) end.
Definition stored_vec (r : outcome (sys cosine_distance kept 8)) (id : string) : outcome (list N) :=
  match r with Ok y => bind (get_by_id cix (y_store _ _ _ y) id) (fun e => Ok (vec_of e)) | Err e => Err e | Panic => Panic end.
Example reopen_without_snapshot_ex :
  answers (after [upd_ev (emb "a" v10); upd_ev (emb "a" v01); upd_ev (emb "b" v11); EAutoSave false; EReopen sess]) v01 5 = (["a"; "b"], ["a"; "b"]).
Proof. vm_compute. reflexivity. Qed.
Example reopen_after_save_ex :
  answers (after [upd_ev (emb "a" v10); upd_ev (emb "b" v01); EClose true; EReopen sess; EAutoSave true; EReopen sess]) v10 5 = (["a"; "b"], ["a"; "b"]).
Proof. vm_compute. reflexivity. Qed.
Print Assumptions reopen_without_snapshot_partial.
Print Assumptions reopen_after_save_partial.

(** Finding: a snapshot is loaded as it is. What was committed after the last save is
    stored but unknown to the index once the process has died and the file is opened
    again, and stays unknown in every later session. *)
Theorem reopen_stale_refuted :
  exists es y e, after es = Ok y /\ In (EReopen sess) es /\
    get_by_id cix (y_store _ _ _ y) "b" = Ok e /\ vec_of e = v01 /\
    find_all (y_store _ _ _ y) v01 5 = ["b"; "a"] /\ find_hnsw (y_store _ _ _ y) v01 5 = ["a"].
Proof.
  pose (es := [upd_ev (emb "a" v10); EAutoSave true; upd_ev (emb "b" v01); EReopen sess; EClose true; EReopen sess]).
  assert (A : answers (after es) v01 5 = (["b"; "a"], ["a"])) by (vm_compute; reflexivity).
  assert (B : stored_vec (after es) "b" = Ok v01) by (vm_compute; reflexivity).
  assert (J : In (EReopen sess) es) by (unfold es; right; right; right; left; reflexivity).
  clearbody es. destruct (after es) as [y| |] eqn:E; cbn [stored_vec] in B; try discriminate.
  destruct (get_by_id cix (y_store _ _ _ y) "b") as [e| |] eqn:G; cbn [bind] in B; try discriminate. injection B as B.
  unfold answers in A. injection A as A1 A2.
  exists es, y, e. auto 7.
Qed.
