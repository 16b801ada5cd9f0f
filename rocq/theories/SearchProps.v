(** C16-C18: vector search, for every reachable store, every index behind it, every
    similarity and every query. *)
From Coq Require Import String List NArith ZArith Bool Permutation.
From Coq Require Import Floats.SpecFloat.
From Verif Require Import Base Floats64 TopK EncodingModel EncodingProofs DimensionModel SimilarityModel SimilaritySpec SimilarityProofs
  StoreModel StoreSpec StoreInv StoreProofs2 StoreProofs3 StoreProps SearchModel SearchSpec SearchProofs.
Import ListNotations.
Open Scope string_scope.
Open Scope list_scope.

(** *** examples *)
(** An exact index: the ids and vectors inserted, most recent first, all of which it
    answers up to the number asked. *)
Definition list_index : index_ops :=
  {| ix := list (string * list N);
     ix_insert := fun i id v => (id, v) :: filter (fun p => negb (String.eqb (fst p) id)) i;
     ix_delete := fun i id => filter (fun p => negb (String.eqb (fst p) id)) i;
     ix_search := fun i q k => firstn k (map fst i) |}.
Definition cosine_scorer : scorer := {| sc_sim := cosine; sc_text := None; sc_enabled := false; sc_default := f_zero |}.
Definition no_noise : nat -> float := fun _ => f_zero.
Definition opts (col : string) (k : Z) (f : smap) (t : float) : sopts :=
  {| o_coll := col; o_topk := k; o_filter := f; o_threshold := t; o_textw := f_zero; o_qtext := "" |}.
Definition emb_meta (id : string) (v : list N) (m : smap) : embedding :=
  {| e_id := id; e_collid := 0; e_coll := ""; e_vec := Some v; e_content := "text"; e_doc := ""; e_meta := Some m; e_acl := [] |}.
Definition emb_doc (id doc : string) (v : list N) : embedding :=
  {| e_id := id; e_collid := 0; e_coll := ""; e_vec := Some v; e_content := "text"; e_doc := doc; e_meta := None; e_acl := [] |}.
Definition v10 : list N := [0x3f800000%N; 0%N].
Definition v01 : list N := [0%N; 0x3f800000%N].
Definition v11 : list N := [0x3f800000%N; 0x3f800000%N].
Definition vnan : list N := [0x7fc00000%N; 0%N].
Definition empty_at (I : index_ops) (i : ix I) (dim : Z) : store I :=
  Build_store I (init_db dim empty_db) dim SmartAdapt false i.
Definition filled (h : list op) : store list_index := run list_index (empty_at list_index [] 2) (map good h).
Definition ids_of (r : outcome (list scored)) : list string :=
  match r with Ok l => map (fun x => e_id (fst x)) l | _ => [] end.
Lemma filled_reachable h : reachable list_index fk_env (filled h).
Proof.
  apply reachable_run.
  - eapply (reach_new list_index _ 2%Z SmartAdapt []). reflexivity.
  - apply Forall_forall. intros eo Hin. apply in_map_iff in Hin as (o & <- & _). reflexivity.
Qed.

(** ** C16 *)
(** A successful exhaustive search returns, best first, the TopK best (10 when TopK
    is not positive) of exactly the stored embeddings in the requested collection
    that match the filter and reach the threshold. *)
Theorem score_is_blend : forall sc o q e, score sc o q e = blended sc o q e.
Proof. exact score_blended. Qed.
Example score_is_blend_ex :
  let sc := {| sc_sim := cosine; sc_text := Some (fun a b => if String.eqb a b then f_one else f_zero); sc_enabled := false; sc_default := f_zero |} in
  let o := {| o_coll := ""; o_topk := 1; o_filter := []; o_threshold := f_zero; o_textw := f64_div f_one (f64_of_Z 4); o_qtext := "text" |} in
  blended sc o v10 (emb "a" v01) = f64_div f_one (f64_of_Z 4) /\ blended sc o v10 (emb "a" v10) = f_one.
Proof. split; vm_compute; reflexivity. Qed.

Theorem search_exact :
  forall I srt envs noise sc s q o out,
  sort_ok by_score srt -> reachable I envs s -> scores_are_numbers I noise sc o s q ->
  search I srt noise Linear sc s q o = Ok out ->
  exists w all,
    query_used noise (st_policy I s) (st_dim I s) q w /\
    lists_stored I s (fun e => qualifies o e /\ above_threshold o (score sc o w e)) (score sc o w) all /\
    is_topk by_score (result_count o) all out.
Proof. intros I srt envs noise sc s q o out H1 H2 H3 H4. rewrite <- topk_count. exact (search_exact_lemma I srt noise sc s q o out envs H1 H2 H3 H4). Qed.
Example search_exact_ex :
  let s := filled [OUpsert (emb_meta "a" v10 [("k", "x")]); OUpsert (emb_meta "b" v01 [("k", "x")]);
                   OUpsert (emb_meta "c" v11 [("k", "x")]); OUpsert (emb_meta "d" v10 [])] in
  reachable list_index fk_env s /\
  ids_of (search list_index (isort by_score) no_noise Linear cosine_scorer s (Some v10) (opts "" 2 [("k", "x")] f_zero)) = ["a"; "c"].
Proof. split; [apply filled_reachable|vm_compute; reflexivity]. Qed.

(** With the built-in cosine similarity and finite stored vectors no assumption on
    scores is needed. *)
Definition stored_finite (I : index_ops) (s : store I) : Prop :=
  forall id e, get_by_id I s id = Ok e -> Forall finite32 (vec_of e).
Theorem cosine_scores_are_numbers :
  forall I noise o s q, stored_finite I s -> (forall w, query_used noise (st_policy I s) (st_dim I s) q w ->
     Forall finite32 w /\ (Z.of_nat (length w) <= 2 ^ 31)%Z) ->
  scores_are_numbers I noise cosine_scorer o s q.
Proof.
  intros I noise o s q Hf Hq w id e Hw Hg. unfold score. cbn [sc_sim sc_text cosine_scorer].
  replace (fgt f_zero f_zero) with false by reflexivity. rewrite andb_false_r. destruct (Hq w Hw). apply cosine_not_nan_lemma; auto.
  exact (Hf id e Hg).
Qed.
Example cosine_scores_are_numbers_ex : stored_finite list_index (filled [OUpsert (emb "a" v10)]).
Proof.
  intros id e H. assert (E : exists r, t_rows (st_db _ (filled [OUpsert (emb "a" v10)])) = [r] /\ r_id r = "a" /\ decode_vector (r_blob r) = Ok v10).
  { eexists. vm_compute. auto. }
  destruct E as (r & E1 & E2 & E3). apply get_ok_inv in H as (r' & _ & F & S & _). rewrite E1 in F. cbn [find] in F.
  destruct (row_is id r); [|discriminate]. injection F as <-. unfold scan_get in S. rewrite E3 in S. cbn [bind] in S.
  injection S as <-. repeat constructor; vm_compute; discriminate.
Qed.

(** A valid query of the store's dimension is answered. *)
Theorem search_accepts_valid :
  forall I srt noise m sc s v o, st_closed I s = false -> v <> [] -> Forall finite32 v ->
  (st_dim I s = 0%Z \/ st_dim I s = Z.of_nat (length v)) ->
  exists out, search I srt noise m sc s (Some v) o = Ok out.
Proof.
  intros I srt noise m sc s v o Hc Hn Hf Hd. eexists. apply search_ok; auto. apply validate_iff. exists v. auto.
Qed.
Example search_accepts_valid_ex : v10 <> [] /\ Forall finite32 v10 /\ st_dim _ (filled []) = Z.of_nat (length v10).
Proof. split; [discriminate|]. split; [repeat constructor; vm_compute; discriminate|reflexivity]. Qed.

(** An empty or non-finite query of the store's dimension, or any query to a store
    without a dimension, is refused. *)
Theorem search_refuses_invalid :
  forall I srt noise m sc s v o, (v = [] \/ ~ Forall finite32 v) ->
  (st_dim I s = 0%Z \/ st_dim I s = Z.of_nat (length v)) ->
  exists e, search I srt noise m sc s (Some v) o = Err e.
Proof.
  intros I srt noise m sc s v o Hv Hd. unfold search. destruct (st_closed I s); [eauto|]. unfold prepare_query.
  assert (E : Z.ltb 0 (st_dim I s) && negb (Z.eqb (Z.of_nat (length v)) (st_dim I s)) = false).
  { destruct Hd as [->| ->]; [reflexivity|]. rewrite Z.eqb_refl. apply andb_false_r. }
  rewrite E. cbn [bind]. destruct (validate_vector (Some v)) as [[]|e|] eqn:V; cbn [bind]; [|eauto|].
  - apply validate_iff in V as (xs & [= <-] & N & F). destruct Hv; [congruence|]. contradiction.
  - destruct v as [|x v]; cbn [validate_vector] in V; [discriminate|]. destruct (forallb _ _); discriminate.
Qed.
Example search_refuses_invalid_ex : ~ Forall finite32 vnan /\ st_dim _ (filled []) = Z.of_nat (length vnan).
Proof. split; [|reflexivity]. intros H. inversion H as [|? ? [H1 _] _]. apply H1. reflexivity. Qed.

(** The assumption on scores matters: the store accepts a vector containing NaN, and
    one such row makes the search report a worse match and drop the best one. *)
Theorem search_exact_with_nan_refuted :
  exists s out1 b,
    reachable list_index fk_env s /\
    search list_index (go_isort by_score) no_noise Linear cosine_scorer s (Some v10) (opts "" 1 [] f_zero) = Ok out1 /\
    get_by_id list_index s "best" = Ok b /\ vec_of b = v10 /\
    map (fun x => e_id (fst x)) out1 = ["worst"].
Proof.
  exists (filled [OUpsert (emb "worst" v01); OUpsert (emb "nan" vnan); OUpsert (emb "best" v10)]).
  eexists. eexists. split; [apply filled_reachable|]. split; [vm_compute; reflexivity|]. split; [vm_compute; reflexivity|].
  split; vm_compute; reflexivity.
Qed.

(** ** C17 *)
(** Everything SearchWithFilter returns is stored, matches both filters, is scored
    correctly and in order. *)
Theorem search_with_filter_sound_partial :
  forall I srt envs fmt_g noise m sc s q o fs out,
  sort_ok by_score srt -> reachable I envs s -> scores_are_numbers I noise sc o s q -> not_nan (o_threshold o) ->
  search_with_filter I srt fmt_g noise m sc s q o fs = Ok out ->
  exists w, query_used noise (st_policy I s) (st_dim I s) q w /\
    NoDup (map (fun x => e_id (fst x)) out) /\ best_first out /\ length out <= result_count o /\
    forall e x, In (e, x) out ->
      (exists e0, get_by_id I s (e_id e) = Ok e0 /\ e = without_acl e0) /\
      in_collection o e /\ meta_matches o e /\ passes fmt_g fs e /\ above_threshold o x /\ x = score sc o w e.
Proof.
  intros I srt envs fmt_g noise m sc s q o fs out H1 H2 H3 H4 H5.
  rewrite <- topk_count. exact (search_with_filter_sound I srt fmt_g noise m sc s q o fs out envs H1 H2 H3 H4 H5).
Qed.
(** It returns all of them when no more than TopK embeddings match without the extra
    filter. *)
Theorem search_with_filter_complete_partial :
  forall I srt envs fmt_g noise sc s q o fs out,
  sort_ok by_score srt -> reachable I envs s -> scores_are_numbers I noise sc o s q ->
  search_with_filter I srt fmt_g noise Linear sc s q o fs = Ok out ->
  exists w all, query_used noise (st_policy I s) (st_dim I s) q w /\
    lists_stored I s (fun e => qualifies o e /\ above_threshold o (score sc o w e)) (score sc o w) all /\
    (length all <= result_count o -> forall e x, In (e, x) out <-> In (e, x) all /\ passes fmt_g fs e).
Proof.
  intros I srt envs fmt_g noise sc s q o fs out H1 H2 H3 H5.
  rewrite <- topk_count. exact (search_with_filter_complete I srt fmt_g noise sc s q o fs out envs H1 H2 H3 H5).
Qed.
Definition two_langs : list op :=
  [OUpsert (emb_meta "a" v10 [("lang", "en")]); OUpsert (emb_meta "b" v11 [("lang", "fr")])].
Example search_with_filter_ex :
  ids_of (search_with_filter list_index (isort by_score) (fun _ => "") no_noise Linear cosine_scorer (filled two_langs) (Some v10)
            (opts "" 5 [] f_zero) [("lang", FStr "fr")]) = ["b"].
Proof. vm_compute. reflexivity. Qed.
(** In general it does not: the filter is applied after truncation to TopK, so a
    matching embedding is missed while the answer has room for it. *)
Theorem search_with_filter_complete_refuted :
  exists s b,
    reachable list_index fk_env s /\ get_by_id list_index s "b" = Ok b /\ passes (fun _ => "") [("lang", FStr "fr")] b /\
    search_with_filter list_index (isort by_score) (fun _ => "") no_noise Linear cosine_scorer s (Some v10)
      (opts "" 1 [] f_zero) [("lang", FStr "fr")] = Ok [].
Proof.
  exists (filled two_langs). eexists. split; [apply filled_reachable|]. split; [vm_compute; reflexivity|]. split.
  - intros k f [[= <- <-]|[]]. exists [("lang", "fr")], "fr". vm_compute. auto.
  - vm_compute. reflexivity.
Qed.

(** ** C18 *)
(** Whatever the index answers, everything returned is stored, of the right
    collection, matches the metadata filter, reaches the threshold, carries its true
    score, and appears once, best first, at most TopK in number. *)
Theorem indexed_search_sound_partial :
  forall I srt envs noise m sc s q o out,
  sort_ok by_score srt -> reachable I envs s -> scores_are_numbers I noise sc o s q -> not_nan (o_threshold o) ->
  search I srt noise m sc s q o = Ok out ->
  exists w, query_used noise (st_policy I s) (st_dim I s) q w /\
    NoDup (map (fun x => e_id (fst x)) out) /\ best_first out /\ length out <= result_count o /\
    forall e x, In (e, x) out ->
      (exists e0, get_by_id I s (e_id e) = Ok e0 /\ e = without_acl e0) /\
      in_collection o e /\ meta_matches o e /\ above_threshold o x /\ x = score sc o w e.
Proof.
  intros I srt envs noise m sc s q o out H1 H2 H3 H4 H5. rewrite <- topk_count. exact (search_sound_lemma I srt noise m sc s q o out envs H1 H2 H3 H4 H5).
Qed.
(** It is exact relative to the ids the index answers, and falls back to the exact
    search when the index answers none. *)
Theorem indexed_search_exact_on_candidates :
  forall I srt envs noise m sc s q o out,
  sort_ok by_score srt -> reachable I envs s -> scores_are_numbers I noise sc o s q -> not_nan (o_threshold o) ->
  m <> Linear -> search I srt noise m sc s q o = Ok out ->
  exists w, query_used noise (st_policy I s) (st_dim I s) q w /\
    let ids := ix_search I (st_ix I s) w (result_count o * match m with UseIVF => 4 | _ => 2 end) in
    (ids = [] -> search I srt noise Linear sc s q o = Ok out) /\
    (ids <> [] -> exists all,
       lists_stored I s (fun e => In (e_id e) ids /\ in_collection o e /\ meta_matches o e /\ above_threshold o (score sc o w e))
         (score sc o w) all /\
       is_topk by_score (result_count o) all out).
Proof.
  intros I srt envs noise m sc s q o out H1 H2 H3 H4 H5 H6.
  rewrite <- topk_count. exact (search_over_index_lemma I srt noise m sc s q o out envs H1 H2 H3 H4 H5 H6).
Qed.
Example indexed_search_ex :
  ids_of (search list_index (isort by_score) no_noise UseHNSW cosine_scorer
    (filled [OUpsert (emb "a" v01); OUpsert (emb "b" v10); OUpsert (emb "c" v11)]) (Some v10) (opts "" 2 [] f_zero)) = ["b"; "c"].
Proof. vm_compute. reflexivity. Qed.
(** A "doc_id" filter is not applied to the index's candidates: the same query
    returns another document's embedding, which the exact search does not. *)
Definition two_documents : list op :=
  [OCreateDoc (doc1 "d1"); OCreateDoc (doc1 "d2"); OUpsert (emb_doc "a" "d1" v10); OUpsert (emb_doc "b" "d2" v11)].
Theorem indexed_search_honours_doc_filter_refuted :
  exists s, reachable list_index fk_env s /\
    ids_of (search list_index (isort by_score) no_noise UseHNSW cosine_scorer s (Some v10) (opts "" 5 [("doc_id", "d2")] f_zero)) = ["a"; "b"] /\
    ids_of (search list_index (isort by_score) no_noise Linear cosine_scorer s (Some v10) (opts "" 5 [("doc_id", "d2")] f_zero)) = ["b"].
Proof. exists (filled two_documents). split; [apply filled_reachable|]. split; vm_compute; reflexivity. Qed.
(** An index holding everything still starves a filtered search: with TopK 1 the
    index is asked for two candidates, none of the wanted collection. *)
Theorem indexed_search_complete_refuted :
  exists s, reachable list_index fk_env s /\
    ids_of (search list_index (isort by_score) no_noise UseHNSW cosine_scorer s (Some v10) (opts "other" 1 [] f_zero)) = [] /\
    ids_of (search list_index (isort by_score) no_noise Linear cosine_scorer s (Some v10) (opts "other" 1 [] f_zero)) = ["a"].
Proof.
  exists (filled [OCreateColl "other" 2; OUpsert (emb_in "a" "other" "" v10); OUpsert (emb "b" v01); OUpsert (emb "c" v11)]).
  split; [apply filled_reachable|]. split; vm_compute; reflexivity.
Qed.

Print Assumptions score_is_blend.
Print Assumptions search_exact.
Print Assumptions cosine_scores_are_numbers.
Print Assumptions search_accepts_valid.
Print Assumptions search_refuses_invalid.
Print Assumptions search_exact_with_nan_refuted.
Print Assumptions search_with_filter_sound_partial.
Print Assumptions search_with_filter_complete_partial.
Print Assumptions search_with_filter_complete_refuted.
Print Assumptions indexed_search_sound_partial.
Print Assumptions indexed_search_exact_on_candidates.
Print Assumptions indexed_search_honours_doc_filter_refuted.
Print Assumptions indexed_search_complete_refuted.
