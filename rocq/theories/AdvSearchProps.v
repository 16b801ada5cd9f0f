(** C21-C23, C27: access-controlled, hybrid and range search, for every reachable
    store, similarity, query, keyword index and sort. *)
From Coq Require Import String Ascii List NArith ZArith Bool Permutation.
From Coq Require Import Floats.SpecFloat.
From Verif Require Import Base Floats64 TopK EncodingModel DimensionModel SimilarityModel StoreModel StoreSpec StoreProofs StoreInv StoreProofs2 StoreProofs3 StoreProps
  SearchModel SearchSpec SearchProofs SearchProps SqlModel FilterModel FilterSpec FilterProofs FilterProofs2
  AdvSearchModel AdvSearchSpec AdvSearchProofs RangeProofs.
Import ListNotations.
Open Scope string_scope.
Open Scope list_scope.

(** *** examples *)
Definition emb_acl (id col : string) (v : list N) (acl : list string) : embedding :=
  {| e_id := id; e_collid := 0; e_coll := col; e_vec := Some v; e_content := "text"; e_doc := "";
     e_meta := None; e_acl := acl |}.
(** One public embedding, one of alice's and one of bob's. *)
Definition shared : store list_index :=
  filled [OUpsert (emb_acl "pub" "" v11 []); OUpsert (emb_acl "al" "" v01 ["alice"; "team"]); OUpsert (emb_acl "bo" "" v10 ["bob"])].

(** ** C21 *)
(** Every result is a stored embedding the caller may see: a public one, or one that
    lists one of the caller's principals. *)
Theorem acl_search_only_visible :
  forall I N srt envs sc s q acl o out e x,
  sort_ok by_score srt -> reachable I envs s -> search_with_acl I srt N sc s q acl o = Ok out -> In (e, x) out ->
  exists e0, get_by_id I s (e_id e) = Ok e0 /\ e = without_acl e0 /\ visible acl e0 /\ x = sc_sim sc q (vec_of e0).
Proof.
  intros I N srt envs sc s q acl o out e x Hs R H Hin.
  destruct (st_closed I s) eqn:C; [unfold search_with_acl in H; rewrite C in H; discriminate|].
  destruct (acl_search_spec I N srt sc s envs q acl o R C) as (all & E & _ & L). rewrite E in H. injection H as <-.
  apply limit_in in Hin. destruct (Hs all) as [P _]. apply (Permutation_in _ (Permutation_sym P)) in Hin.
  apply L in Hin as (e0 & A & B & D & F). exists e0. repeat split; auto; [eapply acl_chosen_visible; eauto|rewrite F, B; reflexivity].
Qed.
Example acl_search_only_visible_ex :
  reachable list_index fk_env shared /\
  ids_of (search_with_acl list_index (isort by_score) integers cosine_scorer shared v10 ["alice"] (opts "" 0 [] f_zero)) = ["pub"; "al"] /\
  ids_of (search_with_acl list_index (isort by_score) integers cosine_scorer shared v10 [] (opts "" 0 [] f_zero)) = ["pub"].
Proof. split; [apply filled_reachable|split; vm_compute; reflexivity]. Qed.

(** Without a collection, the result is exactly the TopK best (all of them when TopK
    is not positive) of the visible embeddings. *)
Theorem acl_search_exact :
  forall I N srt envs sc s q acl o,
  sort_ok by_score srt -> reachable I envs s -> st_closed I s = false -> o_coll o = "" ->
  (forall id e, get_by_id I s id = Ok e -> not_nan (sc_sim sc q (vec_of e))) ->
  exists out all, search_with_acl I srt N sc s q acl o = Ok out /\
    lists_where I s (visible acl) (fun e => sc_sim sc q (vec_of e)) all /\
    is_topk by_score (limit_count o all) all out.
Proof.
  intros I N srt envs sc s q acl o Hs R C Ho Hn. destruct (acl_search_spec I N srt sc s envs q acl o R C) as (all & E & L).
  exists (limit o (srt all)), all. split; auto. split.
  - destruct L as [L1 L2]. split; auto. intros e x. rewrite L2. split; intros (e0 & A & B & D & F); exists e0; repeat split; auto.
    + eapply acl_chosen_visible; eauto.
    + apply acl_visible_chosen; auto. left; auto.
  - apply limit_topk; auto. eapply where_weak_order; [exact L|]. intros id e G. apply (Hn id e G).
Qed.
Example acl_search_exact_ex :
  reachable list_index fk_env shared /\ st_closed list_index shared = false /\
  ids_of (search_with_acl list_index (isort by_score) integers cosine_scorer shared v10 ["bob"; "x"] (opts "" 1 [] f_zero)) = ["bo"].
Proof. split; [apply filled_reachable|split; vm_compute; reflexivity]. Qed.

(** ** C22 *)
(** A caller with no principals gets exactly the best public embeddings of the
    collection asked for. *)
Theorem acl_search_in_collection_partial :
  forall I N srt envs sc s q o,
  sort_ok by_score srt -> reachable I envs s -> st_closed I s = false ->
  (forall id e, get_by_id I s id = Ok e -> not_nan (sc_sim sc q (vec_of e))) ->
  exists out all, search_with_acl I srt N sc s q [] o = Ok out /\
    lists_where I s (fun e => public e /\ in_collection o e) (fun e => sc_sim sc q (vec_of e)) all /\
    is_topk by_score (limit_count o all) all out.
Proof.
  intros I N srt envs sc s q o Hs R C Hn. destruct (acl_search_spec I N srt sc s envs q [] o R C) as (all & E & L).
  exists (limit o (srt all)), all. split; auto. split; [exact L|].
  apply limit_topk; auto. eapply where_weak_order; [exact L|]. intros id e G. apply (Hn id e G).
Qed.
Definition two_colls : store list_index :=
  filled [OCreateColl "c2" 2; OUpsert (emb_acl "pub" "" v10 []); OUpsert (emb_acl "in" "c2" v01 []); OUpsert (emb_acl "al" "c2" v11 ["alice"])].
Example acl_search_in_collection_partial_ex :
  reachable list_index fk_env two_colls /\
  ids_of (search_with_acl list_index (isort by_score) integers cosine_scorer two_colls v10 [] (opts "c2" 0 [] f_zero)) = ["in"].
Proof. split; [apply filled_reachable|vm_compute; reflexivity]. Qed.

(** With principals, every visible embedding of the collection takes part and every
    result is either in the collection or public. *)
Theorem acl_search_collection_bounds_partial :
  forall I N srt envs sc s q acl o,
  sort_ok by_score srt -> reachable I envs s -> st_closed I s = false ->
  (forall id e, get_by_id I s id = Ok e -> not_nan (sc_sim sc q (vec_of e))) ->
  exists out all P, search_with_acl I srt N sc s q acl o = Ok out /\
    lists_where I s P (fun e => sc_sim sc q (vec_of e)) all /\ is_topk by_score (limit_count o all) all out /\
    (forall e, visible acl e -> in_collection o e -> P e) /\
    (forall e, P e -> visible acl e /\ (in_collection o e \/ public e)).
Proof.
  intros I N srt envs sc s q acl o Hs R C Hn. destruct (acl_search_spec I N srt sc s envs q acl o R C) as (all & E & L).
  exists (limit o (srt all)), all, (acl_chosen acl o). split; auto. split; [exact L|]. split; [|split].
  - apply limit_topk; auto. eapply where_weak_order; [exact L|]. intros id e G. apply (Hn id e G).
  - intros e. apply acl_visible_chosen.
  - intros e He. split; [eapply acl_chosen_visible; eauto|]. unfold acl_chosen in He. destruct acl; tauto.
Qed.
Example acl_search_collection_bounds_partial_ex :
  reachable list_index fk_env two_colls /\
  ids_of (search_with_acl list_index (isort by_score) integers cosine_scorer two_colls v01 ["alice"] (opts "c2" 2 [] f_zero)) = ["in"; "al"].
Proof. split; [apply filled_reachable|vm_compute; reflexivity]. Qed.

(** Given principals and a collection, the search returns a public embedding of
    another collection. *)
Theorem acl_search_in_collection_refuted :
  exists acl o e0 out, reachable list_index fk_env two_colls /\
    get_by_id list_index two_colls "pub" = Ok e0 /\ ~ in_collection o e0 /\
    search_with_acl list_index (isort by_score) integers cosine_scorer two_colls v10 acl o = Ok out /\
    In (without_acl e0) (map fst out).
Proof.
  exists ["alice"], (opts "c2" 1 [] f_zero). eexists. eexists. split; [apply filled_reachable|].
  split; [vm_compute; reflexivity|]. split; [intros [H|H]; discriminate|]. split; [vm_compute; reflexivity|]. left. reflexivity.
Qed.

(** ** C23 *)
(** A successful hybrid search returns the best of exactly the stored embeddings
    found by the vector search or by keyword, each once, scored by the sum of the
    reciprocals of their ranks. *)
Theorem hybrid_fusion_exact :
  forall I srt shuffle envs noise m sc ft s q text o k out,
  sort_ok by_score srt -> (forall l, Permutation l (shuffle l)) -> reachable I envs s ->
  scores_are_numbers I noise sc o s (Some q) -> not_nan (o_threshold o) ->
  (forall l, ft text = Some l -> hits_distinct l) ->
  hybrid_search I srt shuffle noise m sc ft s q text o k = Ok out ->
  exists vres all,
    (q = [] -> vres = []) /\ (q <> [] -> search I srt noise m sc s (Some q) o = Ok vres) /\
    NoDup (map (fun x : scored => e_id (fst x)) all) /\
    (forall e x, In (e, x) all <-> exists e0, get_by_id I s (e_id e) = Ok e0 /\ e = without_acl e0 /\
        fused (rrf_constant k) (map (fun x : scored => e_id (fst x)) vres) (hits_used (ft text) text o) (e_id e) x) /\
    (Forall (fun x => not_nan (snd x)) all -> is_topk by_score (limit_count o all) all out) /\
    (forall e x, In (e, x) out -> In (e, x) all).
Proof. intros I srt shuffle envs noise m sc ft s. exact (hybrid_spec I srt shuffle noise m sc ft s envs). Qed.

(** Without a keyword query (or when it fails) every result is in the collection
    asked for and matches the metadata filter. *)
Theorem hybrid_fusion_scope_partial :
  forall I srt shuffle envs noise m sc ft s q text o k out e x,
  sort_ok by_score srt -> (forall l, Permutation l (shuffle l)) -> reachable I envs s ->
  scores_are_numbers I noise sc o s (Some q) -> not_nan (o_threshold o) ->
  text = "" \/ ft text = None ->
  hybrid_search I srt shuffle noise m sc ft s q text o k = Ok out -> In (e, x) out ->
  in_collection o e /\ meta_matches o e.
Proof.
  intros I srt shuffle envs noise m sc ft s q text o k out e x Hs Hsh R Hn Ht Htext H Hin.
  assert (Hh : hits_used (ft text) text o = []). { unfold hits_used. destruct Htext as [-> | ->]; [destruct (ft ""); reflexivity|reflexivity]. }
  set (ft0 := fun t => if String.eqb t text then None else ft t : option (list (option string))).
  assert (H0 : hybrid_search I srt shuffle noise m sc ft0 s q text o k = Ok out).
  { unfold hybrid_search in *. unfold ft0. rewrite String.eqb_refl. destruct Htext as [-> | E]; [exact H|]. rewrite E in H. exact H. }
  destruct (hybrid_spec I srt shuffle noise m sc ft0 s envs q text o k out Hs Hsh R Hn Ht) as (vres & all & A1 & A2 & A3 & A4 & A5 & A6); auto.
  { unfold ft0. rewrite String.eqb_refl. discriminate. }
  apply A6, A4 in Hin as (e0 & G & -> & F).
  assert (Hv : In (e_id (without_acl e0)) (ids vres)).
  { replace (hits_used (ft0 text) text o) with (@nil (option string)) in F by (unfold ft0; rewrite String.eqb_refl; reflexivity).
    inversion F; subst; [eapply nth_error_In; eauto..|]. destruct j; discriminate. }
  destruct q as [|q0 q]; [rewrite (A1 eq_refl) in Hv; destruct Hv|].
  destruct (search_sound_lemma I srt noise m sc s _ o vres envs Hs R Hn Ht (A2 ltac:(discriminate))) as (w & _ & B1 & _ & _ & B2).
  apply in_map_iff in Hv as ((e1 & y) & Hid & Hin). destruct (B2 e1 y Hin) as ((e2 & G2 & ->) & C1 & C2 & _).
  cbn [fst] in Hid. assert (E : get_by_id I s (e_id (without_acl e2)) = Ok e0) by (rewrite Hid; exact G). rewrite G2 in E. injection E as ->. auto.
Qed.

(** The keyword index of the examples: "go" matches b, then pub. *)
Definition keyword : fts := fun t => if String.eqb t "go" then Some [Some "in"; None; Some "pub"] else None.
Definition rrf60 : float := f64_of_Z 60.
Example hybrid_fusion_exact_ex :
  reachable list_index fk_env two_colls /\ (forall l, keyword "go" = Some l -> hits_distinct l) /\
  ids_of (hybrid_search list_index (isort by_score) (fun l => l) no_noise Linear cosine_scorer keyword two_colls v10 "go" (opts "" 0 [] f_zero) rrf60) = ["in"; "pub"; "al"].
Proof.
  split; [apply filled_reachable|split; [|vm_compute; reflexivity]]. intros l [= <-] i j id Hi Hj.
  destruct i as [|[|[|i]]], j as [|[|[|j]]]; cbn in *; try congruence; destruct i + destruct j; discriminate.
Qed.
Example hybrid_fusion_scope_partial_ex :
  ids_of (hybrid_search list_index (isort by_score) (fun l => l) no_noise Linear cosine_scorer keyword two_colls v10 "(" (opts "c2" 0 [] f_zero) rrf60) = ["al"; "in"].
Proof. vm_compute. reflexivity. Qed.

(** A keyword hit of another collection is returned. *)
Theorem hybrid_fusion_scope_refuted :
  exists o e0 out, reachable list_index fk_env two_colls /\
    get_by_id list_index two_colls "pub" = Ok e0 /\ ~ in_collection o e0 /\
    hybrid_search list_index (isort by_score) (fun l => l) no_noise Linear cosine_scorer keyword two_colls v10 "go" o rrf60 = Ok out /\
    In (without_acl e0) (map fst out).
Proof.
  exists (opts "c2" 3 [] f_zero). eexists. eexists. split; [apply filled_reachable|].
  split; [vm_compute; reflexivity|]. split; [intros [H|H]; discriminate|]. split; [vm_compute; reflexivity|]. right. right. left. reflexivity.
Qed.

(** ** C27 *)
(** A successful range search returns, nearest first, the TopK nearest (all of them
    when TopK is not positive) of exactly the stored embeddings that match the options,
    have a vector, and whose distance, derived from the similarity, is at most the
    radius. *)
Theorem range_search_exact :
  forall I srt envs sc s q radius o out,
  sort_ok by_distance srt -> reachable I envs s -> range_search I srt sc s q radius o = Ok out ->
  exists all,
    lists_stored I s (fun e => qualifies o e /\ vec_of e <> [] /\ fle (distance_of_score (sc_sim sc q (vec_of e))) radius = true)
      (fun e => f64_of_f32 (distance_of_score (sc_sim sc q (vec_of e)))) all /\
    is_topk nearer_first (limit_count o all) all out.
Proof. intros I srt envs sc s. exact (range_spec I srt sc s envs). Qed.
Definition half32 : float := f32_of_f64 (f64_div f_one (f64_of_Z 2)).
Definition tenth32 : float := f32_of_f64 (f64_div f_one (f64_of_Z 10)).
Example range_search_exact_ex :
  ids_of (range_search list_index (isort by_distance) cosine_scorer shared v10 half32 (opts "" 0 [] f_zero)) = ["bo"; "al"; "pub"] /\
  ids_of (range_search list_index (isort by_distance) cosine_scorer shared v10 half32 (opts "" 2 [] f_zero)) = ["bo"; "al"].
Proof. split; vm_compute; reflexivity. Qed.

(** A search is answered exactly when the store is open and the radius positive. *)
Theorem range_search_answered :
  forall I srt sc s q radius o,
  (exists out, range_search I srt sc s q radius o = Ok out) <-> st_closed I s = false /\ fle radius f_zero = false.
Proof.
  intros I srt sc s q radius o. unfold range_search. destruct (st_closed I s); [split; [intros [? ?]; discriminate|intros [? _]; discriminate]|].
  destruct (fle radius f_zero); [split; [intros [? ?]; discriminate|intros [_ ?]; discriminate]|]. split; [auto|]. intros _. eexists. reflexivity.
Qed.
Example range_search_answered_ex :
  fle half32 f_zero = false /\ fle (SFopp half32) f_zero = true /\ fle f_zero f_zero = true.
Proof. vm_compute. auto. Qed.

(** A batch answers every query as the single call does, in order, or fails when one
    of them fails. *)
Theorem batch_range_search_pointwise :
  forall I srt sc s qs radius o outs,
  batch_range I srt sc s qs radius o = Ok outs <-> Forall2 (fun q out => range_search I srt sc s q radius o = Ok out) qs outs.
Proof.
  intros I srt sc s qs radius o. induction qs as [|q qs IH]; intros outs; cbn [batch_range].
  - split; [intros [= <-]; constructor|]. intros H. inversion H. reflexivity.
  - split.
    + destruct (range_search I srt sc s q radius o) as [x| |] eqn:E; cbn [bind]; try discriminate.
      destruct (batch_range I srt sc s qs radius o) as [xs| |] eqn:E2; cbn [bind]; try discriminate. intros [= <-]. constructor; auto. apply IH. reflexivity.
    + intros H. inversion H; subst. rewrite H2. cbn [bind]. apply IH in H4. rewrite H4. reflexivity.
Qed.
Example batch_range_search_pointwise_ex :
  exists a b, batch_range list_index (isort by_distance) cosine_scorer shared [v10; v01] half32 (opts "" 1 [] f_zero) = Ok [a; b] /\
  ids_of (Ok a) = ["bo"] /\ ids_of (Ok b) = ["bo"].
Proof. eexists. eexists. split; [vm_compute; reflexivity|split; reflexivity]. Qed.

(** Among similarities on the same side of zero a more similar vector is never
    farther. *)
Theorem range_distance_monotone_partial :
  forall x y, finite64 x -> finite64 y -> fle x y = true -> (fle y f_zero = true \/ flt f_zero x = true) ->
  fle (distance_of_score y) (distance_of_score x) = true.
Proof. exact distance_mono. Qed.
Example range_distance_monotone_partial_ex :
  finite64 f_zero /\ finite64 (f64_of_Z 1) /\ fle f_zero (f64_of_Z 1) = true.
Proof.
  split; [eexists; apply FloatReal.fin_zero|split; [eexists; apply fin_one|reflexivity]].
Qed.

(** With cosine similarity an orthogonal vector is at distance zero, so it is within
    a radius that a more similar vector exceeds. *)
Theorem range_search_similarity_refuted :
  exists near far radius out,
    get_by_id list_index shared "pub" = Ok near /\ get_by_id list_index shared "al" = Ok far /\
    flt (cosine v10 (vec_of far)) (cosine v10 (vec_of near)) = true /\
    range_search list_index (isort by_distance) cosine_scorer shared v10 radius (opts "" 0 [] f_zero) = Ok out /\
    In (without_acl far) (map fst out) /\ ~ In (without_acl near) (map fst out).
Proof.
  eexists. eexists. exists tenth32. eexists. split; [vm_compute; reflexivity|]. split; [vm_compute; reflexivity|].
  split; [vm_compute; reflexivity|]. split; [vm_compute; reflexivity|]. split; [right; left; reflexivity|].
  intros [H|[H|[]]]; discriminate.
Qed.

Print Assumptions acl_search_only_visible.
Print Assumptions acl_search_exact.
Print Assumptions acl_search_in_collection_partial.
Print Assumptions acl_search_collection_bounds_partial.
Print Assumptions acl_search_in_collection_refuted.
Print Assumptions hybrid_fusion_exact.
Print Assumptions hybrid_fusion_scope_partial.
Print Assumptions hybrid_fusion_scope_refuted.
Print Assumptions range_search_exact.
Print Assumptions range_search_answered.
Print Assumptions batch_range_search_pointwise.
Print Assumptions range_distance_monotone_partial.
Print Assumptions range_search_similarity_refuted.
