(** C29: the built-in rerankers and reranked search, for every list of results,
    configuration, query text and reachable store. *)
From Coq Require Import String Ascii List NArith ZArith Bool Arith Lia Permutation Sorted.
From Coq Require Import Floats.SpecFloat.
From Verif Require Import Base Floats64 TopK EncodingModel DimensionModel SimilarityModel StoreModel StoreSpec StoreProofs StoreInv StoreProofs2 StoreProofs3 StoreProps
  SearchModel SearchSpec SearchProofs SearchProps DiversityModel DiversitySpec DiversityProofs DiversityProps RerankModel RerankSpec RerankProofs.
Import ListNotations.
Open Scope string_scope.
Open Scope list_scope.

(** *** examples *)
Fixpoint words_of (cur : string) (s : string) : list string :=
  match s with
  | EmptyString => if String.eqb cur "" then [] else [cur]
  | String c s' => if Ascii.eqb c " "%char then (if String.eqb cur "" then [] else [cur]) ++ words_of "" s' else words_of (append cur (String c EmptyString)) s'
  end.
Definition plain_text : text_ops := {| lower := fun s => s; fields := words_of "" |}.
Definition hit (id content : string) (v : list N) (x : Z) : scored :=
  ({| e_id := id; e_collid := 0; e_coll := ""; e_vec := Some v; e_content := content; e_doc := ""; e_meta := None; e_acl := [] |}, f64_of_Z x).
Definition three_hits : list scored := [hit "a" "red fox" v10 4; hit "b" "blue sea" v11 2; hit "c" "red sea" v01 1].
Definition isorted := isort by_score.
Definition tsorted := isort (fun a b : nat * float => fgt (snd a) (snd b)).
Definition order_of (o : outcome (list scored)) : list string := match o with Ok l => map (fun r => e_id (fst r)) l | _ => ["failed"] end.

(** Every built-in reranker, including hybrids of built-in rerankers, returns the
    results it was given, each exactly as often, possibly reordered and rescored. *)
Theorem rerankers_permute :
  forall T srt tsrt b query results, sort_ok by_score srt ->
  exists out, rerank_with T srt tsrt b query results = Ok out /\ Permutation (map fst results) (map fst out).
Proof. intros T srt tsrt b query results Hs. exact (builtin_permutes T srt tsrt Hs b query results). Qed.
Definition rerank3 (b : builtin) (query : string) := rerank_with plain_text isorted tsorted b query three_hits.
Definition negated : builtin := BCustom (Some (fun _ r => SFopp (snd r))).
Example rerankers_permute_ex :
  sort_ok by_score isorted /\ order_of (rerank3 (BHybrid [BKeyword (f64_of_Z 5) true; negated] [f_one; f64_of_Z 20]) "sea red") = ["c"; "b"; "a"].
Proof. split; [apply isort_ok|vm_compute; reflexivity]. Qed.

(** Score normalisation maps the least score to [lo] and the others linearly. *)
Theorem normalization_exact :
  forall srt lo hi query results, sort_ok by_score srt -> results <> [] -> (forall r, In r results -> not_nan (snd r)) ->
  exists mn mx out, normalize_scores srt lo hi query results = Ok out /\ least_score results mn /\ greatest_score results mx /\
    rescored (fun r => f64_add (f64_mul (f64_div (f64_sub (snd r) mn) (if feq (f64_sub mx mn) f_zero then f64_of_Z 1 else f64_sub mx mn)) (f64_sub hi lo)) lo) results out.
Proof. intros srt lo hi query results Hs Hne Hn. exact (normalize_spec srt lo hi query results Hs Hne Hn). Qed.
Example normalization_exact_ex :
  (forall r, In r three_hits -> not_nan (snd r)) /\
  (exists out, rerank3 (BNormalize f_zero (f64_of_Z 30)) "" = Ok out /\ map (fun r => feq (snd r) (f64_of_Z 30)) out = [true; false; false]) /\
  order_of (rerank3 (BNormalize f_one f_zero) "") = ["c"; "b"; "a"].
Proof.
  split; [intros r [<-|[<-|[<-|[]]]]; vm_compute; discriminate|]. split; [|vm_compute; reflexivity].
  eexists. split; [vm_compute; reflexivity|]. vm_compute. reflexivity.
Qed.

(** Keyword matching multiplies a score by 1 + n * boost, where n > 0 of the query's
    words occur in the content. *)
Theorem keyword_boost_exact :
  forall T srt boost cs query results, sort_ok by_score srt ->
  exists n out, keyword_match T srt boost cs query results = Ok out /\
    (forall r, count_of (fun k => occurs k (if cs then e_content (fst r) else lower T (e_content (fst r))))
                        (fields T (if cs then query else lower T query)) (n r)) /\
    rescored (fun r => if (0 <? n r)%nat then f64_mul (snd r) (f64_add (f64_of_Z 1) (f64_mul (f64_of_Z (Z.of_nat (n r))) boost)) else snd r) results out.
Proof. intros T srt boost cs query results Hs. exact (keyword_spec T srt boost cs query results Hs). Qed.
Example keyword_boost_exact_ex :
  order_of (rerank3 (BKeyword (f64_of_Z 5) true) "sea") = ["b"; "c"; "a"] /\ order_of (rerank3 (BKeyword (f64_of_Z 5) true) "") = ["a"; "b"; "c"].
Proof. split; vm_compute; reflexivity. Qed.

(** Reciprocal rank fusion gives the result at position i the score
    vw/(K+i) + tw/(K+rank), positions counted from 1, where the ranks order the results
    by word overlap. *)
Theorem rank_fusion_exact :
  forall T srt tsrt k vw tw query results, sort_ok by_score srt -> sort_ok (fun a b : nat * float => fgt (snd a) (snd b)) tsrt ->
  exists value rank l out, rrf_rerank T srt tsrt k vw tw query results = Ok out /\
    (forall i r, nth_error results i = Some r -> overlap T query (e_content (fst r)) (value i)) /\
    ranking (length results) value rank /\
    length l = length results /\
    (forall i r, nth_error results i = Some r ->
       nth_error l i = Some (fst r, f64_add (f64_div vw (f64_add k (f64_of_Z (Z.of_nat (i + 1))))) (f64_div tw (f64_add k (f64_of_Z (Z.of_nat (rank i))))))) /\
    Permutation l out /\ ((forall r, In r l -> not_nan (snd r)) -> best_first out).
Proof. intros T srt tsrt k vw tw query results Hs Ht. exact (rrf_spec T srt tsrt k vw tw query results Hs Ht). Qed.
Example rank_fusion_exact_ex :
  order_of (rerank3 (BRrf (f64_of_Z 60) f_one (f64_of_Z 20)) "sea red") = ["c"; "b"; "a"].
Proof. vm_compute. reflexivity. Qed.

(** The diversity reranker always takes a result of highest marginal relevance among
    those left; only when none of those is above -1 may it take the first one left. The
    first result plays the part of the query. *)
Theorem diversity_rerank_greedy :
  forall sim lambda query r0 r1 l,
  let results := r0 :: r1 :: l in
  let f := match sim with Some f => f | None => cosine end in
  exists out idxs value, diversity_rerank sim lambda query results = Ok out /\ picked results idxs out /\ length out = length results /\
  (forall taken c, mmr_value f lambda (fst r0) taken c (value taken c)) /\
  (forall n i j ci cj, nth_error idxs n = Some i -> nth_error results i = Some ci -> nth_error results j = Some cj -> ~ In j (firstn n idxs) ->
     flt (value (firstn n out) ci) (value (firstn n out) cj) = false \/
     (flt (f64_of_Z (-1)) (value (firstn n out) cj) = false /\ i <= j)).
Proof. intros sim lambda query r0 r1 l. exact (diversity_greedy sim lambda query r0 r1 l). Qed.
Example diversity_rerank_greedy_ex :
  order_of (rerank3 (BDiversity None (f64_div f_one (f64_of_Z 3))) "") = ["a"; "c"; "b"] /\ order_of (rerank3 (BDiversity None f_one) "") = ["a"; "b"; "c"].
Proof. split; vm_compute; reflexivity. Qed.

(** The custom reranker gives each result the score of the function; without a function
    it keeps the scores. *)
Theorem custom_rerank_exact :
  forall srt f query results, sort_ok by_score srt ->
  exists out, custom_rerank srt f query results = Ok out /\
    rescored (fun r => match f with Some g => g query r | None => snd r end) results out.
Proof.
  intros srt f query results Hs. eexists. split; [reflexivity|]. cbn.
  replace (map (fun r : scored => match f with Some g => (fst r, g query r) | None => r end) results)
    with (map (fun r : scored => (fst r, match f with Some g => g query r | None => snd r end)) results); [apply (sort_rescored srt); auto|].
  apply map_ext. intros [e x]. destruct f; reflexivity.
Qed.
Example custom_rerank_exact_ex : order_of (rerank3 negated "") = ["c"; "b"; "a"].
Proof. vm_compute. reflexivity. Qed.

(** A hybrid of rerankers that return the results they are given scores each result with
    the weighted mean of its scores. *)
Theorem hybrid_rerank_exact :
  forall srt rs ws query results, sort_ok by_score srt -> rs <> [] -> NoDup (map (fun r : scored => e_id (fst r)) results) ->
  Forall (fun rr : reranker => exists o, rr query results = Ok o /\ Permutation (map fst results) (map fst o)) rs ->
  exists g out, hybrid_rerank srt rs ws query results = Ok out /\
    (forall r, In r results -> Forall2 (fun (rr : reranker) x => exists o, rr query results = Ok o /\ In (fst r, x) o) rs (g r)) /\
    rescored (fun r => weighted_mean (g r) ws (snd r)) results out.
Proof. intros srt rs ws query results Hs Hne Hn F. exact (hybrid_rerank_spec srt rs ws query results Hs Hne Hn F). Qed.
Example hybrid_rerank_exact_ex :
  NoDup (map (fun r : scored => e_id (fst r)) three_hits) /\
  order_of (rerank3 (BHybrid [BKeyword (f64_of_Z 5) true; negated] [f_one; f64_of_Z 20]) "sea") = ["c"; "b"; "a"] /\
  order_of (rerank3 (BHybrid [BKeyword (f64_of_Z 5) true; negated] [f_one; f_one]) "sea") = ["b"; "c"; "a"].
Proof.
  split; [repeat constructor; cbn; intuition discriminate|]. split; vm_compute; reflexivity.
Qed.

(** ** reranked search *)
Lemma cut_le k l : (0 < k)%Z -> (Z.of_nat (length (cut k l)) <= k)%Z.
Proof. intros Hk. unfold cut. destruct ((0 <? k)%Z && (k <? Z.of_nat (length l))%Z) eqn:C; [rewrite firstn_length|]; lia. Qed.
(** Reranked search with a built-in reranker returns stored embeddings, each once, at
    most TopK (when positive), each at or above a positive threshold: those of the
    reranked candidates of an ordinary search for max(5*TopK, 50), in reranked order. *)
Theorem reranked_search_sound :
  forall T srt tsrt I envs noise m sc s q query b o out,
  sort_ok by_score srt -> reachable I envs s -> scores_are_numbers I noise sc (plain_opts 0) s q ->
  search_with_reranker srt I noise m sc s q query (Some (rerank_with T srt tsrt b)) o = Ok out ->
  NoDup (map (fun x : scored => e_id (fst x)) out) /\
  (forall e x, In (e, x) out -> exists e0, get_by_id I s (e_id e) = Ok e0 /\ e = without_acl e0) /\
  ((0 < r_topk o)%Z -> (Z.of_nat (length out) <= r_topk o)%Z) /\
  (fgt (r_threshold o) f_zero = true -> forall e x, In (e, x) out -> fge x (r_threshold o) = true) /\
  exists initial reranked rest,
    search I srt noise m sc s q (plain_opts (Z.max (r_topk o * 5) 50)) = Ok initial /\
    (initial <> [] -> rerank_with T srt tsrt b query initial = Ok reranked) /\ (initial = [] -> reranked = []) /\
    filter (fun x => if fgt (r_threshold o) f_zero then fge (snd x) (r_threshold o) else true) reranked = out ++ rest /\
    (rest <> [] -> (Z.of_nat (length out) = r_topk o)%Z).
Proof.
  intros T srt tsrt I envs noise m sc s q query b o out Hs R Hn H. unfold search_with_reranker in H.
  destruct (st_closed I s); [discriminate|].
  destruct (search I srt noise m sc s q (plain_opts (Z.max (r_topk o * 5) 50))) as [initial| |] eqn:E; cbn [bind] in H; try discriminate.
  destruct (search_sound_lemma I srt noise m sc s q (plain_opts (Z.max (r_topk o * 5) 50)) initial envs Hs R Hn ltac:(vm_compute; discriminate) E) as (w & Q & Nd & _ & _ & A).
  assert (G : exists reranked, (initial <> [] -> rerank_with T srt tsrt b query initial = Ok reranked) /\ (initial = [] -> reranked = []) /\
     Permutation (map fst initial) (map fst reranked) /\
     out = cut (r_topk o) (filter (fun x => if fgt (r_threshold o) f_zero then fge (snd x) (r_threshold o) else true) reranked)).
  { destruct initial as [|i0 initial0].
    - injection H as <-. exists []. split; [congruence|]. split; auto. split; auto. unfold cut. cbn. destruct (_ && _); [|reflexivity]. rewrite firstn_nil. reflexivity.
    - destruct (rerankers_permute T srt tsrt b query (i0 :: initial0) Hs) as (l & El & P). rewrite El in H. cbn [bind] in H. injection H as <-.
      exists l. split; auto. split; [discriminate|]. split; auto. f_equal. destruct (fgt (r_threshold o) f_zero); [reflexivity|]. symmetry. apply filter_all. auto. }
  clear H. destruct G as (reranked & G1 & G2 & P & ->). set (kept := filter (fun x : scored => if fgt (r_threshold o) f_zero then fge (snd x) (r_threshold o) else true) reranked).
  assert (Hin : forall x, In x (cut (r_topk o) kept) -> In x kept).
  { intros x. unfold cut. destruct (_ && _); auto. apply in_firstn. }
  assert (Hc : exists rest, kept = cut (r_topk o) kept ++ rest /\ (rest <> [] -> (Z.of_nat (length (cut (r_topk o) kept)) = r_topk o)%Z)).
  { unfold cut. destruct ((0 <? r_topk o)%Z && (r_topk o <? Z.of_nat (length kept))%Z) eqn:C.
    - exists (skipn (Z.to_nat (r_topk o)) kept). rewrite firstn_skipn. split; auto. intros _. rewrite firstn_length. lia.
    - exists []. rewrite app_nil_r. split; auto. congruence. }
  split; [|split; [|split; [|split]]].
  - assert (N1 : NoDup (map (fun x : scored => e_id (fst x)) reranked)).
    { apply (Permutation_map e_id) in P. rewrite !map_map in P. eapply Permutation_NoDup; [exact P|exact Nd]. }
    assert (N2 : NoDup (map (fun x : scored => e_id (fst x)) kept)) by (apply NoDup_map_filter; auto).
    destruct Hc as (rest & Hc & _). rewrite Hc, map_app in N2. eapply NoDup_app_l. exact N2.
  - intros e x Hx. apply Hin in Hx. apply filter_In in Hx as [Hx _]. apply (in_map fst) in Hx.
    apply (Permutation_in _ (Permutation_sym P)) in Hx. apply in_map_iff in Hx as ([e' x'] & Ee & Hx). cbn in Ee. subst e'. apply (A e x' Hx).
  - apply cut_le.
  - intros Ht e x Hx. apply Hin in Hx. apply filter_In in Hx as [_ Hx]. rewrite Ht in Hx. exact Hx.
  - destruct Hc as (rest & Hc & Hr). exists initial, reranked, rest. auto 6.
Qed.
Definition ropt (k : Z) (t : float) : ropts := {| r_topk := k; r_threshold := t; r_preserve := false |}.
Definition rerank_cluster (r : option builtin) (o : ropts) :=
  search_with_reranker isorted list_index no_noise Linear cosine_scorer cluster (Some v21) "sea" (option_map (rerank_with plain_text isorted tsorted) r) o.
Definition half : float := f64_div f_one (f64_of_Z 2).
Example reranked_search_sound_ex :
  reachable list_index fk_env cluster /\ scores_are_numbers list_index no_noise cosine_scorer (plain_opts 0) cluster (Some v21) /\
  order_of (rerank_cluster (Some (BNormalize f_zero f_one)) (ropt 2 half)) = ["c"; "b"] /\
  order_of (rerank_cluster (Some negated) (ropt 2 f_zero)) = ["d"; "a"].
Proof.
  split; [apply filled_reachable|]. split; [|split; vm_compute; reflexivity].
  intros w id e Hq Hg. assert (w = v21) as ->.
  { destruct Hq as [[Hq _]|[_ Hq]]; [congruence|]. vm_compute in Hq. injection Hq as <-. reflexivity. }
  assert (E : exists r1 r2 r3 r4, t_rows (st_db _ cluster) = [r1; r2; r3; r4] /\ decode_vector (r_blob r1) = Ok v10 /\ decode_vector (r_blob r2) = Ok v11 /\
              decode_vector (r_blob r3) = Ok v32 /\ decode_vector (r_blob r4) = Ok v01).
  { do 4 eexists. split; [vm_compute; reflexivity|]. split; [vm_compute; reflexivity|]. split; [vm_compute; reflexivity|]. split; vm_compute; reflexivity. }
  destruct E as (r1 & r2 & r3 & r4 & E & E1 & E2 & E3 & E4). apply get_ok_inv in Hg as (r' & _ & F & Sg & _). rewrite E in F. cbn [find] in F.
  assert (Hv : decode_vector (r_blob r') = Ok (vec_of (without_acl e))).
  { unfold scan_get in Sg. destruct (decode_vector (r_blob r')) as [v| |]; cbn [bind] in Sg; try discriminate. injection Sg as <-. reflexivity. }
  change (not_nan (cosine v21 (vec_of (without_acl e)))). revert Hv.
  destruct (row_is id r1); [injection F as <-; rewrite E1; intros [= <-]; vm_compute; discriminate|].
  destruct (row_is id r2); [injection F as <-; rewrite E2; intros [= <-]; vm_compute; discriminate|].
  destruct (row_is id r3); [injection F as <-; rewrite E3; intros [= <-]; vm_compute; discriminate|].
  destruct (row_is id r4); [injection F as <-; rewrite E4; intros [= <-]; vm_compute; discriminate|]. discriminate.
Qed.

(** Not true of every reranked search: without a reranker the threshold is ignored. *)
Theorem nil_reranker_threshold_refuted :
  exists s q o out x, reachable list_index fk_env s /\ fgt (r_threshold o) f_zero = true /\
    search_with_reranker isorted list_index no_noise Linear cosine_scorer s q "" None o = Ok out /\
    In x out /\ fge (snd x) (r_threshold o) = false.
Proof.
  exists cluster, (Some v21), (ropt 9 half). eexists. eexists. split; [apply filled_reachable|]. split; [vm_compute; reflexivity|].
  split; [vm_compute; reflexivity|]. split; [right; right; right; left; reflexivity|]. vm_compute. reflexivity.
Qed.
(** PreserveOriginalScore does not preserve the original scores. *)
Theorem preserve_score_refuted :
  exists s q o out initial x, reachable list_index fk_env s /\ r_preserve o = true /\
    search list_index isorted no_noise Linear cosine_scorer s q (plain_opts 50) = Ok initial /\
    search_with_reranker isorted list_index no_noise Linear cosine_scorer s q "" (Some (rerank_with plain_text isorted tsorted negated)) o = Ok out /\
    In x out /\ ~ In x initial.
Proof.
  exists cluster, (Some v21), {| r_topk := 1; r_threshold := f_zero; r_preserve := true |}. do 3 eexists.
  split; [apply filled_reachable|]. split; [reflexivity|]. split; [vm_compute; reflexivity|]. split; [vm_compute; reflexivity|].
  split; [left; reflexivity|]. cbn. intuition discriminate.
Qed.
(** A hybrid with a reranker that leaves results out panics. *)
Theorem hybrid_partial_reranker_refuted :
  exists (rr : reranker) results, (forall query l, exists out, rr query l = Ok out /\ incl out l) /\
    hybrid_rerank isorted [rr] [f_one] "" results = Panic.
Proof.
  exists (fun _ l => Ok (firstn 1 l)), three_hits. split; [|vm_compute; reflexivity].
  intros query l. eexists. split; [reflexivity|]. intros x. apply in_firstn.
Qed.

Print Assumptions rerankers_permute.
Print Assumptions normalization_exact.
Print Assumptions keyword_boost_exact.
Print Assumptions rank_fusion_exact.
Print Assumptions diversity_rerank_greedy.
Print Assumptions custom_rerank_exact.
Print Assumptions hybrid_rerank_exact.
Print Assumptions reranked_search_sound.
Print Assumptions nil_reranker_threshold_refuted.
Print Assumptions preserve_score_refuted.
Print Assumptions hybrid_partial_reranker_refuted.
