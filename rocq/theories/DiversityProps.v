(** C28, C75, C76: diverse search, search with negative examples and recommendations,
    anomalies; for every reachable store, similarity, random choice and map order. *)
From Coq Require Import String Ascii List NArith ZArith Bool Arith Lia Permutation Sorted.
From Coq Require Import Floats.SpecFloat.
From Verif Require Import Base Floats64 TopK EncodingModel DimensionModel SimilarityModel StoreModel StoreSpec StoreProofs StoreInv StoreProofs2 StoreProofs3 StoreProps
  SearchModel SearchSpec SearchProofs SearchProps SqlModel FilterModel FilterSpec FilterProofs FilterProofs2
  DiversityModel DiversitySpec DiversityProofs.
Import ListNotations.
Open Scope string_scope.
Open Scope list_scope.

(** *** examples *)
Definition v21 : list N := [0x40000000%N; 0x3f800000%N].
Definition v32 : list N := [0x40400000%N; 0x40000000%N].
Definition dio (m : dmethod) (k : Z) : dopts :=
  {| d_lambda := f_zero; d_method := m; d_mindist := f_zero; d_opts := opts "" k [] f_zero |}.
(** In order of similarity to (2, 1): c, b, a, d. *)
Definition cluster : store list_index :=
  filled [OUpsert (emb "a" v10); OUpsert (emb "b" v11); OUpsert (emb "c" v32); OUpsert (emb "d" v01)].
Definition diverse (m : dmethod) (q : list N) (k : Z) :=
  search_with_diversity list_index (isort by_score) (fun n => rev (seq 0 n)) (fun _ l => l) no_noise Linear cosine_scorer cluster (Some q) (dio m k).

(** ** C28 *)
Lemma diverse_inv I srt perm order noise m sc s q d out :
  search_with_diversity I srt perm order noise m sc s q d = Ok out ->
  exists cs, search I srt noise m sc s q (with_topk (d_opts d) (o_topk (d_opts d) * 3)) = Ok cs /\
    Ok out = match d_method d with
    | DMmr => Ok (diversify_mmr sc (d_lambda d) (o_topk (d_opts d)) cs)
    | DDistance => Ok (diversify_distance sc (d_mindist d) (o_topk (d_opts d)) cs)
    | DRandom => diversify_random srt perm (o_topk (d_opts d)) cs
    | DDpp => Ok (diversify_dpp sc order (o_topk (d_opts d)) cs)
    end.
Proof.
  unfold search_with_diversity. destruct (st_closed I s); [discriminate|].
  destruct (search I srt noise m sc s q _) as [cs| |] eqn:E; cbn [bind]; try discriminate. intros H. exists cs. auto.
Qed.
Lemma diverse_selects I srt perm order noise m sc s q d out :
  sort_ok by_score srt -> (forall n, Permutation (seq 0 n) (perm n)) -> (forall i l, Permutation l (order i l)) ->
  search_with_diversity I srt perm order noise m sc s q d = Ok out ->
  exists cs, search I srt noise m sc s q (with_topk (d_opts d) (o_topk (d_opts d) * 3)) = Ok cs /\ selection cs out /\
    ((0 < o_topk (d_opts d))%Z -> (Z.of_nat (length out) <= o_topk (d_opts d))%Z).
Proof.
  intros Hs Hp Ho H. apply diverse_inv in H as (cs & E & H). exists cs. split; auto. set (k := o_topk (d_opts d)) in *. destruct (d_method d).
  - injection H as ->. destruct cs as [|c cs]; [split; [exists []; split; constructor|cbn; lia]|].
    destruct (mmr_spec sc (d_lambda d) k (c :: cs) ltac:(discriminate)) as (idxs & P & _ & _ & L & _). split; [exists idxs; auto|lia].
  - injection H as ->. destruct (distance_spec sc (d_mindist d) k cs) as (idxs & P & _ & L & _). split; [exists idxs; auto|lia].
  - destruct (random_spec srt perm k cs out Hs Hp (eq_sym H)) as (idxs & P & L & _). split; [exists idxs; auto|lia].
  - injection H as ->. destruct (dpp_spec sc order k cs Ho) as (idxs & P & _ & L & _). split; [exists idxs; auto|lia].
Qed.

(** Every method returns stored embeddings in the collection and with the metadata asked
    for, each once, at most TopK, with the score the query gives them. *)
Theorem diverse_search_sound :
  forall I srt perm order envs noise m sc s q d out,
  sort_ok by_score srt -> (forall n, Permutation (seq 0 n) (perm n)) -> (forall i l, Permutation l (order i l)) ->
  reachable I envs s -> scores_are_numbers I noise sc (d_opts d) s q -> not_nan (o_threshold (d_opts d)) ->
  search_with_diversity I srt perm order noise m sc s q d = Ok out ->
  NoDup (map (fun x : scored => e_id (fst x)) out) /\
  ((0 < o_topk (d_opts d))%Z -> (Z.of_nat (length out) <= o_topk (d_opts d))%Z) /\
  exists w, query_used noise (st_policy I s) (st_dim I s) q w /\
    forall e x, In (e, x) out ->
      (exists e0, get_by_id I s (e_id e) = Ok e0 /\ e = without_acl e0) /\
      in_collection (d_opts d) e /\ meta_matches (d_opts d) e /\ above_threshold (d_opts d) x /\ x = blended sc (d_opts d) w e.
Proof.
  intros I srt perm order envs noise m sc s q d out Hs Hp Ho R Hn Ht H.
  destruct (diverse_selects I srt perm order noise m sc s q d out Hs Hp Ho H) as (cs & E & (idxs & P) & L).
  destruct (search_sound_lemma I srt noise m sc s q (with_topk (d_opts d) (o_topk (d_opts d) * 3)) cs envs Hs R Hn Ht E) as (w & Q & Nd & _ & _ & A).
  split; [exact (picked_NoDup _ cs idxs out P Nd)|]. split; [exact L|]. exists w. split; [exact Q|].
  intros e x Hin. destruct (A e x (picked_in _ _ _ _ P Hin)) as (A1 & A2 & A3 & A4 & A5).
  split; [exact A1|]. split; [exact A2|]. split; [exact A3|]. split; [exact A4|]. rewrite A5. exact (score_blended sc (with_topk (d_opts d) (o_topk (d_opts d) * 3)) w e).
Qed.
Example diverse_search_sound_ex :
  reachable list_index fk_env cluster /\ ids_of (diverse DMmr v21 2) = ["c"; "a"] /\ ids_of (diverse DDistance v21 3) = ["c"; "a"; "d"] /\
  ids_of (diverse DRandom v21 1) = ["b"] /\ ids_of (diverse DDpp v21 2) = ["c"; "d"].
Proof. split; [apply filled_reachable|]. split; [vm_compute; reflexivity|]. split; [vm_compute; reflexivity|]. split; vm_compute; reflexivity. Qed.

(** MMR takes the best candidate of an ordinary search for 3*TopK first, then always a
    candidate of highest marginal relevance among those not yet taken, until it has TopK
    or no candidate is left that has one above the least float32. *)
Theorem mmr_search_greedy :
  forall I srt perm order noise m sc s q d out,
  d_method d = DMmr -> (0 < o_topk (d_opts d))%Z ->
  search_with_diversity I srt perm order noise m sc s q d = Ok out ->
  exists cs idxs value,
    search I srt noise m sc s q (with_topk (d_opts d) (o_topk (d_opts d) * 3)) = Ok cs /\ picked cs idxs out /\
    (forall sel c, relevance sc (or_default (d_lambda d) half_f32) sel c (value sel c)) /\
    (cs <> [] -> nth_error idxs 0 = Some 0) /\
    (forall n i j ci cj, nth_error idxs n = Some i -> 1 <= n -> nth_error cs i = Some ci -> nth_error cs j = Some cj -> ~ In j (firstn n idxs) ->
       flt (value (firstn n out) ci) (value (firstn n out) cj) = false) /\
    (Z.of_nat (length out) <= o_topk (d_opts d))%Z /\
    ((Z.of_nat (length out) < o_topk (d_opts d))%Z ->
       forall j cj, nth_error cs j = Some cj -> ~ In j idxs -> flt (SFopp max_float32) (value out cj) = false).
Proof.
  intros I srt perm order noise m sc s q d out Hm Hk H. apply diverse_inv in H as (cs & E & H). rewrite Hm in H. injection H as ->.
  exists cs. set (lambda := or_default (d_lambda d) half_f32). destruct cs as [|c cs].
  - exists [], (mmr_score sc lambda). split; [exact E|]. split; [split; constructor|]. split; [apply mmr_score_spec|].
    split; [congruence|]. split; [intros [|n] i j ci cj Hn; discriminate|]. split; [cbn; lia|]. intros _ [|j] cj Hj; discriminate.
  - destruct (mmr_spec sc (d_lambda d) (o_topk (d_opts d)) (c :: cs) ltac:(discriminate)) as (idxs & P & F & G & L & S).
    fold lambda in G, S. exists idxs, (mmr_score sc lambda). split; [exact E|]. split; [exact P|]. split; [apply mmr_score_spec|].
    split; [auto|]. split.
    + intros n i j ci cj Hn Hle Hi Hj Hnot. specialize (G n i j Hn Hle). unfold at_index in G. rewrite Hi, Hj in G. apply G; auto.
      apply nth_error_Some. rewrite Hj. discriminate.
    + split; [lia|]. intros Hlt. destruct S as [S|S]; [lia|exact S].
Qed.
Example mmr_search_greedy_ex :
  ids_of (diverse DMmr v21 3) = ["c"; "a"; "b"] /\ ids_of (diverse DMmr v21 9) = ["c"; "a"; "b"; "d"].
Proof. split; vm_compute; reflexivity. Qed.

(** Distance-based diversification keeps the order of the search, keeps every two
    results at least the minimum distance apart, stops at TopK, and leaves out only
    candidates too close to an earlier result or ranked after the last one. *)
Theorem distance_search_apart :
  forall I srt perm order noise m sc s q d out,
  d_method d = DDistance -> (0 < o_topk (d_opts d))%Z ->
  (forall a b, not_nan (separation sc a b)) -> not_nan (d_mindist d) ->
  search_with_diversity I srt perm order noise m sc s q d = Ok out ->
  exists cs idxs,
    search I srt noise m sc s q (with_topk (d_opts d) (o_topk (d_opts d) * 3)) = Ok cs /\ picked cs idxs out /\
    StronglySorted lt idxs /\ (Z.of_nat (length out) <= o_topk (d_opts d))%Z /\
    (forall n k a b, n < k -> nth_error out n = Some a -> nth_error out k = Some b ->
       fge (separation sc (fst b) (fst a)) (or_default (d_mindist d) tenth_f32) = true) /\
    (forall j c, nth_error cs j = Some c -> ~ In j idxs ->
       (exists i b, In i idxs /\ i < j /\ nth_error cs i = Some b /\ flt (separation sc (fst c) (fst b)) (or_default (d_mindist d) tenth_f32) = true) \/
       (Z.of_nat (length out) = o_topk (d_opts d) /\ forall i, In i idxs -> (i < j)%nat)).
Proof.
  intros I srt perm order noise m sc s q d out Hm Hk Hsep Hmin H. apply diverse_inv in H as (cs & E & H). rewrite Hm in H. injection H as ->.
  destruct (distance_spec sc (d_mindist d) (o_topk (d_opts d)) cs) as (idxs & P & (S1 & S2) & L & C). cbv zeta in *.
  set (md := or_default (d_mindist d) tenth_f32) in *.
  assert (Hmd : not_nan md). { unfold md, or_default. destruct (feq (d_mindist d) f_zero); [vm_compute; discriminate|auto]. }
  exists cs, idxs. split; [exact E|]. split; [exact P|]. split; [exact S1|]. split; [lia|]. split.
  - intros n k a b Hlt Ha Hb. specialize (S2 n k a b Hlt Ha Hb). unfold fge. fold (fle md (separation sc (fst b) (fst a))).
    rewrite fle_flt by auto. rewrite S2. reflexivity.
  - intros j c Hj Hn. destruct (C j c Hj Hn) as [A|[A B]]; [left; exact A|right]. split; [lia|exact B].
Qed.
Example distance_search_apart_ex :
  ids_of (diverse DDistance v21 2) = ["c"; "a"] /\ fge (separation cosine_scorer (emb "a" v10) (emb "c" v32)) tenth_f32 = true /\
  flt (separation cosine_scorer (emb "b" v11) (emb "c" v32)) tenth_f32 = true.
Proof. split; [vm_compute; reflexivity|]. split; vm_compute; reflexivity. Qed.

(** Random diversification returns all candidates, or exactly TopK of the first
    2*TopK, best first. *)
Theorem random_search_size :
  forall I srt perm order envs noise m sc s q d out,
  sort_ok by_score srt -> (forall n, Permutation (seq 0 n) (perm n)) -> d_method d = DRandom ->
  reachable I envs s -> scores_are_numbers I noise sc (d_opts d) s q -> not_nan (o_threshold (d_opts d)) ->
  search_with_diversity I srt perm order noise m sc s q d = Ok out ->
  exists cs idxs,
    search I srt noise m sc s q (with_topk (d_opts d) (o_topk (d_opts d) * 3)) = Ok cs /\ picked cs idxs out /\
    length out = Nat.min (Z.to_nat (o_topk (d_opts d))) (length cs) /\
    (length cs <= Z.to_nat (o_topk (d_opts d)) -> out = cs) /\
    (Z.to_nat (o_topk (d_opts d)) < length cs -> forall i, In i idxs -> i < Z.to_nat (o_topk (d_opts d)) * 2) /\
    best_first out.
Proof.
  intros I srt perm order envs noise m sc s q d out Hs Hp Hm R Hn Ht H. apply diverse_inv in H as (cs & E & H). rewrite Hm in H.
  destruct (random_spec srt perm _ cs out Hs Hp (eq_sym H)) as (idxs & A1 & A2 & A3 & A4). exists cs, idxs.
  split; [exact E|]. split; [exact A1|]. split; [exact A2|]. split; [exact A3|]. split; [exact A4|].
  destruct (search_sound_lemma I srt noise m sc s q (with_topk (d_opts d) (o_topk (d_opts d) * 3)) cs envs Hs R Hn Ht E) as (w & Q & _ & B & _ & A).
  unfold diversify_random in H. destruct (Z.leb _ _); [injection H as ->; exact B|]. destruct (Z.ltb _ _); [discriminate|]. injection H as ->.
  match goal with |- best_first (srt ?l) => destruct (Hs l) as [Pm Sm]; apply Sm; set (ll := l) in * end.
  apply (weak_order_desc (fun x : scored => snd x)). intros [e x] Hin.
  assert (Hin2 : In (e, x) cs) by (apply (picked_in _ _ _ _ A1); apply (Permutation_in _ Pm); auto).
  destruct (A e x Hin2) as ((e0 & G & ->) & _ & _ & _ & ->). cbn [snd]. exact (Hn w _ e0 Q G).
Qed.
Example random_search_size_ex :
  (forall n, Permutation (seq 0 n) (rev (seq 0 n))) /\ ids_of (diverse DRandom v21 3) = ["b"; "a"; "d"] /\ ids_of (diverse DRandom v21 4) = ["c"; "b"; "a"; "d"].
Proof. split; [intros n; apply Permutation_rev|]. split; vm_compute; reflexivity. Qed.

(** The determinantal method returns all candidates when there are at most TopK, else
    greedily takes, of the first hundred, one of highest positive gain each time, until
    it has TopK or no gain is positive. *)
Theorem dpp_search_greedy :
  forall I srt perm order noise m sc s q d out,
  (forall i l, Permutation l (order i l)) -> d_method d = DDpp -> (0 < o_topk (d_opts d))%Z ->
  search_with_diversity I srt perm order noise m sc s q d = Ok out ->
  exists cs idxs,
    search I srt noise m sc s q (with_topk (d_opts d) (o_topk (d_opts d) * 3)) = Ok cs /\ picked cs idxs out /\
    ((Z.of_nat (length cs) <= o_topk (d_opts d))%Z -> out = cs) /\
    (Z.of_nat (length out) <= o_topk (d_opts d))%Z /\
    ((o_topk (d_opts d) < Z.of_nat (length cs))%Z ->
      (forall n i, nth_error idxs n = Some i -> i < 100 /\ exists ci xi, nth_error cs i = Some ci /\
        gain sc (firstn n out) ci xi /\ flt f_zero xi = true /\
        forall j cj, j < 100 -> nth_error cs j = Some cj -> ~ In j (firstn n idxs) -> exists xj, gain sc (firstn n out) cj xj /\ flt xi xj = false) /\
      ((Z.of_nat (length out) < o_topk (d_opts d))%Z ->
       forall j cj, j < 100 -> nth_error cs j = Some cj -> ~ In j idxs -> exists xj, gain sc out cj xj /\ flt f_zero xj = false)).
Proof.
  intros I srt perm order noise m sc s q d out Ho Hm Hk H. apply diverse_inv in H as (cs & E & H). rewrite Hm in H. injection H as ->.
  destruct (dpp_spec sc order (o_topk (d_opts d)) cs Ho) as (idxs & A1 & A2 & A3 & A4). cbv zeta in *. exists cs, idxs.
  split; [exact E|]. split; [exact A1|]. split; [exact A2|]. split; [lia|]. intros Hlt. destruct (A4 Hlt) as [B1 B2]. split; [exact B1|].
  intros Hl. destruct B2 as [B2|B2]; [lia|exact B2].
Qed.
Example dpp_search_greedy_ex : ids_of (diverse DDpp v21 3) = ["c"; "d"; "a"].
Proof. vm_compute. reflexivity. Qed.

(** The size is not always the requested one: the determinantal method returns nothing
    for TopK 1 though two candidates are found, when their scores are not positive; MMR
    returns one of four candidates when TopK is left 0, where a search returns all four;
    and the random method crashes on a negative TopK. *)
Definition opposite : store list_index := filled [OUpsert (emb "a" v10); OUpsert (emb "b" [0x40000000%N; 0%N])].
Theorem diverse_search_size_refuted :
  (exists cs, search list_index (isort by_score) no_noise Linear cosine_scorer opposite (Some v01) (opts "" 3 [] f_zero) = Ok cs /\ length cs = 2 /\
     search_with_diversity list_index (isort by_score) (fun n => seq 0 n) (fun _ l => l) no_noise Linear cosine_scorer opposite (Some v01) (dio DDpp 1) = Ok []) /\
  (exists cs out, search list_index (isort by_score) no_noise Linear cosine_scorer cluster (Some v21) (opts "" 0 [] f_zero) = Ok cs /\ length cs = 4 /\
     diverse DMmr v21 0 = Ok out /\ length out = 1) /\
  diverse DRandom v21 (-1) = Panic.
Proof.
  split; [eexists; split; [vm_compute; reflexivity|]; split; [reflexivity|vm_compute; reflexivity]|]. split; [|vm_compute; reflexivity].
  eexists. eexists. split; [vm_compute; reflexivity|]. split; [reflexivity|]. split; [vm_compute; reflexivity|reflexivity].
Qed.

(** ** C75 *)
(** Search with negative examples returns, best first, the TopK best (all of them when
    TopK is not positive) of exactly the stored embeddings that match the options, scored
    by their best similarity to a positive example minus the weight (1/2 when left 0)
    times their best similarity to a negative one. *)
Theorem negative_search_exact :
  forall I srt envs sc s pos neg w o out,
  sort_ok by_score srt -> reachable I envs s ->
  (forall id e x, get_by_id I s id = Ok e -> contrast sc pos neg (or_default w half_f32) e x -> not_nan x) ->
  search_with_negatives I srt sc s pos neg w o = Ok out ->
  exists f all, (forall e, contrast sc pos neg (or_default w half_f32) e (f e)) /\
    lists_stored I s (qualifies o) f all /\ is_topk by_score (limit_count o all) all out.
Proof. intros I srt envs sc s pos neg w o out. exact (negatives_spec I srt sc s envs pos neg w o out). Qed.
Example negative_search_exact_ex :
  ids_of (search_with_negatives list_index (isort by_score) cosine_scorer cluster [v21] [v11] one_f32 (opts "" 2 [] f_zero)) = ["a"; "c"] /\
  ids_of (search_with_negatives list_index (isort by_score) cosine_scorer cluster [v21] [] one_f32 (opts "" 2 [] f_zero)) = ["c"; "b"].
Proof. split; vm_compute; reflexivity. Qed.

(** RecommendSimilar is that search for the vectors stored under the given ids, with
    weight 1/2; ids that are not stored count for nothing. *)
Theorem recommend_similar_exact :
  forall I srt envs sc s pos neg o out,
  sort_ok by_score srt -> reachable I envs s ->
  (forall id e x p n, get_by_id I s id = Ok e ->
     (forall v, In v (p ++ n) -> exists id' e', get_by_id I s id' = Ok e' /\ v = vec_of e') -> contrast sc p n half_f32 e x -> not_nan x) ->
  recommend_similar I srt sc s pos neg o = Ok out ->
  exists pv nv f all,
    (forall v, In v pv <-> exists id e, In id pos /\ get_by_id I s id = Ok e /\ v = vec_of e) /\
    (forall v, In v nv <-> exists id e, In id neg /\ get_by_id I s id = Ok e /\ v = vec_of e) /\
    (forall e, contrast sc pv nv half_f32 e (f e)) /\
    lists_stored I s (qualifies o) f all /\ is_topk by_score (limit_count o all) all out.
Proof.
  intros I srt envs sc s pos neg o out Hs R Hn H. unfold recommend_similar in H.
  assert (Hv : forall l v, In v (example_vectors I s l) <-> exists id e, In id l /\ get_by_id I s id = Ok e /\ v = vec_of e).
  { intros l v. unfold example_vectors. rewrite in_flat_map. split.
    - intros (id & Hid & Hin). destruct (get_by_id I s id) as [e| |] eqn:G; cbn in Hin; [|tauto|tauto]. destruct Hin as [<-|[]]. exists id, e. auto.
    - intros (id & e & Hid & G & ->). exists id. split; auto. rewrite G. left; auto. }
  destruct (negatives_spec I srt sc s envs (example_vectors I s pos) (example_vectors I s neg) half_f32 o out Hs R) as (f & all & A & B & C).
  { intros id e x G Q. refine (Hn id e x _ _ G _ Q). intros v Hin. apply in_app_or in Hin as [Hin|Hin]; apply Hv in Hin as (id' & e' & _ & G' & ->); eauto. }
  { exact H. }
  exists (example_vectors I s pos), (example_vectors I s neg), f, all.
  split; [apply Hv|]. split; [apply Hv|]. split; [exact A|]. split; [exact B|exact C].
Qed.
Example recommend_similar_exact_ex :
  ids_of (recommend_similar list_index (isort by_score) cosine_scorer cluster ["c"; "nosuch"] ["d"] (opts "" 2 [] f_zero)) = ["a"; "c"].
Proof. vm_compute. reflexivity. Qed.

(** ** C76 *)
(** FindAnomalies scores every stored embedding that matches the options by its mean
    distance to its five nearest others (all others when there are fewer) and returns
    the TopK highest. *)
Theorem find_anomalies_exact :
  forall I srt dsrt envs sc s o out,
  sort_ok by_score srt -> sort_ok flt dsrt -> reachable I envs s ->
  (forall id id' e e', get_by_id I s id = Ok e -> get_by_id I s id' = Ok e' -> not_nan (separation sc e e')) ->
  find_anomalies I srt dsrt sc s o = Ok out ->
  exists f all, lists_stored I s (qualifies o) f all /\
    (forall e x, In (e, x) all -> exists ds,
       is_topk flt 5 (map (separation sc e) (filter (fun y => negb (String.eqb (e_id y) (e_id e))) (map fst all))) ds /\
       x = f64_of_f32 (mean ds)) /\
    (Forall (fun x => not_nan (snd x)) all -> is_topk by_score (limit_count o all) all out).
Proof. intros I srt dsrt envs sc s o out. exact (anomalies_spec I srt dsrt sc s envs o out). Qed.
Example find_anomalies_exact_ex :
  ids_of (find_anomalies list_index (isort by_score) (isort flt) cosine_scorer cluster (opts "" 1 [] f_zero)) = ["d"].
Proof. vm_compute. reflexivity. Qed.

Print Assumptions diverse_search_sound.
Print Assumptions mmr_search_greedy.
Print Assumptions distance_search_apart.
Print Assumptions random_search_size.
Print Assumptions dpp_search_greedy.
Print Assumptions diverse_search_size_refuted.
Print Assumptions negative_search_exact.
Print Assumptions recommend_similar_exact.
Print Assumptions find_anomalies_exact.
