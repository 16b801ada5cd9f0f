(** C44: composite indexes. *)
From Coq Require Import String List NArith ZArith Bool Lia Permutation Sorted.
From Coq Require Import Floats.SpecFloat.
From Verif Require Import Base Floats64 TopK IndexDistModel IvfModel IvfSpec IvfProofs IvfProps HnswModel MultiIndexSpec MultiIndexModel MultiIndexProofs.
Import ListNotations.
Local Open Scope string_scope.

(** C44. Merged search returns, nearest first, the best distance per id over the members'
    answers, whatever the members are and in whatever order maps are visited. *)
Theorem multi_merge_best (M : Type) m_search omem ores srt (x : multi M) q k :
  (forall l, Permutation l (omem l)) -> (forall l, Permutation l (ores l)) -> sort_ok multi_closer srt -> (0 <= k)%Z ->
  (forall t m, In (t, m) (mi_members M x) -> exists a, m_search m q k = Ok a /\ forall r, In r a -> not_nan (fst r)) ->
  exists all out, search_merge M m_search omem ores srt x q k = Ok out /\
    NoDup (map snd all) /\
    (forall d id, In (d, id) all -> exists t m a, In (t, m) (mi_members M x) /\ m_search m q k = Ok a /\ In (d, id) a) /\
    (forall t m a d id, In (t, m) (mi_members M x) -> m_search m q k = Ok a -> In (d, id) a ->
       exists d', In (d', id) all /\ flt d d' = false) /\
    is_topk nearer (Z.to_nat k) all out.
Proof.
  intros P1 P2 Hs Hk Ha. unfold search_merge.
  assert (Hm : forall m, In m (map snd (omem (mi_members M x))) <-> exists t, In (t, m) (mi_members M x)).
  { intros m. split; [apply members_perm_in; auto|]. intros (t & H). apply in_map_iff. exists (t, m). split; auto. eapply Permutation_in; [apply P1|auto]. }
  assert (Ea : exists answers, ask M m_search (map snd (omem (mi_members M x))) q k = Ok answers).
  { revert Hm. generalize (map snd (omem (mi_members M x))) as ms. intros ms Hm.
    assert (Hall : forall m, In m ms -> exists a, m_search m q k = Ok a). { intros m H. apply Hm in H as [t H]. destruct (Ha t m H) as (a & E & _). eauto. }
    clear Hm. induction ms as [|m ms IH]; cbn [ask]; [eauto|]. destruct (Hall m (or_introl eq_refl)) as [a ->]. cbn [bind].
    destruct IH as [r ->]; [intros; apply Hall; right; auto|]. cbn. eauto. }
  destruct Ea as [answers Ea]. rewrite Ea. cbn [bind]. unfold top. destruct (Z.ltb_spec k 0); [lia|].
  destruct (best_all (concat answers)) as (Nd & I & B). set (acc := fold_left keep_best (concat answers) []) in *.
  exists acc. eexists. split; [reflexivity|]. split; auto.
  assert (Hin : forall d id, In (d, id) acc -> exists t m a, In (t, m) (mi_members M x) /\ m_search m q k = Ok a /\ In (d, id) a).
  { intros d id H'. apply I in H'. apply (ask_in _ _ _ _ _ _ Ea) in H' as (m & a & Hm' & Es & Hr). apply Hm in Hm' as [t Ht]. exists t, m, a. auto. }
  split; auto. split.
  - intros t m a d id Ht Es Hr. assert (Hc : In (d, id) (concat answers)). { apply (ask_in _ _ _ _ _ _ Ea). exists m, a. split; auto. apply Hm. eauto. }
    destruct (B _ Hc) as ([d' i'] & He & Ei & Lf). cbn in Ei, Lf. subst i'. exists d'. auto.
  - eapply is_topk_perm; [apply Permutation_sym; apply P2|]. apply topk_of_sort; auto. apply weak_order_asc. intros [d id] Hp.
    apply (Permutation_in _ (Permutation_sym (P2 _))) in Hp. apply Hin in Hp as (t & m & a & Ht & Es & Hr). destruct (Ha t m Ht) as (a' & Es' & Hn). rewrite Es in Es'. injection Es' as <-. apply Hn in Hr. exact Hr.
Qed.

(** C44. An id that every member stops returning once deleted is returned by no strategy after
    a successful Delete. *)
Theorem multi_delete_partial (M : Type) m_search m_delete omem ores srt ovotes svotes (x y : multi M) visit id :
  (forall l, Permutation l (omem l)) -> (forall l, Permutation l (ores l)) -> (forall l, Permutation l (srt l)) ->
  (forall l, Permutation l (ovotes l)) -> (forall l, Permutation l (svotes l)) ->
  (forall t, In t (map fst (mi_members M x)) -> In t visit) ->
  (forall m m' q k a d, m_delete m id = Some m' -> m_search m' q k = Ok a -> ~ In (d, id) a) ->
  multi_delete M m_delete x visit id = (y, true) ->
  forall q k out d, multi_search M m_search omem ores srt ovotes svotes y q k = Ok out -> ~ In (d, id) out.
Proof.
  intros P1 P2 P3 P4 P5 Hv Hd E q k out d Es Hi.
  destruct (answered_by M m_search omem ores srt ovotes svotes y q k out P1 P2 P3 P4 P5 Es d id Hi) as (t & m & k' & a & d' & Hm & Ea & Hr).
  assert (Ht : In t (map fst (mi_members M x))). { rewrite <- (delete_names M m_delete visit id x y true E). apply in_map_iff. exists (t, m). auto. }
  destruct (delete_ok M m_delete visit id x y E t m Hm) as [[_ Hn]|[[m0 H0]|Hn]]; auto. exact (Hd m0 m q k' a d' H0 Ea Hr).
Qed.
(** C44. Whatever the strategy, only ids some member answers are returned. *)
Theorem multi_only_members (M : Type) m_search omem ores srt ovotes svotes (x : multi M) q k out :
  (forall l, Permutation l (omem l)) -> (forall l, Permutation l (ores l)) -> (forall l, Permutation l (srt l)) ->
  (forall l, Permutation l (ovotes l)) -> (forall l, Permutation l (svotes l)) ->
  multi_search M m_search omem ores srt ovotes svotes x q k = Ok out ->
  forall d id, In (d, id) out -> exists t m k' a d', In (t, m) (mi_members M x) /\ m_search m q k' = Ok a /\ In (d', id) a.
Proof. apply answered_by. Qed.

(** C44. HybridIndex without deletions and probing all lists: the true k nearest of the first
    vectors inserted per id (a repeated id is refused). *)
Theorem hybrid_search_exact dist srt srtr dim m cents vectors x vs q k :
  sort_ok closer srt -> sort_ok multi_closer srtr ->
  hy_train (new_hybrid dim m (length cents)) vectors cents = Ok x -> length cents <= 10 ->
  (forall id v lvl, In (id, v, lvl) vs -> length v = dim) -> length q = dim -> (0 <= k)%Z ->
  (forall id v lvl, In (id, v, lvl) vs -> not_nan (dist q v)) ->
  exists out,
    hy_search dist srt srtr (fold_left (fun x e => fst (hy_insert dist x (fst (fst e)) (snd (fst e)) (snd e))) vs x) q k = Ok out /\
    is_topk nearer (Z.to_nat k) (with_distance dist q (first_per_id [] (map fst vs))) out.
Proof.
  intros Hs Hr T Hc Lv Lq Hk Nn. destruct (hybrid_start dist cents dim m vectors x T) as [B Hc1].
  assert (B' := both_run dist cents dim vs x [] _ B). cbn [map app] in B'. eapply hybrid_lemma; eauto.
  - apply B'. intros [[id v] lvl] He. cbn. eauto.
  - lia.
  - intros v Hv. apply in_map_iff in Hv as ([id v'] & Ev & Hv). cbn in Ev. subst v'.
    assert (Hf : forall l seen p, In p (first_per_id seen l) -> In p l).
    { induction l as [|p l IH]; cbn [first_per_id]; intros seen y Hy; auto. destruct (existsb _ seen); [right; eauto|]. destruct Hy as [<-|Hy]; [left; auto|right; eauto]. }
    apply Hf in Hv. apply in_map_iff in Hv as ([[i w] lvl] & Ei & Hi). cbn in Ei. injection Ei as -> ->. eauto.
Qed.

(** Examples and findings, with IVF indexes as members. *)
Definition ivf_answers (x : ivf) (q : list N) (k : Z) : outcome (list (float * string)) :=
  match ivf_search euclidean_distance isrt x q k with Err _ => Ok [] | r => r end.
Definition ivf_remove (x : ivf) (id : string) : option ivf := match ivf_delete x id with Ok y => Some y | _ => None end.
Definition asrt := isort multi_closer.
Definition vsrt := isort more_votes.
Definition member1 := irun euclidean_distance index2 [IAdd "a" [two]; IAdd "b" [one]].
Definition member2 := irun euclidean_distance index2 [IAdd "b" [one]; IAdd "c" [ten]].
Definition two_members (s : strategy) : multi ivf :=
  {| mi_members := [("p", member1); ("s", member2)]; mi_primary := "p"; mi_secondary := ["s"]; mi_strategy := s; mi_rerank := 0 |}.
Definition same {A} (l : list A) := l.
Definition found (x : multi ivf) (q : N) (k : Z) : list string :=
  match multi_search ivf ivf_answers same same asrt same vsrt x [q] k with Ok l => map snd l | _ => [] end.
Example multi_merge_ok :
  sort_ok multi_closer asrt /\ found (two_members MergeAll) 0%N 3 = ["b"; "a"; "c"] /\ found (two_members PrimaryOnly) 0%N 3 = ["b"; "a"] /\
  found (two_members Voting) 0%N 3 = ["b"; "a"; "c"] /\
  (forall t m, In (t, m) (mi_members ivf (two_members MergeAll)) -> exists a, ivf_answers m [0%N] 3 = Ok a /\ forall r, In r a -> not_nan (fst r)).
Proof.
  split; [apply isort_ok|]. split; [vm_compute; reflexivity|]. split; [vm_compute; reflexivity|]. split; [vm_compute; reflexivity|].
  intros t m [[= <- <-]|[[= <- <-]|[]]]; (eexists; split; [vm_compute; reflexivity|]; intros r [<-|[<-|[]]]; vm_compute; discriminate).
Qed.
(** Finding: reranking puts a candidate no secondary index knows first, with score 0. *)
Theorem multi_rerank_refuted : exists x q, found (two_members MergeAll) q 2 = ["b"; "a"] /\ x = two_members Rerank /\ found x q 2 = ["a"; "b"].
Proof. exists (two_members Rerank), 0%N. split; [vm_compute; reflexivity|]. split; [reflexivity|]. vm_compute. reflexivity. Qed.
(** Finding: Delete stops at the first member that does not know the id; the others keep it. *)
Theorem multi_delete_stops_refuted : exists y q,
  multi_delete ivf ivf_remove (two_members MergeAll) ["p"; "s"] "c" = (y, false) /\ In "c" (found y q 3).
Proof. exists (two_members MergeAll), 0%N. split; [vm_compute; reflexivity|]. vm_compute. auto. Qed.

(** Finding: HybridIndex.Delete leaves the IVF part alone, so a deleted id is still returned. *)
Definition hy0 : hybrid := match hy_train (new_hybrid 1 4 2) [[0%N]; [ten]] cents2 with Ok x => x | _ => new_hybrid 1 4 2 end.
Definition hy1 : hybrid := fold_left (fun x e => fst (hy_insert euclidean_distance x (fst (fst e)) (snd (fst e)) (snd e))) [("a", [one], 0); ("b", [ten], 0)] hy0.
Definition hy_found (x : hybrid) (q : N) (k : Z) : list string :=
  match hy_search euclidean_distance isrt asrt x [q] k with Ok l => map snd l | _ => [] end.
Example hybrid_search_ok : hy_train (new_hybrid 1 4 2) [[0%N]; [ten]] cents2 = Ok hy0 /\ hy_found hy1 0%N 5 = ["a"; "b"].
Proof. split; [vm_compute; reflexivity|]. vm_compute. reflexivity. Qed.
Theorem hybrid_delete_refuted : exists id q, hy_found (hy_delete hy1 id 0) q 1 = [id].
Proof. exists "a", 0%N. vm_compute. reflexivity. Qed.
(** Finding: an insertion the IVF part refuses (not trained yet) stays in the HNSW part: the call
    fails but the vector is found, and can never be inserted again. *)
Theorem hybrid_failed_insert_refuted : exists x v,
  x = fst (hy_insert euclidean_distance (new_hybrid 1 4 2) "a" v 0) /\
  snd (hy_insert euclidean_distance (new_hybrid 1 4 2) "a" v 0) = false /\
  hy_found x 0%N 1 = ["a"] /\ snd (hy_insert euclidean_distance x "a" v 0) = false.
Proof.
  exists (fst (hy_insert euclidean_distance (new_hybrid 1 4 2) "a" [one] 0)), [one]. split; [reflexivity|]. split; [vm_compute; reflexivity|].
  split; [vm_compute; reflexivity|]. vm_compute. reflexivity.
Qed.

Print Assumptions multi_merge_best.
Print Assumptions multi_delete_partial.
Print Assumptions multi_only_members.
Print Assumptions hybrid_search_exact.
Print Assumptions multi_rerank_refuted.
Print Assumptions hybrid_delete_refuted.
Print Assumptions hybrid_failed_insert_refuted.
