(** C43 for the LSH index. *)
From Coq Require Import String List NArith ZArith Bool Lia Permutation Sorted.
From Coq Require Import Floats.SpecFloat.
From Verif Require Import Base Floats64 TopK IndexDistModel FlatModel LshModel LshSpec LshProofs.
Import ListNotations.
Local Open Scope string_scope.

(** C43. Search ranks a set of candidates: only stored ids with their distances, and at least
    all vectors on the query's side of every hyperplane of some table; a vector equal to the
    query is always among them. A deleted id is not stored, so never returned. *)
Theorem lsh_search_sound dist order srt dim projs ops q k :
  visits_all order -> sort_ok lsh_closer srt -> length q = dim -> (0 <= k)%Z ->
  exists all out,
    lsh_search dist order srt (lrun (new_lsh dim projs) ops) q k = Ok out /\ incl out all /\
    NoDup (map snd all) /\
    (forall d id, In (d, id) all -> exists v, lsh_holds dim ops id = Some v /\ d = dist q v) /\
    (forall id v ps, lsh_holds dim ops id = Some v -> In ps projs -> same_sides ps q v -> In (dist q v, id) all) /\
    ((forall p, In p all -> not_nan (fst p)) -> is_topk nearer (Z.to_nat k) all out).
Proof.
  intros Ho Hs Lq Hk. pose proof (keeps_new dim projs ops) as K. unfold lsh_search. rewrite (kl_dim _ _ _ _ K), Lq, Nat.eqb_refl. cbn [negb].
  destruct (finish_lemma dist order srt (lrun (new_lsh dim projs) ops) q k
    (flat_map (fun t => bucket t (compute_hash (fst t) q)) (l_tables (lrun (new_lsh dim projs) ops))) Ho Hs Hk) as (all & out & E & Hi & Nd & A & T).
  exists all, out. split; auto. split; auto. split; auto. split; [|split; auto].
  - intros d id H. apply A in H as (_ & v & Hv & ->). exists v. rewrite <- (kl_get _ _ _ _ K). auto.
  - intros id v ps Hv Hps Hsame. apply A. split; [|exists v; rewrite (kl_get _ _ _ _ K); auto].
    destruct (table_of _ _ _ _ ps K Hps) as (t & Ht & <-). apply in_flat_map. exists t. split; auto. apply bucket_in.
    apply same_hash in Hsame. rewrite Hsame. apply (kl_in _ _ _ _ K); auto.
Qed.

(** C43. When ids are not re-inserted while stored, the candidates are exactly the colliding vectors. *)
Theorem lsh_search_exact dist order srt dim projs ops q k :
  visits_all order -> sort_ok lsh_closer srt -> length q = dim -> (0 <= k)%Z -> no_reinsertion dim ops ->
  exists all out,
    lsh_search dist order srt (lrun (new_lsh dim projs) ops) q k = Ok out /\ NoDup (map snd all) /\
    (forall d id, In (d, id) all <->
       exists v ps, lsh_holds dim ops id = Some v /\ d = dist q v /\ In ps projs /\ same_sides ps q v) /\
    ((forall p, In p all -> not_nan (fst p)) -> is_topk nearer (Z.to_nat k) all out).
Proof.
  intros Ho Hs Lq Hk Hf. pose proof (keeps_new dim projs ops) as K. pose proof (clean_new dim projs ops Hf) as C.
  unfold lsh_search. rewrite (kl_dim _ _ _ _ K), Lq, Nat.eqb_refl. cbn [negb].
  destruct (finish_lemma dist order srt (lrun (new_lsh dim projs) ops) q k
    (flat_map (fun t => bucket t (compute_hash (fst t) q)) (l_tables (lrun (new_lsh dim projs) ops))) Ho Hs Hk) as (all & out & E & Hi & Nd & A & T).
  exists all, out. split; auto. split; auto. split; auto. intros d id. rewrite A. split.
  - intros (Hc & v & Hv & ->). rewrite (kl_get _ _ _ _ K) in Hv. apply in_flat_map in Hc as (t & Ht & Hb). apply bucket_in in Hb.
    destruct (C _ _ Ht Hb) as (w & Hw & Ew). cbn [fst snd] in *. rewrite Hv in Hw. injection Hw as <-. exists v, (fst t). split; auto. split; auto.
    split; [eapply table_projs; eauto|]. apply same_hash. exact Ew.
  - intros (v & ps & Hv & -> & Hps & Hsame). split; [|exists v; rewrite (kl_get _ _ _ _ K); auto].
    destruct (table_of _ _ _ _ ps K Hps) as (t & Ht & <-). apply in_flat_map. exists t. split; auto. apply bucket_in.
    apply same_hash in Hsame. rewrite Hsame. apply (kl_in _ _ _ _ K); auto.
Qed.

(** C43. The stored vector itself as the query: its id comes back, with no nearer id before it,
    whatever projections were drawn. *)
Theorem lsh_finds_itself dist order srt dim projs ops id v k :
  visits_all order -> sort_ok lsh_closer srt -> (1 <= k)%Z -> projs <> [] ->
  lsh_holds dim ops id = Some v -> length v = dim ->
  (forall i w, lsh_holds dim ops i = Some w -> not_nan (dist v w) /\ flt (dist v w) (dist v v) = false) ->
  (forall i w, lsh_holds dim ops i = Some w -> flt (dist v v) (dist v w) = false -> i = id) ->
  exists d rest, lsh_search dist order srt (lrun (new_lsh dim projs) ops) v k = Ok ((d, id) :: rest) /\ d = dist v v.
Proof.
  intros Ho Hs Hk Hp Hv Lv Hn Hu. destruct (lsh_search_sound dist order srt dim projs ops v k Ho Hs Lv ltac:(lia)) as (all & out & E & _ & Nd & So & Co & T).
  destruct projs as [|ps projs]; [contradiction|].
  assert (Hin : In (dist v v, id) all) by (apply (Co id v ps); auto; [left; auto|intros ? ? _ _; auto]).
  destruct T as (rest & P & L & S & B).
  { intros [d i] Hi. apply So in Hi as (w & Hw & ->). apply (Hn i w Hw). }
  assert (Hl : length all <> 0) by (destruct all; [destruct Hin|discriminate]).
  destruct out as [|[d i] out]; [cbn in L; lia|].
  assert (Hi : In (d, i) all) by (eapply Permutation_in; [apply Permutation_sym; exact P|left; auto]).
  apply So in Hi as (w & Hw & ->).
  assert (Ei : i = id).
  { apply (Hu i w Hw). apply (Permutation_in _ P) in Hin. destruct Hin as [[= _ <-]|Hin]; [|apply in_app_or in Hin as [Hin|Hin]].
    - rewrite Hw in Hv. injection Hv as ->. apply flt_irrefl.
    - inversion S as [|? ? _ HF]; subst. rewrite Forall_forall in HF. apply (HF _ Hin).
    - apply (B (dist v w, i) (dist v v, id)); auto. left; auto. }
  subst i. rewrite Hw in Hv. injection Hv as ->. exists (dist v v), out. auto.
Qed.

(** C43. Multi-probe search looks at these buckets and those of the nearest flipped hashes: the same guarantees. *)
Theorem lsh_multi_probe_sound dist order srt srtp dim projs ops q k probes :
  visits_all order -> sort_ok lsh_closer srt -> length q = dim -> (0 <= k)%Z -> (0 <= probes)%Z ->
  exists all out,
    lsh_multi_probe dist order srt srtp (lrun (new_lsh dim projs) ops) q k probes = Ok out /\ incl out all /\
    NoDup (map snd all) /\
    (forall d id, In (d, id) all -> exists v, lsh_holds dim ops id = Some v /\ d = dist q v) /\
    (forall id v ps, lsh_holds dim ops id = Some v -> In ps projs -> same_sides ps q v -> In (dist q v, id) all) /\
    ((forall p, In p all -> not_nan (fst p)) -> is_topk nearer (Z.to_nat k) all out).
Proof.
  intros Ho Hs Lq Hk Hp. pose proof (keeps_new dim projs ops) as K. unfold lsh_multi_probe. rewrite (kl_dim _ _ _ _ K), Lq, Nat.eqb_refl. cbn [negb].
  destruct (Z.ltb_spec probes 0); [lia|]. cbn [andb].
  match goal with |- context [lsh_finish dist order srt ?x q k ?f] =>
    destruct (finish_lemma dist order srt x q k f Ho Hs Hk) as (all & out & E & Hi & Nd & A & T) end.
  exists all, out. split; auto. split; auto. split; auto. split; [|split; auto].
  - intros d id H'. apply A in H' as (_ & v & Hv & ->). exists v. rewrite <- (kl_get _ _ _ _ K). auto.
  - intros id v ps Hv Hps Hsame. apply A. split; [|exists v; rewrite (kl_get _ _ _ _ K); auto].
    destruct (table_of _ _ _ _ ps K Hps) as (t & Ht & <-). apply in_flat_map. exists t. split; auto. apply in_or_app. right. apply bucket_in.
    apply same_hash in Hsame. rewrite Hsame. apply (kl_in _ _ _ _ K); auto.
Qed.

Definition w1 : N := 1065353216. Definition w2 : N := 1073741824. Definition m1 : N := 3212836864.
Definition projs1 : list projections := [[[w1; 0%N]; [0%N; w1]]; [[w1; w1]]].
Definition lops : list lop := [LInsert "a" [w1; w1]; LInsert "b" [w2; w1]; LInsert "c" [m1; m1]; LInsert "a2" [w1; w2]; LDelete "a2"].
Definition order_id (l : list string) := l.
Definition lsrt := isort lsh_closer.
Example lsh_history_ok :
  visits_all order_id /\ sort_ok lsh_closer lsrt /\ lsh_holds 2 lops "b" = Some [w2; w1] /\ lsh_holds 2 lops "a2" = None /\
  no_reinsertion 2 lops /\
  (match lsh_search euclidean_distance order_id lsrt (lrun (new_lsh 2 projs1) lops) [w2; w1] 5 with Ok l => map snd l | _ => [] end) = ["b"; "a"] /\
  (match lsh_multi_probe euclidean_distance order_id lsrt (isort flip_closer) (lrun (new_lsh 2 projs1) lops) [w2; w1] 5 1 with Ok l => map snd l | _ => [] end) = ["b"; "a"; "c"].
Proof.
  split; [intros l; apply Permutation_refl|]. split; [apply isort_ok|]. split; [reflexivity|]. split; [reflexivity|]. split.
  - unfold lops. intros b id v l E _. destruct b as [|? [|? [|? [|? [|? b]]]]]; cbn [app] in E;
      try (injection E as; subst; reflexivity); try discriminate E.
    apply (f_equal (@length _)) in E. cbn [length] in E. rewrite app_length in E. cbn in E. lia.
  - split; vm_compute; reflexivity.
Qed.
(** Finding: a negative k panics, though it is only compared with the number of results. *)
Theorem lsh_negative_k_refuted : exists k, lsh_search euclidean_distance order_id lsrt (lrun (new_lsh 2 projs1) lops) [w2; w1] k = Panic.
Proof. exists (-1)%Z. reflexivity. Qed.
(** Finding: re-inserting an id leaves it in the bucket of its old vector; it is then a candidate
    for queries that collide with no stored vector. *)
Theorem lsh_stale_candidate_refuted : exists projs ops q,
  lsh_holds 1 ops "a" = Some [m1] /\ (forall ps, In ps projs -> ~ same_sides ps q [m1]) /\
  (match lsh_search euclidean_distance order_id lsrt (lrun (new_lsh 1 projs) ops) q 5 with Ok l => map snd l | _ => [] end) = ["a"].
Proof.
  exists [[[w1]]], [LInsert "a" [w1]; LInsert "a" [m1]], [w1]. split; [reflexivity|]. split; [|vm_compute; reflexivity].
  intros ps [<-|[]] H. specialize (H 0 [w1] ltac:(lia) eq_refl). vm_compute in H. discriminate.
Qed.

Print Assumptions lsh_search_sound.
Print Assumptions lsh_search_exact.
Print Assumptions lsh_finds_itself.
Print Assumptions lsh_multi_probe_sound.
Print Assumptions lsh_stale_candidate_refuted.
