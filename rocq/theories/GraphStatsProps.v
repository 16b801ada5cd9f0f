(** Theorems about GetGraphStatistics and PredictEdges: C49 and more. *)
From Coq Require Import Reals Lra String List NArith ZArith Bool Lia Permutation Sorted.
From Coq Require Import Floats.SpecFloat.
From Flocq Require Import Core.Core IEEE754.BinarySingleNaN.
From Verif Require Import Base Floats64 TopK StoreModel StoreSpec GraphModel GraphSpec GraphProofs GraphAlgoModel GraphAlgoSpec CommunityProofs GraphStatsProofs FloatReal RangeProofs GraphProps.
Import ListNotations.
Open Scope string_scope.
Open Scope list_scope.
Open Scope nat_scope.

Lemma hops_edges g g' dir ts n x y : (forall e, In e (g_edges g) -> In e (g_edges g')) -> hops g dir ts n x y -> hops g' dir ts n x y.
Proof.
  intros H. induction 1 as [|n x m y [e [He Hr]] Hn IH]; [constructor|]. econstructor; [|exact IH]. exists e. split; auto.
Qed.

(** GetGraphStatistics counts the nodes, the edges and the connected components. *)
Theorem graph_statistics_exact : forall P ordn orde g, greachable P g ->
  (forall l, Permutation (ordn l) l) -> (forall l, Permutation (orde l) l) ->
  let st := graph_statistics ordn orde g in
  gs_nodes st = Z.of_nat (length (g_nodes g)) /\ component_count g (gs_components st) /\
  (g_nodes g <> [] -> gs_edges st = Z.of_nat (length (g_edges g))) /\ (P = fk_env -> gs_edges st = Z.of_nat (length (g_edges g))).
Proof.
  intros P ordn orde g R On Oe. destruct (reach_unique P g R) as [N _]. unfold graph_statistics.
  destruct (Z.eqb_spec (Z.of_nat (length (g_nodes g))) 0) as [Z0|Z0]; cbn [gs_nodes gs_edges gs_components].
  - assert (G : g_nodes g = []) by (destruct (g_nodes g); [auto|discriminate]). rewrite G. cbn [length]. split; [auto|]. split.
    + exists []. split; [auto|]. split; [constructor|]. split; [intros x []|]. split; [intros x y []|]. intros x [n [H _]]. rewrite G in H. destruct H.
    + split; [intros H; congruence|]. intros ->. destruct (g_edges g) as [|e es] eqn:E; auto. destruct (proj2 (reach_fine g R) e) as [[n [H _]] _]; [rewrite E; left; auto|]. rewrite G in H. destruct H.
  - split; [auto|]. split; [|auto]. unfold count_components.
    assert (Eq : forall a b, reached (orde (g_edges g)) [a] b <-> joined g a b).
    { intros a b. split.
      - intros [s [[<-|[]] [k Hk]]]. exists k. eapply hops_edges; [|exact Hk]. cbn. intros e He. eapply Permutation_in; eauto.
      - intros [k Hk]. exists a. split; [left; auto|]. exists k. eapply hops_edges; [|exact Hk]. cbn. intros e He. eapply Permutation_in; [apply Permutation_sym; apply Oe|auto]. }
    destruct (count_loop (orde (g_edges g)) (map n_id (ordn (g_nodes g))) [] 0%Z []) as [reps [A [B [C [D F]]]]].
    1, 2, 3: intros ? [].
    { constructor. }
    { intros ? ? []. }
    { reflexivity. }
    assert (Hi : forall x, has_node g x <-> In x (map n_id (ordn (g_nodes g)))).
    { intros x. rewrite in_map_iff. split; intros [n [H1 H2]]; exists n; (split; [try exact H2; try (apply (Permutation_in _ (On _)); exact H2)|try exact H1; try (apply (Permutation_in _ (Permutation_sym (On _))); exact H1)]). }
    exists reps. split; [exact A|]. split; [exact B|]. split; [|split].
    + intros x Hx. apply Hi. destruct (C x Hx) as [[]|H]; auto.
    + intros x y Hx Hy J. apply D; auto. apply Eq. auto.
    + intros x Hx. destruct (F x) as [r [Hr H]]; [right; apply Hi; auto|]. exists r. split; auto. apply joined_sym, Eq. auto.
Qed.
Print Assumptions graph_statistics_exact.
Example graph_statistics_ex : let st := graph_statistics (fun l => l) (fun l => l) g4 in gs_nodes st = 5%Z /\ gs_edges st = 4%Z /\ gs_components st = 2%Z.
Proof. vm_compute. auto. Qed.

(** The average degree is the float64 nearest 2E/N; the density is E divided by the
    float64 nearest N(N-1), and 0 for a single node. *)
Lemma fin_of_Z z : (Z.abs z <= 2 ^ 53)%Z -> fin (f64_of_Z z) (IZR z).
Proof.
  intros Hz. unfold f64_of_Z. change prec64 with 53%Z. change emax64 with 1024%Z. rewrite (bn_equiv 53 1024 Hprec64 Hmax64).
  exists (binary_normalize 53 1024 Hprec64 Hmax64 mode_NE z 0 false). split; [reflexivity|].
  pose proof (binary_normalize_correct 53 1024 Hprec64 Hmax64 mode_NE z 0 false) as C. cbv zeta in C.
  assert (E : F2R (Float radix2 z 0) = IZR z) by (unfold F2R; cbn; ring). rewrite E in C.
  change (round radix2 fexp64 (round_mode mode_NE) (IZR z)) with (rnd (IZR z)) in C.
  assert (Er : rnd (IZR z) = IZR z). { apply round_generic; auto with typeclass_instances. replace (IZR z) with (IZR z * bpow radix2 0)%R by (cbn; ring). apply format_scaled; lia. }
  rewrite Er, Rlt_bool_true in C; [tauto|]. rewrite <- abs_IZR. apply Rle_lt_trans with (IZR (2 ^ 53)); [apply IZR_le; auto|]. change (IZR (2 ^ 53)) with (bpow radix2 53). apply bpow_lt. lia.
Qed.
Theorem graph_degree_density_exact : forall ordn orde g,
  (0 < Z.of_nat (length (g_nodes g)) <= 2 ^ 53)%Z -> (Z.of_nat (length (g_edges g)) <= 2 ^ 53)%Z ->
  let st := graph_statistics ordn orde g in
  let n := INR (length (g_nodes g)) in let m := INR (length (g_edges g)) in
  fin (gs_degree st) (rnd (2 * m / n)) /\
  (length (g_nodes g) = 1 -> gs_density st = f_zero) /\
  (2 <= length (g_nodes g) -> fin (gs_density st) (rnd (m / rnd (n * (n - 1))))).
Proof.
  intros ordn orde g Hn Hm st n m. unfold st, graph_statistics. set (N := Z.of_nat (length (g_nodes g))) in *. set (M := Z.of_nat (length (g_edges g))) in *.
  assert (En : n = IZR N) by (unfold n, N; apply INR_IZR_INZ). assert (Em : m = IZR M) by (unfold m, M; apply INR_IZR_INZ).
  destruct (Z.eqb_spec N 0) as [?|_]; [lia|]. cbn [gs_degree gs_density]. rewrite En, Em.
  assert (M0 : (0 <= M)%Z) by (unfold M; lia).
  pose proof (fin_of_Z N ltac:(lia)) as FN. pose proof (fin_of_Z M ltac:(lia)) as FM. pose proof (fin_of_Z (N - 1) ltac:(lia)) as FN1. pose proof (fin_of_Z 2 ltac:(lia)) as F2.
  assert (P53 : IZR (2 ^ 53) = bpow radix2 53) by reflexivity.
  assert (HNr : (1 <= IZR N <= bpow radix2 53)%R) by (rewrite <- P53; split; [apply (IZR_le 1)|apply IZR_le]; lia).
  assert (HMr : (0 <= IZR M <= bpow radix2 53)%R) by (rewrite <- P53; split; [apply (IZR_le 0)|apply IZR_le]; lia).
  assert (Big : forall r k, (0 <= r <= bpow radix2 k)%R -> (0 <= k < 1024)%Z -> (Rabs (rnd r) < bpow radix2 1024)%R).
  { intros r k Hr Hk. apply Rle_lt_trans with (bpow radix2 k); [|apply bpow_lt; lia]. replace (bpow radix2 k) with (IZR 1 * bpow radix2 k)%R by ring. apply rnd_bound; [lia|lia|]. rewrite Rabs_pos_eq; lra. }
  assert (Quot : forall a b, (0 <= a <= bpow radix2 54)%R -> (1 <= b)%R -> (0 <= a / b <= bpow radix2 54)%R).
  { intros a b Ha Hb. split; [apply Rmult_le_pos; [lra|left; apply Rinv_0_lt_compat; lra]|]. apply Rle_trans with a; [|lra]. apply Rmult_le_reg_r with b; [lra|]. unfold Rdiv. rewrite Rmult_assoc, Rinv_l by lra. nra. }
  assert (B54 : (bpow radix2 54 = 2 * bpow radix2 53)%R) by (exact (bpow_plus radix2 1 53)).
  split; [|split].
  - assert (E2 : rnd (IZR 2 * IZR M) = (2 * IZR M)%R).
    { apply round_generic; auto with typeclass_instances. replace (2 * IZR M)%R with (IZR M * bpow radix2 1)%R by (cbn; ring). apply format_scaled; lia. }
    assert (F2M : fin (f64_mul (f64_of_Z 2) (f64_of_Z M)) (2 * IZR M)). { rewrite <- E2. apply fin_mul; auto. apply (Big _ 54%Z); [|lia]. rewrite B54. change (IZR 2) with 2%R. lra. }
    apply fin_div; auto; [lra|]. apply (Big _ 54%Z); [|lia]. apply Quot; [rewrite B54; lra|lra].
  - intros E. assert (E1 : N = 1%Z) by (unfold N; rewrite E; reflexivity). rewrite E1. reflexivity.
  - intros E. assert (HN2 : (2 <= N)%Z) by (unfold N; lia). rewrite minus_IZR in FN1.
    assert (HN2r : (2 <= IZR N)%R) by (apply (IZR_le 2); lia).
    assert (HN1 : (0 <= IZR N - 1)%R) by lra.
    assert (Pr : (2 <= IZR N * (IZR N - 1) <= bpow radix2 106)%R). { split; [nra|]. apply Rle_trans with (bpow radix2 53 * bpow radix2 53)%R; [nra|]. right. symmetry. exact (bpow_plus radix2 53 53). }
    assert (Fp : fin (f64_mul (f64_of_Z N) (f64_of_Z (N - 1))) (rnd (IZR N * (IZR N - 1)))). { apply fin_mul; auto. apply (Big _ 106%Z); [lra|lia]. }
    assert (Rp : (2 <= rnd (IZR N * (IZR N - 1)))%R). { replace 2%R with (IZR 2 * bpow radix2 0)%R by (cbn; ring). apply rnd_ge; [lia|lia|]. cbn. lra. }
    assert (Ft : flt f_zero (f64_mul (f64_of_Z N) (f64_of_Z (N - 1))) = true) by (apply (fin_lt _ _ _ _ fin_zero Fp); lra). rewrite Ft.
    apply fin_div; auto; [lra|]. apply (Big _ 54%Z); [|lia]. apply Quot; [rewrite B54|]; lra.
Qed.
Print Assumptions graph_degree_density_exact.
Example graph_degree_density_ex : let st := graph_statistics (fun l => l) (fun l => l) g4 in
  gs_degree st = f64_div (f64_of_Z 8) (f64_of_Z 5) /\ gs_density st = f64_div (f64_of_Z 1) (f64_of_Z 5).
Proof. vm_compute. auto. Qed.

(** * Predicted edges *)
(** [p] is the prediction for the pair of nodes [x], [o]: the similarity of their vectors,
    averaged with the share of [x]'s neighbours they have in common if there are any. *)
Definition prediction_of (sim : list N -> list N -> float) (g : gdb) (x o : gnode) (p : prediction) : Prop :=
  n_id o <> n_id x /\ ~ beside g (n_id x) (n_id o) /\ pr_from p = n_id x /\ pr_to p = n_id o /\
  exists near both, NoDup near /\ NoDup both /\ (forall y, In y near <-> beside g (n_id x) y) /\
    (forall y, In y both <-> beside g (n_id x) y /\ beside g (n_id o) y) /\
    (both = [] -> pr_score p = sim (n_vec x) (n_vec o) /\ pr_method p = "vector_similarity") /\
    (both <> [] -> pr_method p = "combined" /\
       pr_score p = f64_div (f64_add (sim (n_vec x) (n_vec o)) (f64_div (f64_of_Z (Z.of_nat (length both))) (f64_of_Z (Z.of_nat (length near + 1))))) (f64_of_Z 2)).
Lemma neighbor_set_in g orde x y : (forall l, Permutation (orde l) l) -> (In y (neighbor_set (orde (g_edges g)) x) <-> beside g x y).
Proof.
  intros Oe. unfold neighbor_set. rewrite nodup_In, adjacent_in. unfold beside. split; intros [e [He H]]; exists e; (split; [eapply Permutation_in; [|exact He]; auto; apply Permutation_sym; auto|]); intuition.
Qed.
Lemma predict_one_in sim g orde x o p : (forall l, Permutation (orde l) l) ->
  (In p (predict_one sim (orde (g_edges g)) x o) <-> prediction_of sim g x o p /\ flt f_half (pr_score p) = true).
Proof.
  intros Oe. unfold predict_one. set (near := neighbor_set (orde (g_edges g)) (n_id x)).
  set (both := filter (fun y => in_ids (neighbor_set (orde (g_edges g)) (n_id o)) y) near).
  assert (Nn : NoDup near) by apply NoDup_nodup. assert (Nb : NoDup both) by (apply NoDup_filter; auto).
  assert (Hn : forall y, In y near <-> beside g (n_id x) y) by (intros y; apply neighbor_set_in; auto).
  assert (Hb : forall y, In y both <-> beside g (n_id x) y /\ beside g (n_id o) y).
  { intros y. unfold both. rewrite filter_In, in_ids_iff, Hn, (neighbor_set_in g orde _ _ Oe). tauto. }
  assert (Un : forall near' both', NoDup near' -> NoDup both' -> (forall y, In y near' <-> beside g (n_id x) y) -> (forall y, In y both' <-> beside g (n_id x) y /\ beside g (n_id o) y) ->
     length near' = length near /\ length both' = length both).
  { intros near' both' N1 N2 H1 H2. split; apply Permutation_length; apply NoDup_Permutation; auto; intros y; [rewrite H1, Hn|rewrite H2, Hb]; tauto. }
  destruct (String.eqb_spec (n_id o) (n_id x)) as [Eo|Eo]; cbn [orb].
  { split; [intros []|]. intros [[H _] _]. contradiction. }
  destruct (in_ids near (n_id o)) eqn:In_.
  { apply in_ids_iff, Hn in In_. split; [intros []|]. intros [[_ [H _]] _]. contradiction. }
  assert (Nbs : ~ beside g (n_id x) (n_id o)) by (rewrite <- Hn; apply in_ids_false; auto).
  match goal with |- context [if flt f_half (pr_score ?q) then _ else _] => set (q0 := q) end.
  assert (Q : prediction_of sim g x o q0).
  { unfold q0, prediction_of. destruct (length both) as [|c] eqn:Lb; cbn [pr_from pr_to pr_score pr_method]; (split; [auto|split; [auto|split; [auto|split; [auto|]]]]); exists near, both;
      (split; [auto|split; [auto|split; [auto|split; [auto|]]]]).
    - split; auto. intros H. destruct both; [contradiction|discriminate].
    - split; [intros ->; discriminate|]. rewrite Lb. auto. }
  assert (Uq : forall p', prediction_of sim g x o p' -> p' = q0).
  { intros p' (_ & _ & F & T & near' & both' & N1 & N2 & H1 & H2 & A & B). destruct (Un near' both' N1 N2 H1 H2) as [L1 L2]. unfold q0. rewrite <- L2.
    destruct p' as [pf pt ps pm]. cbn in *. subst pf pt. destruct both' as [|b bs]; cbn [length].
    - destruct (A eq_refl) as [-> ->]. reflexivity.
    - destruct (B ltac:(discriminate)) as [-> ->]. rewrite L1. reflexivity. }
  destruct (flt f_half (pr_score q0)) eqn:F.
  - split; [intros [<-|[]]; auto|]. intros [H _]. left. symmetry. auto.
  - split; [intros []|]. intros [H H']. rewrite (Uq p H) in H'. congruence.
Qed.

(** PredictEdges proposes exactly the nodes that no edge ties to the given one and whose
    score exceeds 1/2, best first, at most [k] of them (10 by default). *)
Theorem predict_edges_exact : forall P sim srt ordn orde g id k, greachable P g -> sort_ok by_prediction srt ->
  (forall l, Permutation (ordn l) l) -> (forall l, Permutation (orde l) l) ->
  match predict_edges sim srt ordn orde g id k with
  | Ok ps => exists x all, In x (g_nodes g) /\ n_id x = id /\ NoDup (map pr_to all) /\
      (forall p, In p all <-> (exists o, In o (g_nodes g) /\ prediction_of sim g x o p) /\ flt (f64_div (f64_of_Z 1) (f64_of_Z 2)) (pr_score p) = true) /\
      is_topk (fun a b => flt (pr_score b) (pr_score a)) (Z.to_nat (if Z.leb k 0 then 10 else k)) all ps
  | Err e => e = ENotFound /\ ~ has_node g id
  | Panic => False
  end.
Proof.
  intros P sim srt ordn orde g id k R So On Oe. pose proof (reach_unique P g R) as U. unfold predict_edges.
  destruct (get_node g id) as [x|e|] eqn:Gn; cbn [bind].
  - assert (Hx : In x (g_nodes g) /\ n_id x = id).
    { unfold get_node in Gn. destruct (find (node_is id) (g_nodes g)) as [y|] eqn:F; [|discriminate]. injection Gn as <-. apply find_node; auto. }
    set (all := flat_map (predict_one sim (orde (g_edges g)) x) (ordn (g_nodes g))). exists x, all. split; [tauto|]. split; [tauto|].
    assert (Ia : forall p, In p all <-> (exists o, In o (g_nodes g) /\ prediction_of sim g x o p) /\ flt f_half (pr_score p) = true).
    { intros p. unfold all. rewrite in_flat_map. split.
      - intros [o [Ho H]]. apply predict_one_in in H as [H1 H2]; auto. split; auto. exists o. split; auto. eapply Permutation_in; eauto.
      - intros [[o [Ho H1]] H2]. exists o. split; [eapply Permutation_in; [apply Permutation_sym; apply On|auto]|]. apply predict_one_in; auto. }
    split; [|split; [exact Ia|]].
    + unfold all. assert (N : NoDup (map n_id (ordn (g_nodes g)))) by (eapply Permutation_NoDup; [apply Permutation_sym, Permutation_map, On|apply U]).
      clear - N Oe. induction (ordn (g_nodes g)) as [|o l IH]; [constructor|]. inversion N as [|? ? N1 N2]; subst. cbn [flat_map]. rewrite map_app. apply NoDup_app_intro; auto.
      * unfold predict_one. destruct (_ || _)%bool; [constructor|]. destruct (flt _ _); repeat constructor; auto.
      * intros y Hy Hy'. apply in_map_iff in Hy as [p [<- Hp]]. apply in_map_iff in Hy' as [p' [E Hp']]. apply predict_one_in in Hp as [Hp _]; auto. apply in_flat_map in Hp' as [o' [Ho' Hp']].
        apply predict_one_in in Hp' as [Hp' _]; auto. apply N1. destruct Hp as (_ & _ & _ & T & _). destruct Hp' as (_ & _ & _ & T' & _). rewrite <- T, <- E, T'. apply in_map. auto.
    + apply topk_of_sort; auto. change by_prediction with (fun a b => flt (pr_score b) (pr_score a)).
      assert (NN : forall p, In p all -> not_nan (pr_score p)). { intros p Hp. apply Ia in Hp as [_ H]. intros C. rewrite C in H. discriminate. }
      exact (weak_order_desc pr_score all NN).
  - unfold get_node in Gn. destruct (find (node_is id) (g_nodes g)) as [y|] eqn:F; [discriminate|]. injection Gn as <-. split; auto. apply find_node_none. auto.
  - unfold get_node in Gn. destruct (find _ _); discriminate.
Qed.
Print Assumptions predict_edges_exact.

Definition sim_by_length (u v : list N) : float := if Nat.eqb (length u) (length v) then f64_of_Z 1 else f_zero.
Example predict_edges_ex : match predict_edges sim_by_length (isort by_prediction) (fun l => l) (fun l => l) g4 "d" 5 with
  | Ok ps => map (fun p => (pr_to p, pr_method p)) ps = [("z", "vector_similarity"); ("b", "combined"); ("a", "combined")]
  | _ => False end.
Proof. vm_compute. reflexivity. Qed.
