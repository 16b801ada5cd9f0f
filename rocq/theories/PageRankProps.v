(** Theorems about PageRank: C48. *)
From Coq Require Import String List NArith ZArith QArith Qabs Bool Permutation Lia Lqa Sorted.
From Verif Require Import Base Floats64 StoreModel StoreSpec GraphModel GraphSpec GraphProofs GraphProps GraphAlgoModel GraphAlgoSpec PageRankProofs.
Import ListNotations.
Open Scope string_scope.
Open Scope list_scope.
Open Scope Q_scope.

Lemma along_values ids f scores : along ids f scores -> forall x s, In (x, s) (List.combine ids scores) -> In x ids /\ s == f x.
Proof.
  intros [L A] x s H. apply In_nth_error in H as [u Hu].
  assert (nth_error ids u = Some x /\ nth_error scores u = Some s) as [H1 H2].
  { clear A. revert scores L u Hu. induction ids as [|y ids IH]; intros [|z scores] L u Hu; cbn in *; try (destruct u; discriminate). destruct u; cbn in *; [injection Hu as -> ->; auto|]. injection L as L. apply (IH scores L u Hu). }
  split; [eapply nth_error_In; eauto|]. rewrite <- (A u x H1). rewrite (nth_error_nth _ _ 0 H2). reflexivity.
Qed.
Lemma along_sum ids f scores : along ids f scores -> qsum (map snd (List.combine ids scores)) == qsum (map f ids).
Proof.
  intros A. pose proof A as [L _].
  assert (V : forall p, In p (List.combine ids scores) -> snd p == f (fst p)) by (intros [x s] H; apply (along_values ids f scores A x s H)).
  rewrite (qsum_ext _ (fun p => f (fst p)) _ V). rewrite <- (map_map fst f). clear A V. replace (map fst (List.combine ids scores)) with ids; [reflexivity|].
  revert scores L. induction ids as [|y ids IH]; intros [|z scores] L; cbn in *; try discriminate; auto. injection L as L. f_equal. auto.
Qed.
Lemma combine_fst {A B} (l : list A) (m : list B) : length l = length m -> map fst (List.combine l m) = l.
Proof. revert m. induction l as [|x l IH]; intros [|y m] L; cbn in *; try discriminate; auto. injection L as L. f_equal. auto. Qed.
Lemma rank_rounds_length K k d ls : forall scores, length (rank_rounds K k d ls scores) = length scores.
Proof.
  induction k as [|k IH]; intros scores; cbn [rank_rounds]; auto. set (new := map _ _).
  assert (length new = length scores) by (unfold new; rewrite map_length, seq_length; auto). destruct (num_lt _ _ _); auto. rewrite IH. auto.
Qed.

(** One score per node, for every kind of numbers (so for the float64 program too). *)
Theorem page_rank_one_score_per_node : forall K srt ordn orde g it d,
  (forall l, Permutation (srt l) l) -> (forall l, Permutation (ordn l) l) ->
  Permutation (map fst (page_rank K srt ordn orde g it d)) (map n_id (g_nodes g)).
Proof.
  intros K srt ordn orde g it d S On. unfold page_rank.
  destruct (map n_id (ordn (g_nodes g))) as [|x ids0] eqn:I.
  - rewrite <- (Permutation_map n_id (On (g_nodes g))), I. auto.
  - rewrite <- I. rewrite (Permutation_map fst (S _)). rewrite combine_fst; [apply Permutation_map; auto|].
    rewrite rank_rounds_length, repeat_length. auto.
Qed.
Print Assumptions page_rank_one_score_per_node.

(** Over the rationals the scores are those of the textbook iteration, stopped after the
    requested number of rounds or at the first round that changes no score by 10^-6. *)
Theorem page_rank_iterates : forall P srt ordn orde g it d, greachable P g ->
  sort_ok (by_score rational_numbers) srt -> (forall l, Permutation (ordn l) l) -> (forall l, Permutation (orde l) l) ->
  let damp := if Qle_bool d 0 || negb (Qle_bool d 1) then 85 # 100 else d in
  let rounds := Z.to_nat (if Z.leb it 0 then 100 else it) in
  let changes k := exists n, In n (g_nodes g) /\ (1 # 1000000) <= Qabs (surf g damp k (n_id n) - surf g damp (k - 1) (n_id n)) in
  exists k, (1 <= k <= rounds)%nat /\ (k = rounds \/ ~ changes k) /\ (forall j, (1 <= j < k)%nat -> ~ ~ changes j) /\
    (forall x s, In (x, s) (page_rank rational_numbers srt ordn orde g it d) -> s == surf g damp k x) /\
    qsum (map snd (page_rank rational_numbers srt ordn orde g it d)) == qsum (map (fun n => surf g damp k (n_id n)) (g_nodes g)).
Proof.
  intros P srt ordn orde g it d R S On Oe damp rounds changes. pose proof (reach_unique P g R) as U. unfold page_rank.
  set (ids := map n_id (ordn (g_nodes g))).
  assert (Pi : Permutation ids (map n_id (g_nodes g))) by (apply Permutation_map; auto).
  set (es := orde (g_edges g)). assert (Pe : Permutation es (g_edges g)) by apply Oe.
  assert (Dm : damping rational_numbers d = damp).
  { unfold damping, damp. cbn [num_le num_lt num_of num_085 rational_numbers]. reflexivity. }
  assert (Kp : (0 < rounds)%nat) by (unfold rounds; destruct (Z.leb_spec it 0); lia).
  assert (Start : along ids (surf g damp 0) (repeat (num_div rational_numbers (num_of rational_numbers 1) (num_of rational_numbers (Z.of_nat (length ids)))) (length ids))).
  { split; [apply repeat_length|]. intros u x Hu. assert (Lu : (u < length ids)%nat) by (apply nth_error_Some; congruence).
    rewrite (nth_indep _ 0 (num_div rational_numbers (num_of rational_numbers 1) (num_of rational_numbers (Z.of_nat (length ids))))) by (rewrite repeat_length; auto).
    rewrite nth_repeat. cbn [surf num_div num_of rational_numbers]. rewrite (Permutation_length Pi), map_length. reflexivity. }
  destruct (rank_rounds_ids g ids es damp U Pi Pe rounds Kp 0 _ Start) as [k [K1 [K2 [K3 K4]]]].
  assert (Sm : forall j, ~ changes j <-> small g ids damp j).
  { intros j. unfold changes, small. split.
    - intros H x Hx. apply Qnot_le_lt. intros C. apply H. apply (Permutation_in _ Pi) in Hx. apply in_map_iff in Hx as [n [<- Hn]]. eauto.
    - intros H [n [Hn C]]. apply (Qlt_not_le _ _ (H (n_id n) (Permutation_in _ (Permutation_sym Pi) (in_map n_id _ _ Hn)))). exact C. }
  exists k. split; [lia|]. split; [destruct K3 as [K3|K3]; [left; lia|right; apply Sm; auto]|]. split; [intros j Hj C; apply Sm in C; apply (K4 j); [lia|auto]|].
  destruct ids as [|x0 ids0] eqn:Ei.
  - split; [intros x s []|]. cbn [map qsum]. apply Permutation_nil, map_eq_nil in Pi. rewrite Pi. reflexivity.
  - rewrite <- Ei in *. rewrite Dm. fold (pairs es).
    destruct (S (List.combine ids (rank_rounds rational_numbers rounds damp (links ids (pairs es)) (repeat (num_div rational_numbers (num_of rational_numbers 1) (num_of rational_numbers (Z.of_nat (length ids)))) (length ids))))) as [Pm _].
    split.
    + intros x s H. apply (Permutation_in _ (Permutation_sym Pm)) in H. apply (along_values ids _ _ K2 x s H).
    + etransitivity; [apply Qeq_sym; exact (qsum_perm _ _ (Permutation_map snd Pm))|]. etransitivity; [apply (along_sum ids _ _ K2)|].
      rewrite (qsum_perm _ _ (Permutation_map (surf g damp k) Pi)). rewrite map_map. reflexivity.
Qed.
Print Assumptions page_rank_iterates.

(** Every score is at least (1-d)/n, the best come first, and the scores sum to at most 1,
    to exactly 1 when every node has an outgoing edge. *)
Theorem page_rank_sub_probability : forall P srt ordn orde g it d, greachable P g ->
  sort_ok (by_score rational_numbers) srt -> (forall l, Permutation (ordn l) l) -> (forall l, Permutation (orde l) l) ->
  let damp := if Qle_bool d 0 || negb (Qle_bool d 1) then 85 # 100 else d in
  let r := page_rank rational_numbers srt ordn orde g it d in
  Permutation (map fst r) (map n_id (g_nodes g)) /\
  (forall x s, In (x, s) r -> (1 - damp) / inject_Z (Z.of_nat (length (g_nodes g))) <= s) /\
  StronglySorted (fun a b => snd b <= snd a) r /\
  qsum (map snd r) <= 1 /\
  (g_nodes g <> [] -> (forall n, In n (g_nodes g) -> exists e, In e (g_edges g) /\ ge_from e = n_id n /\ has_node g (ge_to e)) -> qsum (map snd r) == 1).
Proof.
  intros P srt ordn orde g it d R S On Oe damp r. pose proof (reach_unique P g R) as U.
  assert (D : 0 <= damp <= 1).
  { unfold damp. destruct (Qle_bool d 0) eqn:A; cbn [orb]; [lra|]. destruct (Qle_bool d 1) eqn:B; cbn [negb]; [|lra]. apply Qle_bool_iff in B.
    split; auto. destruct (Qlt_le_dec d 0) as [C|C]; auto. assert (d <= 0) as C' by lra. apply Qle_bool_iff in C'. congruence. }
  destruct (page_rank_iterates P srt ordn orde g it d R S On Oe) as [k [K1 [_ [_ [V Sm]]]]]. fold damp in V, Sm. fold r in V, Sm.
  split; [apply page_rank_one_score_per_node; auto; intros l; apply Permutation_sym, S|].
  split; [|split; [|split]].
  - intros x s H. rewrite (V x s H). destruct k as [|k]; [lia|]. apply (surf_lower g damp); tauto.
  - assert (W : forall l, weak_order_on (by_score rational_numbers) l).
    { intros l. unfold weak_order_on, by_score. split.
      - intros x y _ _ H. apply num_lt_iff in H. apply not_true_iff_false. rewrite num_lt_iff. lra.
      - intros x y z _ _ _ H1 H2. apply not_true_iff_false. rewrite num_lt_iff. apply not_true_iff_false in H1, H2. rewrite num_lt_iff in H1, H2. cbn [num rational_numbers] in *. lra. }
    unfold r, page_rank. destruct (map n_id (ordn (g_nodes g))); [constructor|]. match goal with |- StronglySorted _ (srt ?l) => destruct (S l) as [_ So] end.
    specialize (So (W _)). unfold sorted_by in So. clear - So. induction So as [|a l1 Hs IH Hf]; constructor; auto. eapply Forall_impl; [|exact Hf].
    intros b Hb. unfold by_score in Hb. apply not_true_iff_false in Hb. rewrite num_lt_iff in Hb. cbn [num rational_numbers] in *. lra.
  - rewrite Sm. destruct (g_nodes g) as [|n0 ns] eqn:G; [cbn [map qsum]; lra|]. rewrite <- G. rewrite <- (map_map n_id (surf g damp k)). apply surf_sum_le; try tauto. rewrite G. discriminate.
  - intros Ne Out. rewrite Sm. rewrite <- (map_map n_id (surf g damp k)). apply surf_sum_one; try tauto.
    + destruct (g_nodes g); [contradiction|discriminate].
    + intros x Hx. apply in_map_iff in Hx as [n [<- Hn]]. destruct (Out n Hn) as [e [He [E [m [Hm Em]]]]]. intros C.
      assert (Hi : In e (edges_from g (n_id n))); [|rewrite C in Hi; destruct Hi]. apply filter_In. split; auto. rewrite E, String.eqb_refl. cbn. unfold stored. apply existsb_exists. exists m. split; auto. apply String.eqb_eq. auto.
Qed.
Print Assumptions page_rank_sub_probability.
Definition ring3 : gdb := grun all_fine [GUpsertNodes [Some (gn "a" "p"); Some (gn "b" "p"); Some (gn "c" "p")];
  GUpsertEdges [Some (gedge_w "ab" "a" "b" "t" f_one); Some (gedge_w "bc" "b" "c" "t" f_one); Some (gedge_w "ca" "c" "a" "t" f_one); Some (gedge_w "ac" "a" "c" "t" f_one)]].
Example page_rank_ex : let r := page_rank rational_numbers (isort (by_score rational_numbers)) (fun l => l) (fun l => l) ring3 2 (1 # 2) in
  map fst r = ["c"; "a"; "b"] /\ map (fun p => Qred (snd p)) r = [3 # 8; 3 # 8; 1 # 4] /\ qsum (map snd r) == 1.
Proof. vm_compute. auto. Qed.
(** Nodes without outgoing edges lose their share. *)
Example page_rank_leak_ex : let r := page_rank rational_numbers (isort (by_score rational_numbers)) (fun l => l) (fun l => l) g4 1 (1 # 2) in
  Qred (qsum (map snd r)) = 4 # 5.
Proof. vm_compute. auto. Qed.

(** Not every unusable damping factor is replaced by the default: NaN stays, and so does
    every score. *)
Theorem page_rank_nan_damping_refuted : exists g, greachable fk_env g /\
  let r := page_rank float_numbers (isort (by_score float_numbers)) (fun l => l) (fun l => l) g 10 SpecFloat.S754_nan in
  length r = 3%nat /\ forall p, In p r -> snd p = SpecFloat.S754_nan.
Proof.
  exists ring3. split; [apply grun_reachable; reflexivity|]. split; [vm_compute; reflexivity|].
  intros p H. vm_compute in H. destruct H as [<-|[<-|[<-|[]]]]; reflexivity.
Qed.
Print Assumptions page_rank_nan_damping_refuted.
