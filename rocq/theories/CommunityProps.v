(** Theorems about CommunityDetection: C49. *)
From Coq Require Import Rdefinitions String List NArith ZArith Bool Lia Permutation Sorted.
From Coq Require Import Floats.SpecFloat.
From Verif Require Import Base Floats64 StoreModel StoreSpec GraphModel GraphSpec GraphProofs GraphAlgoModel GraphAlgoSpec PageRankProofs CommunityProofs FloatReal RangeProofs FloatPosProofs GraphProps.
Import ListNotations.
Open Scope string_scope.
Open Scope list_scope.
Open Scope nat_scope.

Section Calls.
Variable o_adj o_weights : nat -> nat -> list (nat * float) -> list (nat * float).
Variable o_groups : list (nat * list string) -> list (nat * list string).
Variable srt : list community -> list community.
Hypothesis Oa : forall r i l, Permutation (o_adj r i l) l.
Hypothesis Ow : forall r i l, Permutation (o_weights r i l) l.
Hypothesis Og : forall l, Permutation (o_groups l) l.
Hypothesis So : sort_ok by_size srt.

Lemma by_size_order l : weak_order_on by_size l.
Proof.
  unfold weak_order_on, by_size. split.
  - intros x y _ _ H. apply Nat.ltb_lt in H. apply Nat.ltb_ge. lia.
  - intros x y z _ _ _ H1 H2. apply Nat.ltb_ge in H1, H2. apply Nat.ltb_ge. lia.
Qed.
Lemma number_groups_nodes n gs : map cm_nodes (number_groups n gs) = map snd gs.
Proof.
  unfold number_groups. rewrite map_map. cbn. rewrite <- (map_map snd snd). rewrite map_snd_combine; auto. apply seq_length.
Qed.
Lemma number_groups_ids n gs : map cm_id (number_groups n gs) = map Z.of_nat (seq 0 (length gs)).
Proof. unfold number_groups. rewrite map_map. cbn. rewrite <- (map_map fst Z.of_nat). rewrite map_fst_combine; auto. apply seq_length. Qed.
Lemma number_groups_length n gs : length (number_groups n gs) = length gs.
Proof. unfold number_groups. rewrite map_length, combine_length, seq_length. lia. Qed.

Lemma weights_readable g : weights_numbers g -> forallb readable (g_edges g) = true.
Proof.
  intros H. apply forallb_forall. intros e He. specialize (H e He). unfold readable. destruct (ge_weight e); cbn; auto; try contradiction.
Qed.

(** [pos]: any notion of positive weight that sums keep. *)
Lemma communities_facts (pos : float -> Prop) g ordn orde : (forall a, pos a -> flt f_zero a = true) -> (forall a w, pos a -> pos w -> pos (f64_add a w)) -> (forall w, pos w -> pos (f64_add f_zero w)) ->
   unique_ids g -> weights_numbers g -> (forall l, Permutation (ordn l) l) -> (forall l, Permutation (orde l) l) ->
  exists cs settled, communities o_adj o_weights o_groups srt ordn orde g = Ok (cs, settled) /\
    Permutation (concat (map cm_nodes cs)) (map n_id (g_nodes g)) /\
    (forall c, In c cs -> cm_nodes c <> [] /\ cm_score c = f64_div (f64_of_Z (Z.of_nat (length (cm_nodes c)))) (f64_of_Z (Z.of_nat (length (g_nodes g))))) /\
    Permutation (map cm_id cs) (map Z.of_nat (seq 0 (length cs))) /\
    StronglySorted (fun a b => length (cm_nodes b) <= length (cm_nodes a)) cs /\
    (forall c x y, In c cs -> In x (cm_nodes c) -> In y (cm_nodes c) -> joined g x y) /\
    (settled = false -> no_dangling g -> (forall e, In e (g_edges g) -> pos (ge_weight e)) ->
      forall c x y, In c cs -> In x (cm_nodes c) -> has_node g y -> joined g x y -> In y (cm_nodes c)).
Proof.
  intros Pflt Padd Pz [N _] W On Oe. unfold communities. set (ids := map n_id (ordn (g_nodes g))).
  assert (Pi : Permutation ids (map n_id (g_nodes g))) by (apply Permutation_map, On).
  assert (Ni : NoDup ids) by (eapply Permutation_NoDup; [apply Permutation_sym; exact Pi|exact N]).
  assert (Hi : forall x, has_node g x <-> In x ids).
  { intros x. split.
    - intros [n [H <-]]. apply (Permutation_in _ (Permutation_sym Pi)). apply in_map. auto.
    - intros H. apply (Permutation_in _ Pi) in H. apply in_map_iff in H as [n [E H]]. exists n. auto. }
  assert (Ln : length ids = length (g_nodes g)) by (rewrite (Permutation_length Pi), map_length; auto).
  rewrite weights_readable by auto. cbn [negb]. fold (comm_adj ids (orde (g_edges g))). clearbody ids.
  destruct ids as [|i0 is] eqn:Ei.
  { exists [], false. assert (G : g_nodes g = []) by (destruct (g_nodes g); [auto|discriminate]). rewrite G.
    split; [auto|]. split; [constructor|]. split; [intros c []|]. split; [constructor|]. split; [constructor|]. split; [intros c x y []|]. intros _ _ _ c x y []. }
  rewrite <- Ei in *. clear i0 is Ei.
  set (adj := comm_adj ids (orde (g_edges g))). destruct (comm_adj_ok ids (orde (g_edges g)) Ni) as [La Ka]. fold adj in La, Ka.
  set (s := comm_rounds o_adj o_weights 100 0 adj (seq 0 (length ids))).
  assert (Ls : length (fst s) = length ids) by (unfold s; rewrite rounds_length, seq_length; auto).
  set (lab := List.combine ids (fst s)). set (groups := fold_left _ lab []).
  pose proof (groups_fold_ok lab) as [G1 [G2 G3]]. fold groups in G1, G2, G3.
  pose proof (groups_concat lab groups (groups_fold_ok lab)) as Gc. replace (map fst lab) with ids in Gc by (unfold lab; rewrite map_fst_combine; auto).
  destruct (So (number_groups (length ids) (o_groups groups))) as [Ps Ss]. specialize (Ss (by_size_order _)).
  assert (In_cs : forall c, In c (srt (number_groups (length ids) (o_groups groups))) ->
    exists k, cm_nodes c = group_of lab k /\ (exists x, In (x, k) lab) /\ cm_score c = f64_div (f64_of_Z (Z.of_nat (length (cm_nodes c)))) (f64_of_Z (Z.of_nat (length ids)))).
  { intros c Hc. apply (Permutation_in _ (Permutation_sym Ps)) in Hc. unfold number_groups in Hc. apply in_map_iff in Hc as [[i [k gr]] [<- Hc]]. cbn [cm_nodes cm_score fst snd].
    apply in_combine_r in Hc. apply (Permutation_in _ (Og _)) in Hc. exists k. split; [apply G3; auto|]. split; auto. apply G2. apply in_map_iff. exists (k, gr). auto. }
  exists (srt (number_groups (length ids) (o_groups groups))), (snd s).
  split; [auto|]. split; [|split; [|split; [|split; [|split]]]].
  - apply (Permutation_trans (l' := concat (map snd groups))); [|exact (Permutation_trans Gc Pi)]. rewrite <- !flat_map_concat_map. transitivity (flat_map cm_nodes (number_groups (length ids) (o_groups groups))); [apply Permutation_flat_map, Permutation_sym, Ps|].
    rewrite flat_map_concat_map, number_groups_nodes, <- flat_map_concat_map. apply Permutation_flat_map, Og.
  - intros c Hc. destruct (In_cs c Hc) as [k [E [[x Hx] Sc]]]. rewrite <- Ln. split; auto. rewrite E. intros C. apply group_of_in in Hx. rewrite C in Hx. destruct Hx.
  - rewrite <- (Permutation_map cm_id Ps). rewrite number_groups_ids. rewrite <- (Permutation_length Ps), number_groups_length. reflexivity.
  - clear - Ss. unfold sorted_by in Ss. induction Ss as [|a l1 Hs IH Hf]; constructor; auto. eapply Forall_impl; [|exact Hf]. intros b Hb. unfold by_size in Hb. apply Nat.ltb_ge in Hb. auto.
  - intros c x y Hc Hx Hy. destruct (In_cs c Hc) as [k [E _]]. rewrite E in Hx, Hy. apply group_of_in in Hx, Hy.
    set (C := fun i j => forall a b, nth_error ids i = Some a -> nth_error ids j = Some b -> joined g a b).
    assert (OK : labels_ok adj (fun i j => j < length ids /\ C i j) (fst s)).
    { unfold s. apply rounds_ok.
      - exact Oa.
      - exact Ow.
      - intros i j l [L1 C1] [L2 C2]. split; auto. intros a b Ha Hb. destruct (nth_error ids j) as [m|] eqn:M; [|apply nth_error_None in M; lia].
        eapply joined_trans; [apply (C1 a m); auto|apply (C2 m b); auto].
      - intros i j K. apply Ka in K as [e [He K]]. apply (Permutation_in _ (Oe _)) in He. split.
        + apply nth_error_Some. destruct K as [[_ K]|[K _]]; congruence.
        + intros a b Ha Hb. destruct K as [[K1 K2]|[K1 K2]].
          * assert (a = ge_from e) by congruence. assert (b = ge_to e) by congruence. subst. apply joined_edge. auto.
          * assert (b = ge_from e) by congruence. assert (a = ge_to e) by congruence. subst. apply joined_sym, joined_edge. auto.
      - intros i j K. apply Ka in K as [e [He K]]. rewrite La. apply nth_error_Some. destruct K as [[_ K]|[K _]]; congruence.
      - split; [rewrite seq_length; auto|]. intros i Li. rewrite seq_length in Li. rewrite seq_nth by auto. split; [auto|]. intros a b Ha Hb. cbn in Hb. assert (a = b) by congruence. subst. apply joined_refl. }
    destruct OK as [_ OK]. apply (combine_in_nth _ _ 0) in Hx as [i [Hi1 [Hi2 Hi3]]]; [|auto]. apply (combine_in_nth _ _ 0) in Hy as [j [Hj1 [Hj2 Hj3]]]; [|auto].
    destruct (OK i Hi2) as [Lk Ci]. destruct (OK j Hj2) as [_ Cj]. rewrite Hi3 in Ci, Lk. rewrite Hj3 in Cj. destruct (nth_error ids k) as [m|] eqn:M; [|apply nth_error_None in M; lia].
    eapply joined_trans; [apply (Ci x m); auto|]. apply joined_sym. apply (Cj y m); auto.
  - intros St D Wp c x y Hc Hx Hy J. destruct (In_cs c Hc) as [k [E _]]. rewrite E in Hx |- *. apply group_of_in in Hx. apply group_of_in.
    destruct (rounds_settled o_adj o_weights adj 100 0 (seq 0 (length ids)) St) as [r Hr]. fold s in Hr.
    assert (Wa : forall u q, In q (nth u adj []) -> pos (snd q)).
    { unfold adj, comm_adj. apply adj_weights; [|apply repeat_length|intros u q; rewrite nth_repeat_nil; intros []].
      intros e He. apply (Permutation_in _ (Oe _)) in He. specialize (Wp e He). split; [intros a Ha; apply Padd; auto|apply Pz; auto]. }
    apply Hi in Hy. destruct (In_nth_error _ _ Hy) as [v Hv].
    apply (combine_in_nth _ _ 0) in Hx as [u [Hu1 [Hu2 Hu3]]]; [|auto].
    apply (combine_in_nth _ _ 0); [auto|]. exists v. split; auto. split; [rewrite Ls; apply nth_error_Some; congruence|]. rewrite <- Hu3. symmetry.
    apply (joined_same g ids (fun i => nth i (fst s) 0) D) with (x := x) (y := y); auto; [intros z; apply Hi|].
    intros e a b He Ha Hb. symmetry.
    apply (best_comm_settled o_adj o_weights Oa Ow adj pos r a (fst s) Pflt).
    + intros q Hq. specialize (Wa a q Hq). split; [intros z Hz; apply Padd; auto|apply Pz; auto].
    + apply Hr. rewrite Ls. apply nth_error_Some. congruence.
    + apply Ka. exists e. split; [apply (Permutation_in _ (Permutation_sym (Oe _))); auto|auto].
Qed.
End Calls.

(** Every stored node is in exactly one community, communities are non-empty, numbered from
    0, biggest first, scored by their share of the nodes, and each holds only nodes that
    paths of edges join; the call fails only for an edge whose weight is not a number. *)
Theorem communities_exact : forall P o_adj o_weights o_groups srt ordn orde g, greachable P g ->
  (forall r i l, Permutation (o_adj r i l) l) -> (forall r i l, Permutation (o_weights r i l) l) -> (forall l, Permutation (o_groups l) l) ->
  sort_ok by_size srt -> (forall l, Permutation (ordn l) l) -> (forall l, Permutation (orde l) l) ->
  match community_detection o_adj o_weights o_groups srt ordn orde g with
  | Ok cs =>
      Permutation (concat (map cm_nodes cs)) (map n_id (g_nodes g)) /\ NoDup (concat (map cm_nodes cs)) /\
      (forall c, In c cs -> cm_nodes c <> [] /\ cm_score c = f64_div (f64_of_Z (Z.of_nat (length (cm_nodes c)))) (f64_of_Z (Z.of_nat (length (g_nodes g))))) /\
      Permutation (map cm_id cs) (map Z.of_nat (seq 0 (length cs))) /\
      StronglySorted (fun a b => length (cm_nodes b) <= length (cm_nodes a)) cs /\
      (forall c x y, In c cs -> In x (cm_nodes c) -> In y (cm_nodes c) -> joined g x y) /\
      (g_nodes g = [] \/ weights_numbers g)
  | Err _ => g_nodes g <> [] /\ ~ weights_numbers g
  | Panic => False
  end.
Proof.
  intros P oa ow og srt ordn orde g R Oa Ow Og So On Oe. pose proof (reach_unique P g R) as U. unfold community_detection.
  destruct (forallb readable (g_edges g)) eqn:F.
  - assert (W : weights_numbers g). { intros e He. rewrite forallb_forall in F. specialize (F e He). unfold readable in F. destruct (ge_weight e); cbn in *; discriminate. }
    destruct (communities_facts oa ow og srt Oa Ow Og So (fun _ => False) g ordn orde ltac:(intros ? []) ltac:(intros ? ? []) ltac:(intros ? []) U W On Oe) as [cs [st [E [H1 [H2 [H3 [H4 [H5 _]]]]]]]]. rewrite E. cbn [bind fst].
    split; [auto|]. split; [eapply Permutation_NoDup; [apply Permutation_sym; exact H1|apply U]|]. split; [exact H2|]. split; [exact H3|]. split; [exact H4|]. split; [exact H5|]. auto.
  - unfold communities. rewrite F. cbn [negb]. destruct (map n_id (ordn (g_nodes g))) as [|i0 is] eqn:Ei; cbn [bind fst].
    + assert (G : g_nodes g = []). { apply map_eq_nil in Ei. apply Permutation_nil. rewrite <- Ei. apply On. }
      rewrite G. split; [constructor|]. split; [constructor|]. split; [intros c []|]. split; [constructor|]. split; [constructor|]. split; [intros c x y []|]. auto.
    + split; [intros G; rewrite G in Ei; rewrite (Permutation_nil (Permutation_sym (On []))) in Ei; discriminate|].
      intros W. rewrite weights_readable in F by auto. discriminate.
Qed.
Print Assumptions communities_exact.

(** Once a pass moves no node, the communities are the connected components: two nodes
    share a community exactly if a path of edges joins them, whatever the weights. *)
Theorem communities_are_components : forall o_adj o_weights o_groups srt ordn orde g cs, greachable fk_env g ->
  (forall r i l, Permutation (o_adj r i l) l) -> (forall r i l, Permutation (o_weights r i l) l) -> (forall l, Permutation (o_groups l) l) ->
  sort_ok by_size srt -> (forall l, Permutation (ordn l) l) -> (forall l, Permutation (orde l) l) ->
  (forall e, In e (g_edges g) -> exists r, fin (ge_weight e) r /\ (0 < r)%R) ->
  communities o_adj o_weights o_groups srt ordn orde g = Ok (cs, false) ->
  forall x y, has_node g x -> has_node g y -> ((exists c, In c cs /\ In x (cm_nodes c) /\ In y (cm_nodes c)) <-> joined g x y).
Proof.
  intros oa ow og srt ordn orde g cs R Oa Ow Og So On Oe Wp E x y Hx Hy. destruct (reach_fine g R) as [U D].
  assert (W : weights_numbers g). { intros e He. destruct (Wp e He) as [r [F _]]. eapply fin_not_nan; eauto. }
  destruct (communities_facts oa ow og srt Oa Ow Og So positive g ordn orde positive_flt positive_add positive_zero_add U W On Oe) as [cs' [st [E' [H1 [_ [_ [_ [H5 H6]]]]]]]]. rewrite E in E'. injection E' as <- <-.
  split; [intros [c [Hc [Cx Cy]]]; eapply H5; eauto|]. intros J.
  assert (Ix : In x (concat (map cm_nodes cs))). { apply (Permutation_in _ (Permutation_sym H1)). destruct Hx as [n [Hn <-]]. apply in_map. auto. }
  apply in_concat in Ix as [l [Hl Ix]]. apply in_map_iff in Hl as [c [<- Hc]]. exists c. split; auto. split; auto.
  eapply H6; eauto. intros e He. left. auto.
Qed.
Print Assumptions communities_are_components.

Definition comm_call (g : gdb) := communities (fun _ _ l => l) (fun _ _ l => l) (fun l => l) (isort by_size) (fun l => l) (fun l => l) g.
Example communities_ex : option_map (fun r => (map cm_nodes (fst r), snd r)) (match comm_call g4 with Ok r => Some r | _ => None end) = Some ([["a"; "b"; "c"; "d"]; ["z"]], false).
Proof. vm_compute. reflexivity. Qed.


(** The result is not a function of the graph: on a triangle of equal edges the iteration
    order of a map decides between one community and two, and in the latter case one node
    is alone although both its edges lead into the other community. *)
Definition tri : gdb := grun all_fine [GUpsertNodes [Some (gn "a" "p"); Some (gn "b" "p"); Some (gn "c" "p")];
  GUpsertEdges [Some (gedge_w "ab" "a" "b" "t" f_one); Some (gedge_w "bc" "b" "c" "t" f_one); Some (gedge_w "ca" "c" "a" "t" f_one)]].
Theorem communities_depend_on_map_order_refuted : exists g o1 o2 cs1 cs2, greachable fk_env g /\
  (forall r i l, Permutation (o1 r i l) l) /\ (forall r i l, Permutation (o2 r i l) l) /\
  community_detection (fun _ _ l => l) o1 (fun l => l) (isort by_size) (fun l => l) (fun l => l) g = Ok cs1 /\
  community_detection (fun _ _ l => l) o2 (fun l => l) (isort by_size) (fun l => l) (fun l => l) g = Ok cs2 /\
  map cm_nodes cs1 = [["a"; "c"]; ["b"]] /\ map cm_nodes cs2 = [["a"; "b"; "c"]] /\
  map (fun e => (ge_from e, ge_to e)) (g_edges g) = [("a", "b"); ("b", "c"); ("c", "a")] /\ (forall e, In e (g_edges g) -> ge_weight e = f_one).
Proof.
  exists tri, (fun _ _ l => l), (fun _ _ l => rev l). eexists. eexists. split; [apply grun_reachable; reflexivity|].
  split; [reflexivity|]. split; [intros r i l; apply Permutation_sym, Permutation_rev|].
  split; [vm_compute; reflexivity|]. split; [vm_compute; reflexivity|]. split; [reflexivity|]. split; [reflexivity|]. split; [reflexivity|].
  intros e He. vm_compute in He. destruct He as [<-|[<-|[<-|[]]]]; reflexivity.
Qed.
Print Assumptions communities_depend_on_map_order_refuted.
(** Weights do not separate groups: two pairs of heavy edges joined by one weak edge are
    one community. *)
Definition w_light : float := f64_div (f64_of_Z 1) (f64_of_Z 1000).
Definition bridge : gdb := grun all_fine
  [GUpsertNodes [Some (gn "a" "p"); Some (gn "b" "p"); Some (gn "x" "p"); Some (gn "y" "p")];
   GUpsertEdges [Some (gedge_w "ab" "a" "b" "t" (f64_of_Z 1000)); Some (gedge_w "xy" "x" "y" "t" (f64_of_Z 1000)); Some (gedge_w "bx" "b" "x" "t" w_light)]].
Example bridge_ex : exists cs, comm_call bridge = Ok (cs, false) /\ map cm_nodes cs = [["a"; "b"; "x"; "y"]].
Proof. eexists. split; vm_compute; reflexivity. Qed.
