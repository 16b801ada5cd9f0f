From Coq Require Import String List NArith ZArith Bool Lia Permutation Sorted.
From Coq Require Import Floats.SpecFloat.
From Verif Require Import Base Floats64 StoreModel StoreSpec GraphModel GraphSpec GraphProofs GraphBfsProofs GraphTravProofs.
Import ListNotations.
Open Scope string_scope.
Open Scope list_scope.
From Coq Require Import ZifyBool ZifyNat ZifyN.

Lemma type_allowed_iff types t : type_allowed types t = true <-> types = [] \/ In t types.
Proof. destruct types; cbn [type_allowed]; [intuition|]. rewrite in_ids_iff. split; [auto|]. intros [H|H]; [discriminate|auto]. Qed.

(** Endpoints not yet seen: the fuel. *)
Definition ends (l : list gedge) : list string := flat_map (fun e => [ge_from e; ge_to e]) l.
Definition unseen (seen l : list string) : nat := length (filter (fun y => negb (in_ids seen y)) l).
Lemma unseen_cons seen y l : ~ In y seen -> In y l -> (unseen (y :: seen) l < unseen seen l)%nat.
Proof.
  intros N. unfold unseen. assert (Le : forall l, (length (filter (fun z => negb (in_ids (y :: seen) z)) l) <= length (filter (fun z => negb (in_ids seen z)) l))%nat).
  { clear l. intros l. induction l as [|z l IH]; cbn [filter]; auto.
    replace (in_ids (y :: seen) z) with (String.eqb z y || in_ids seen z)%bool by reflexivity.
    destruct (String.eqb z y), (in_ids seen z); cbn [orb negb length]; lia. }
  induction l as [|z l IH]; [intros []|]. intros H. cbn [filter].
  replace (in_ids (y :: seen) z) with (String.eqb z y || in_ids seen z)%bool by reflexivity.
  destruct (String.eqb_spec z y) as [->|D].
  - rewrite (proj2 (in_ids_false seen y) N). cbn [orb negb length]. specialize (Le l). lia.
  - destruct H as [->|H]; [contradiction|]. specialize (IH H). destruct (in_ids seen z); cbn [orb negb length]; lia.
Qed.
Lemma ends_length l : length (ends l) = (2 * length l)%nat.
Proof. induction l as [|e l IH]; cbn; auto. unfold ends in IH. rewrite IH. lia. Qed.

Section Nb.
Variables (ord : string -> list gedge -> list gedge) (d : gdb).
Hypothesis Ord : any_order ord.
Hypothesis W : weights_numbers d.
Variables (a : string) (o : traversal).
Let R := hop d (direction o) (tr_edge_types o).
Let m := max_depth o.
Hypothesis NoLimit : (tr_limit o <= 0)%Z.
Hypothesis Dir : known_direction (direction o) = true.

Definition dist_is (y : string) (n : nat) : Prop :=
  (exists p, trail R a p y /\ length p = n) /\ forall p, trail R a p y -> (n <= length p)%nat.
Record good_bfs (b : bfs) (k : Z) : Prop := {
  gb_seen : forall y, In y (b_seen b) <-> y = a \/ In y (b_found b);
  gb_nodup : NoDup (a :: b_found b);
  gb_queue : forall z dz, In (z, dz) (b_queue b) -> In z (b_seen b) /\ (k <= dz)%Z /\ exists p, trail R a p z /\ dz = Z.of_nat (length p);
  gb_dist : exists ds, Forall2 dist_is (b_found b) ds /\ StronglySorted le ds /\ forall n, In n ds -> (1 <= n)%nat /\ (Z.of_nat n <= m)%Z /\ (Z.of_nat n <= k + 1)%Z }.

Lemma sorted_snoc ds n : StronglySorted le ds -> (forall x, In x ds -> (x <= n)%nat) -> StronglySorted le (ds ++ [n]).
Proof.
  induction 1 as [|x ds Sx IH Fx]; intros H; cbn; [repeat constructor|].
  constructor; [apply IH; intros y Hy; apply H; right; auto|].
  apply Forall_app. split; auto. constructor; [apply H; left; auto|constructor].
Qed.

Lemma see_edges_ok x k es : forall b,
  (forall e, In e es -> In e (g_edges d) /\ touches (direction o) x e = true) ->
  (0 <= k < m)%Z -> (exists p, trail R a p x /\ k = Z.of_nat (length p)) ->
  good_bfs b k -> levels ((x, k) :: b_queue b) ->
  covered R a m (b_queue b) (b_seen b) (Some (x, k, map (other_end x) (filter (fun e => type_allowed (tr_edge_types o) (ge_type e)) es))) ->
  exists b', see_edges o x k es b = (b', false) /\ good_bfs b' k /\ levels ((x, k) :: b_queue b') /\
    covered R a m (b_queue b') (b_seen b') None /\
    (length (b_queue b') + unseen (b_seen b') (ends (g_edges d)) <= length (b_queue b) + unseen (b_seen b) (ends (g_edges d)))%nat.
Proof.
  induction es as [|e es IH]; intros b He K Tx G L C.
  - exists b. split; auto. split; auto. split; auto. split; auto. eapply covered_done; eauto.
  - assert (He' : forall e, In e es -> In e (g_edges d) /\ touches (direction o) x e = true) by (intros; apply He; right; auto).
    destruct (He e (or_introl eq_refl)) as [Ie Te].
    cbn [see_edges]. unfold see_edge; cbv zeta. cbn [filter] in C.
    destruct (type_allowed (tr_edge_types o) (ge_type e)) eqn:Ty; cbn [negb]; [|apply IH; auto].
    cbn [map] in C. destruct (in_ids (b_seen b) (other_end x e)) eqn:S.
    + apply in_ids_iff in S. apply IH; auto. eapply covered_skip; eauto.
    + apply in_ids_false in S.
      assert (Rx : R x (other_end x e)) by (apply other_end_hop; auto; apply type_allowed_iff; auto).
      set (y := other_end x e) in *.
      match goal with |- context [if Z.ltb 0 (tr_limit o) && ?c then (?bb, true) else _] => set (b1 := bb) end.
      replace (Z.ltb 0 (tr_limit o)) with false by (symmetry; apply Z.ltb_ge; auto). cbn [andb].
      assert (Dy : dist_is y (Z.to_nat (k + 1))).
      { destruct Tx as [px [Tp Ek]]. split.
        - exists (px ++ [y]). split; [eapply trail_snoc; eauto|]. rewrite app_length. cbn. lia.
        - intros p T. destruct (Z.leb_spec (Z.of_nat (length p)) m) as [Lm|Lm]; [|lia].
          assert (k < Z.of_nat (length p))%Z; [|lia].
          eapply (covered_far R a m (b_queue b) (b_seen b)); eauto. intros i Hi. destruct i as [z dz].
          destruct (gb_queue b k G z dz Hi) as [Hs [Hk _]]. cbn. auto. }
      assert (G1 : good_bfs b1 k).
      { destruct G as [Gs Gn Gq [ds [F2 [Sd Bd]]]]. constructor; unfold b1; cbn [b_seen b_found b_queue].
        - intros z. cbn [In]. rewrite Gs, in_app_iff. cbn. intuition.
        - inversion Gn as [|? ? Na Nf]; subst. constructor.
          + intros Hz. apply in_app_or in Hz as [Hz|[Hz|[]]]; [contradiction|]. apply S, Gs. auto.
          + apply NoDup_app_intro; auto; [constructor; [intros []|constructor]|].
            intros z Hz [<-|[]]. apply S, Gs. auto.
        - intros z dz Hz.
          assert (Case : In (z, dz) (b_queue b) \/ (z, dz) = (y, (k + 1)%Z)).
          { destruct (Z.ltb _ _); auto. apply in_app_or in Hz as [Hz|[Hz|[]]]; auto. }
          destruct Case as [Hq|E].
          + destruct (Gq z dz Hq) as [H1 [H2 H3]]. split; [right; auto|auto].
          + injection E as -> ->. split; [left; auto|]. split; [lia|].
            destruct Tx as [px [Tp Ek]]. exists (px ++ [y]). split; [eapply trail_snoc; eauto|]. rewrite app_length. cbn. lia.
        - exists (ds ++ [Z.to_nat (k + 1)]). split; [apply Forall2_app; auto|]. split.
          + apply sorted_snoc; auto. intros n Hn. destruct (Bd n Hn) as [_ [_ B]]. lia.
          + intros n Hn. apply in_app_or in Hn as [Hn|[<-|[]]]; [auto|]. lia. }
      assert (L1 : levels ((x, k) :: b_queue b1)).
      { unfold b1; cbn [b_queue]. destruct (Z.ltb_spec (k + 1) (max_depth o)) as [Hm|Hm]; auto.
        destruct L as [c [q1 [q2 [E [H1 H2]]]]]. destruct q1 as [|j q1]; cbn in E.
        - subst q2. exists k, ((x, k) :: b_queue b), [(y, (k + 1)%Z)]. pose proof (H2 (x, k) (or_introl eq_refl)) as Hc. cbn in Hc.
          split; [reflexivity|]. split; [intros i Hi; rewrite (H2 i Hi); lia|]. intros i [<-|[]]. reflexivity.
        - injection E as <- E. pose proof (H1 (x, k) (or_introl eq_refl)) as Hc. cbn in Hc. subst c.
          exists k, ((x, k) :: q1), (q2 ++ [(y, (k + 1)%Z)]). rewrite E. cbn. rewrite app_assoc. split; auto. split; auto.
          intros i Hi. apply in_app_or in Hi as [Hi|[<-|[]]]; auto. }
      assert (C1 : covered R a m (b_queue b1) (b_seen b1) (Some (x, k, map (other_end x) (filter (fun e => type_allowed (tr_edge_types o) (ge_type e)) es)))).
      { unfold b1; cbn [b_queue b_seen]. apply covered_see; auto.
        intros [z dz] Hz. destruct (gb_queue b k G z dz Hz) as [_ [H _]]. exact H. }
      destruct (IH b1 He' K Tx G1 L1 C1) as [b' [E' [G' [L' [C' Le]]]]].
      exists b'. split; auto. split; auto. split; auto. split; auto.
      assert (In y (ends (g_edges d))).
      { unfold ends. apply in_flat_map. exists e. split; auto. unfold y, other_end. destruct (String.eqb _ _); cbn; auto. }
      pose proof (unseen_cons (b_seen b) y (ends (g_edges d)) S H) as Lt.
      assert (length (b_queue b1) <= 1 + length (b_queue b))%nat.
      { unfold b1; cbn [b_queue]. destruct (Z.ltb _ _); [rewrite app_length; cbn|]; lia. }
      change (b_seen b1) with (y :: b_seen b) in Le. lia.
Qed.

Definition final (found : list string) : Prop :=
  NoDup found /\ (forall y, In y found <-> y <> a /\ exists p, trail R a p y /\ (1 <= Z.of_nat (length p) <= m)%Z) /\
  exists ds, Forall2 dist_is found ds /\ StronglySorted le ds.

Lemma good_found b k y : good_bfs b k -> In y (b_found b) -> y <> a /\ exists p, trail R a p y /\ (1 <= Z.of_nat (length p) <= m)%Z.
Proof.
  intros [Gs Gn _ [ds [F2 [_ Bd]]]] Hy. inversion Gn as [|? ? Na Nf]; subst. split; [congruence|].
  clear -F2 Bd Hy. induction F2 as [|z n l ds Dz F2 IH]; [destruct Hy|].
  destruct Hy as [->|Hy].
  - destruct (Bd n (or_introl eq_refl)) as [B1 [B2 _]]. destruct Dz as [[p [T <-]] _]. exists p. split; auto. lia.
  - apply IH; auto. intros k0 Hk. apply Bd. right; auto.
Qed.

Lemma neighbors_loop_ok fuel : forall b k,
  good_bfs b k -> levels (b_queue b) -> covered R a m (b_queue b) (b_seen b) None -> (0 <= k)%Z ->
  (length (b_queue b) + unseen (b_seen b) (ends (g_edges d)) < fuel)%nat ->
  exists found, neighbors_loop ord fuel d o b = Ok found /\ final found.
Proof.
  induction fuel as [|fuel IH]; intros b k G L C Kp Fu; [lia|].
  cbn [neighbors_loop]. destruct (b_queue b) as [|[x kx] q] eqn:Q.
  - exists (b_found b). split; auto. pose proof G as [Gs Gn Gq [ds [F2 [Sd Bd]]]]. inversion Gn as [|? ? Na Nf]; subst.
    split; auto. split; [|eauto].
    intros y. split; [intros Hy; eapply good_found; eauto|].
    intros [Ny [p [T Lp]]]. destruct (C p y T) as [H|[[z [dz [q2 [[] _]]]]|[x' [k' [ts [w [q2 [E _]]]]]]]]; [lia| |discriminate].
    apply Gs in H as [H|H]; [contradiction|auto].
  - pose proof (gb_queue b k G x kx) as Gx. rewrite Q in Gx. specialize (Gx (or_introl eq_refl)). destruct Gx as [Sx [Kx Tx]].
    set (b0 := {| b_queue := q; b_seen := b_seen b; b_found := b_found b |}).
    assert (G0 : good_bfs b0 kx).
    { destruct G as [Gs Gn Gq [ds [F2 [Sd Bd]]]]. constructor; unfold b0; cbn [b_seen b_found b_queue]; auto.
      - intros z dz Hz. assert (In (z, dz) (b_queue b)) by (rewrite Q; right; auto). destruct (Gq z dz H) as [H1 [_ H3]]. split; auto. split; auto.
        apply (levels_head R _ _ _ L (z, dz)). right; auto.
      - exists ds. split; auto. split; auto. intros n Hn. destruct (Bd n Hn) as [B1 [B2 B3]]. lia. }
    destruct (Z.leb_spec (max_depth o) kx) as [D|D].
    + apply (IH b0 kx); auto; unfold b0; cbn [b_queue b_seen].
      * eapply levels_tail; eauto. * eapply covered_deep; eauto. * lia. * cbn [length] in Fu. lia.
    + destruct (get_edges_ok ord d Ord W x (direction o) Dir) as [es [-> P]].
      destruct (see_edges_ok x kx es b0) as [b' [-> [G' [L' [C' Le]]]]].
      * intros e He. apply (Permutation_in _ P) in He. apply filter_In in He. exact He.
      * fold m in D. lia.
      * exact Tx.
      * exact G0.
      * exact L.
      * unfold b0; cbn [b_queue b_seen]. apply covered_pop; auto.
        intros w Hw. apply hop_other_end in Hw as [e [He [T [Ty E]]]]. apply in_map_iff. exists e. split; auto.
        apply filter_In. split; [|apply type_allowed_iff; auto].
        apply (Permutation_in _ (Permutation_sym P)). apply filter_In. auto.
      * apply (IH b' kx); auto.
        -- eapply levels_tail; eauto.
        -- lia.
        -- unfold b0 in Le; cbn [b_queue b_seen] in Le. cbn [length] in Fu. lia.
Qed.

Lemma neighbors_ids_ok :
  exists found, neighbors_loop ord (3 + 2 * length (g_edges d)) d o {| b_queue := [(a, 0%Z)]; b_seen := [a]; b_found := [] |} = Ok found /\ final found.
Proof.
  apply (neighbors_loop_ok _ _ 0).
  - constructor; cbn [b_seen b_found b_queue].
    + intros y. cbn. intuition.
    + constructor; [intros []|constructor].
    + intros z dz [E|[]]. injection E as <- <-. split; [left; auto|]. split; [lia|]. exists []. split; [constructor|auto].
    + exists []. split; [constructor|]. split; [constructor|intros n []].
  - exists 0%Z, [(a, 0%Z)], []. split; auto. split; [intros i [<-|[]]; auto|intros i []].
  - apply covered_start.
  - lia.
  - cbn [b_queue b_seen length]. pose proof (filter_le (fun y => negb (in_ids [a] y)) (ends (g_edges d))) as Le.
    rewrite ends_length in Le. unfold unseen. lia.
Qed.
End Nb.

(** * The limit cuts the unlimited result *)
Definition unlimited (o : traversal) : traversal :=
  {| tr_depth := tr_depth o; tr_edge_types := tr_edge_types o; tr_node_types := tr_node_types o; tr_dir := tr_dir o; tr_limit := 0 |}.
Definition prefix_of (l l' : list string) : Prop := exists r, l' = l ++ r.
Lemma prefix_trans l1 l2 l3 : prefix_of l1 l2 -> prefix_of l2 l3 -> prefix_of l1 l3.
Proof. intros [r ->] [r' ->]. exists (r ++ r'). rewrite app_assoc. auto. Qed.

Lemma see_edges_grows o x k es : forall b, prefix_of (b_found b) (b_found (fst (see_edges o x k es b))).
Proof.
  induction es as [|e es IH]; intros b; cbn [see_edges]; [exists []; rewrite app_nil_r; auto|].
  unfold see_edge; cbv zeta. destruct (negb _); [apply IH|]. destruct (in_ids _ _); [apply IH|].
  match goal with |- context [if ?c then (?bb, true) else _] => set (b1 := bb) end. destruct (_ && _)%bool.
  - exists [other_end x e]. reflexivity.
  - eapply prefix_trans; [|apply IH]. exists [other_end x e]. reflexivity.
Qed.
Lemma loop_grows ord d o fuel : forall b l, neighbors_loop ord fuel d o b = Ok l -> prefix_of (b_found b) l.
Proof.
  induction fuel as [|fuel IH]; intros b l; cbn [neighbors_loop]; [discriminate|].
  destruct (b_queue b) as [|[x k] q]; [intros E; injection E as <-; exists []; rewrite app_nil_r; auto|].
  destruct (Z.leb _ _); [intros H; apply IH in H; exact H|].
  destruct (get_edges _ _ _ _) as [es| |]; [|discriminate|discriminate].
  match goal with |- context [see_edges o x k es ?b0] => pose proof (see_edges_grows o x k es b0) as Gr; destruct (see_edges o x k es b0) as [b' st] end.
  cbn [fst b_found] in Gr. destruct st.
  - intros E; injection E as <-. exact Gr.
  - intros H. eapply prefix_trans; [exact Gr|]. apply IH; auto.
Qed.
Lemma see_edges_limit o x k es : (0 < tr_limit o)%Z -> forall b, (Z.of_nat (length (b_found b)) < tr_limit o)%Z ->
  (exists b', see_edges o x k es b = (b', false) /\ see_edges (unlimited o) x k es b = (b', false) /\ (Z.of_nat (length (b_found b')) < tr_limit o)%Z) \/
  (exists b' b'', see_edges o x k es b = (b', true) /\ see_edges (unlimited o) x k es b = (b'', false) /\
     Z.of_nat (length (b_found b')) = tr_limit o /\ prefix_of (b_found b') (b_found b'')).
Proof.
  intros P. assert (Nl : forall es b, exists b', see_edges (unlimited o) x k es b = (b', false)).
  { clear es. induction es as [|e es IH]; intros b; cbn [see_edges]; [eauto|].
    unfold see_edge; cbv zeta. destruct (negb _); [apply IH|]. destruct (in_ids _ _); [apply IH|].
    cbn [tr_limit unlimited]. apply IH. }
  induction es as [|e es IH]; intros b Lb.
  - left. exists b. auto.
  - cbn [see_edges]. unfold see_edge; cbv zeta. cbn [unlimited tr_edge_types tr_limit].
    change (max_depth {| tr_depth := tr_depth o; tr_edge_types := tr_edge_types o; tr_node_types := tr_node_types o; tr_dir := tr_dir o; tr_limit := 0 |}) with (max_depth o).
    change {| tr_depth := tr_depth o; tr_edge_types := tr_edge_types o; tr_node_types := tr_node_types o; tr_dir := tr_dir o; tr_limit := 0 |} with (unlimited o).
    destruct (negb _); [apply IH; auto|]. destruct (in_ids _ _); [apply IH; auto|].
    match goal with |- context [if Z.ltb 0 (tr_limit o) && ?c then (?bb, true) else _] => set (b1 := bb) end.
    replace (Z.ltb 0 (tr_limit o)) with true by (symmetry; apply Z.ltb_lt; auto).
    replace (Z.ltb 0 0) with false by reflexivity. cbn [andb].
    assert (L1 : Z.of_nat (length (b_found b1)) = (Z.of_nat (length (b_found b)) + 1)%Z).
    { unfold b1; cbn [b_found]. rewrite app_length. cbn. lia. }
    destruct (Z.leb_spec (tr_limit o) (Z.of_nat (length (b_found b1)))) as [H|H].
    + right. destruct (Nl es b1) as [b'' E]. exists b1, b''. split; auto. split; auto. split; [lia|].
      pose proof (see_edges_grows (unlimited o) x k es b1) as Gr. rewrite E in Gr. exact Gr.
    + apply IH. exact H.
Qed.
Lemma loop_limit ord d o fuel : (0 < tr_limit o)%Z -> forall b l, (Z.of_nat (length (b_found b)) < tr_limit o)%Z ->
  neighbors_loop ord fuel d (unlimited o) b = Ok l -> neighbors_loop ord fuel d o b = Ok (firstn (Z.to_nat (tr_limit o)) l).
Proof.
  intros P. induction fuel as [|fuel IH]; intros b l Lb; cbn [neighbors_loop]; [discriminate|].
  destruct (b_queue b) as [|[x k] q].
  - intros E; injection E as <-. rewrite firstn_all2; auto. lia.
  - change (max_depth (unlimited o)) with (max_depth o). change (direction (unlimited o)) with (direction o).
    destruct (Z.leb _ _); [intros H; apply IH; auto|].
    destruct (get_edges _ _ _ _) as [es| |]; [|discriminate|discriminate].
    match goal with |- context [see_edges o x k es ?b0] =>
      destruct (see_edges_limit o x k es P b0 Lb) as [[b' [-> [-> L']]]|[b' [b'' [-> [-> [L' Pf]]]]]] end.
    + intros H. apply IH; auto.
    + intros H. apply loop_grows in H. destruct (prefix_trans _ _ _ Pf H) as [r ->].
      rewrite firstn_app. replace (Z.to_nat (tr_limit o) - length (b_found b'))%nat with 0%nat by lia.
      rewrite firstn_all2 by lia. cbn. rewrite app_nil_r. auto.
Qed.
