From Coq Require Import String List Arith ZArith Bool Lia Permutation Sorted.
From Coq Require Import Floats.SpecFloat.
From Verif Require Import Base Floats64 HeapModel HeapProofs HnswModel.
Import ListNotations.
Local Notation item := (float * string)%type.
Local Notation lstate := (list string * list (float * string) * list (float * string))%type.

Lemma SFopp_opp a : SFopp (SFopp a) = a.
Proof. destruct a as [[]|[]| |[] ? ?]; reflexivity. Qed.
Lemma flt_opp a b : flt (SFopp a) (SFopp b) = flt b a.
Proof.
  unfold flt, SFltb. destruct a as [sa|sa| |sa ma ea], b as [sb|sb| |sb mb eb]; try destruct sa; try destruct sb; cbn; auto;
  rewrite (Z.compare_antisym eb ea); destruct (Z.compare_spec eb ea); cbn; auto;
    change (Pos.compare_cont Eq ma mb) with (Pos.compare ma mb); change (Pos.compare_cont Eq mb ma) with (Pos.compare mb ma); rewrite (Pos.compare_antisym ma mb); destruct (Pos.compare ma mb); cbn; auto.
Qed.
Lemma not_nan_opp a : not_nan a -> not_nan (SFopp a).
Proof. unfold not_nan. destruct a; cbn; congruence. Qed.

Lemma mem_In x l : mem x l = true <-> In x l.
Proof.
  unfold mem. rewrite existsb_exists. split; [intros (y & H & E); apply String.eqb_eq in E; subst; auto|].
  intros H. exists x. split; auto. apply String.eqb_refl.
Qed.
Lemma mem_nIn x l : mem x l = false <-> ~ In x l.
Proof. rewrite <- mem_In. destruct (mem x l); split; congruence. Qed.

Section HS.
Context {vec : Type}.
Variable dist : vec -> vec -> float.

Lemma get_in (ns : nodes vec) id n : get ns id = Some n -> In (id, n) ns.
Proof.
  induction ns as [|[i m] ns IH]; cbn; [discriminate|]. destruct (String.eqb_spec i id) as [->|N]; [intros [= ->]; auto|]. auto.
Qed.
Lemma get_some_in (ns : nodes vec) id n : get ns id = Some n -> In id (ids_of ns).
Proof. intros H. apply get_in in H. apply (in_map fst) in H. exact H. Qed.
Lemma in_get (ns : nodes vec) id : In id (ids_of ns) -> exists n, get ns id = Some n.
Proof.
  induction ns as [|[i m] ns IH]; cbn; [tauto|]. destruct (String.eqb_spec i id) as [->|N]; eauto. intros [E|H]; [congruence|auto].
Qed.
Lemma get_none (ns : nodes vec) id : get ns id = None <-> ~ In id (ids_of ns).
Proof.
  split; [intros H I; apply in_get in I as [n E]; congruence|]. intros H. destruct (get ns id) eqn:E; auto. apply get_some_in in E. tauto.
Qed.
Lemma in_get_eq (ns : nodes vec) id n : NoDup (ids_of ns) -> In (id, n) ns -> get ns id = Some n.
Proof.
  induction ns as [|[i m] ns IH]; cbn; [tauto|]. intros ND [E|H]; inversion ND; subst.
  - injection E as -> ->. rewrite String.eqb_refl. auto.
  - destruct (String.eqb_spec i id) as [->|N]; auto. exfalso. apply H2. apply (in_map fst) in H. exact H.
Qed.

(** A set of ids closed under the links of one layer. *)
Definition closed (ns : nodes vec) (layer : nat) (S : string -> Prop) : Prop :=
  forall x, S x -> exists n, get ns x = Some n /\ forall l, layer_of n layer = Some l -> forall y, In y l -> S y.

Definition Dof (ns : nodes vec) (q : vec) (x : string) : option float :=
  match get ns x with Some n => Some (dist q (n_vec n)) | None => None end.

Section Layer.
Variables (ns : nodes vec) (q : vec) (ef layer B : nat) (S : string -> Prop).
Hypothesis HC : closed ns layer S.
Hypothesis HB : ef <= B.

Record Inv (st : lstate) : Prop := {
  i_vis : forall x, In x (fst (fst st)) -> S x;
  i_cand : forall d x, In (d, x) (snd (fst st)) -> In x (fst (fst st)) /\ Dof ns q x = Some d;
  i_dyn : forall e x, In (e, x) (snd st) -> In x (fst (fst st)) /\ Dof ns q x = Some (SFopp e);
  i_nodup : NoDup (map snd (snd st));
  i_ne : fst (fst st) <> [] -> snd st <> [];
  i_len : length (snd st) <= B }.

Definition unvis (vis : list string) : nat := length (filter (fun x => negb (mem x vis)) (ids_of ns)).
Definition meas (st : lstate) : nat := length (snd (fst st)) + unvis (fst (fst st)).

Lemma filter_le {A} (p p' : A -> bool) l : (forall y, p' y = true -> p y = true) -> length (filter p' l) <= length (filter p l).
Proof.
  intros Hi. induction l as [|y l IH]; cbn; auto. destruct (p' y) eqn:E; [rewrite (Hi _ E); cbn; lia|destruct (p y); cbn; lia].
Qed.
Lemma filter_lt {A} (p p' : A -> bool) l x : (forall y, p' y = true -> p y = true) -> In x l -> p x = true -> p' x = false ->
  Datatypes.S (length (filter p' l)) <= length (filter p l).
Proof.
  intros Hi. assert (G : forall l, length (filter p' l) <= length (filter p l)).
  { clear x l. induction l as [|y l IH]; cbn; auto. destruct (p' y) eqn:E; [rewrite (Hi _ E); cbn; lia|destruct (p y); cbn; lia]. }
  induction l as [|y l IH]; cbn; [tauto|]. intros [->|H] Hp Hp'.
  - rewrite Hp, Hp'. cbn. specialize (G l). lia.
  - specialize (IH H Hp Hp'). destruct (p' y) eqn:E; [rewrite (Hi _ E); cbn; lia|destruct (p y); cbn; lia].
Qed.
Lemma unvis_cons vis x : In x (ids_of ns) -> ~ In x vis -> unvis (x :: vis) + 1 <= unvis vis.
Proof.
  intros H1 H2. unfold unvis. assert (L := filter_lt (fun y => negb (mem y vis)) (fun y => negb (mem y (x :: vis))) (ids_of ns) x).
  rewrite Nat.add_1_r. apply L; auto.
  - intros y. cbn [mem existsb]. unfold mem. cbn. destruct (String.eqb y x); cbn; [discriminate|auto].
  - apply mem_nIn in H2. rewrite H2. auto.
  - unfold mem; cbn. rewrite String.eqb_refl. auto.
Qed.
Lemma unvis_le vis x : unvis (x :: vis) <= unvis vis.
Proof.
  unfold unvis. apply filter_le. intros y. cbn [mem existsb]. unfold mem. cbn. destruct (String.eqb y x); cbn; [discriminate|auto].
Qed.

Lemma perm_snd (x : item) l l' : Permutation (x :: l) l' -> Permutation (snd x :: map snd l) (map snd l').
Proof. intros P. apply (Permutation_map snd) in P. exact P. Qed.

Lemma visit_inv st nb : Inv st -> fst (fst st) <> [] -> S nb ->
  exists st', visit dist ns q ef st nb = Ok st' /\ Inv st' /\ In nb (fst (fst st')) /\ incl (fst (fst st)) (fst (fst st')) /\ meas st' <= meas st.
Proof.
  intros I NE Hnb. destruct st as [[vis cand] dyn]. unfold visit. destruct (mem nb vis) eqn:M.
  { apply mem_In in M. eexists. split; [reflexivity|]. split; [exact I|]. split; [exact M|]. split; [apply incl_refl|auto]. }
  destruct I as [I1 I2 I3 I4 I5 I6]. cbn [fst snd] in *.
  { apply mem_nIn in M. destruct (HC nb Hnb) as (n & Gn & _). rewrite Gn.
    destruct dyn as [|[top tid] dyn0] eqn:Ed; [exfalso; apply I5; auto|]. rewrite <- Ed in *.
    set (d := dist q (n_vec n)). assert (HD : Dof ns q nb = Some d) by (unfold Dof; rewrite Gn; auto).
    assert (Hid : In nb (ids_of ns)) by (eapply get_some_in; eauto).
    destruct (flt d (SFopp top) || Nat.ltb (length dyn) ef) eqn:C.
    + set (dyn1 := heap_push less_item (SFopp d, nb) dyn).
      assert (P1 : Permutation ((SFopp d, nb) :: dyn) dyn1) by apply push_perm.
      set (dyn2 := if Nat.ltb ef (length dyn1) then match heap_pop less_item dyn1 with Some (_, r) => r | None => dyn1 end else dyn1).
      set (cand1 := heap_push less_item (d, nb) cand).
      assert (P2 : Permutation ((d, nb) :: cand) cand1) by apply push_perm.
      assert (Hsub : forall e x, In (e, x) dyn1 -> In x (nb :: vis) /\ Dof ns q x = Some (SFopp e)).
      { intros e x Hx. apply (Permutation_in _ (Permutation_sym P1)) in Hx. destruct Hx as [E|Hx].
        - injection E as <- <-. rewrite SFopp_opp. split; cbn; auto.
        - destruct (I3 _ _ Hx). split; cbn; auto. }
      assert (ND1 : NoDup (map snd dyn1)).
      { eapply Permutation_NoDup; [apply perm_snd; exact P1|]. cbn. constructor; auto. intros Hx. apply in_map_iff in Hx as ([e y] & E & Hx).
        cbn in E. subst y. apply I3 in Hx as [Hx _]. auto. }
      assert (L1 : length dyn1 = length dyn + 1) by (rewrite <- (Permutation_length P1); cbn; lia).
      assert (H2 : (forall x, In x dyn2 -> In x dyn1) /\ NoDup (map snd dyn2) /\ dyn2 <> [] /\ length dyn2 <= B).
      { unfold dyn2. destruct (Nat.ltb_spec ef (length dyn1)) as [Hl|Hl].
        - destruct (heap_pop less_item dyn1) as [[x r]|] eqn:Ep.
          + apply pop_perm in Ep. pose proof (Permutation_length Ep) as PL. cbn in PL. split; [|split; [|split]].
            * intros y Hy. eapply Permutation_in; [apply Permutation_sym; exact Ep|right; auto].
            * apply (Permutation_map snd) in Ep. eapply Permutation_NoDup in ND1; [|exact Ep]. cbn in ND1. inversion ND1; auto.
            * intros ->. cbn in PL. rewrite Ed in L1. cbn in L1. lia.
            * lia.
          + apply pop_none in Ep. rewrite Ep in L1. cbn in L1. lia.
        - split; [auto|]. split; [auto|]. split; [|lia]. intros E. rewrite E in L1. cbn in L1. lia. }
      destruct H2 as (H2a & H2b & H2c & H2d).
      eexists. split; [reflexivity|]. split; [constructor; cbn|split; [cbn; auto|split; [cbn; intros y Hy; right; auto|]]].
      * intros x [<-|Hx]; auto.
      * intros e x Hx. apply (Permutation_in _ (Permutation_sym P2)) in Hx. destruct Hx as [E|Hx]; [injection E as <- <-; auto|].
        destruct (I2 _ _ Hx); auto.
      * intros e x Hx. apply Hsub. auto.
      * auto.
      * auto.
      * auto.
      * unfold meas. cbn. pose proof (unvis_cons vis nb Hid M). rewrite <- (Permutation_length P2). cbn. lia.
    + eexists. split; [reflexivity|]. split; [constructor; cbn|split; [cbn; auto|split; [cbn; intros y Hy; right; auto|]]]; auto.
      * intros x [<-|Hx]; auto.
      * intros e x Hx. destruct (I2 _ _ Hx); auto.
      * intros e x Hx. destruct (I3 _ _ Hx); auto.
      * unfold meas. cbn. pose proof (unvis_le vis nb). lia. }
Qed.

Lemma visit_all_inv nbs : forall st, Inv st -> fst (fst st) <> [] -> (forall y, In y nbs -> S y) ->
  exists st', visit_all dist ns q ef nbs st = Ok st' /\ Inv st' /\ incl nbs (fst (fst st')) /\ incl (fst (fst st)) (fst (fst st')) /\ meas st' <= meas st.
Proof.
  induction nbs as [|nb nbs IH]; intros st I NE H; cbn [visit_all].
  - eexists. split; [reflexivity|]. split; auto. split; [intros ? []|]. split; [apply incl_refl|auto].
  - destruct (visit_inv st nb I NE (H nb (or_introl eq_refl))) as (st1 & E1 & I1 & N1 & V1 & M1). rewrite E1.
    assert (NE1 : fst (fst st1) <> []) by (intros E; rewrite E in N1; destruct N1).
    destruct (IH st1 I1 NE1 (fun y Hy => H y (or_intror Hy))) as (st2 & E2 & I2 & N2 & V2 & M2).
    exists st2. split; auto. split; auto. split; [intros y [<-|Hy]; auto|]. split; [|lia]. eapply incl_tran; eauto.
Qed.

Lemma loop_inv f : forall st, Inv st -> meas st < f ->
  exists dyn vis, search_loop dist f ns q ef layer st = Ok dyn /\ Inv (vis, [], dyn) /\ incl (fst (fst st)) vis.
Proof.
  induction f as [|f IH]; intros st I Hf; [lia|]. destruct st as [[vis cand] dyn]. cbn [search_loop].
  assert (Stop : exists dyn0 vis0, Ok dyn = Ok dyn0 /\ Inv (vis0, [], dyn0) /\ incl (fst (fst (vis, cand, dyn))) vis0).
  { exists dyn, vis. split; auto. split; [|apply incl_refl]. destruct I; constructor; cbn [fst snd] in *; auto. intros ? ? []. }
  destruct cand as [|[low lid] cand0] eqn:Ec; [exact Stop|]. rewrite <- Ec in *.
  destruct (match dyn with [] => false | (top, _) :: _ => flt (SFopp top) low end); [exact Stop|].
  destruct (pop_some less_item cand) as ([dc c] & cand' & Ep & _ & P); [rewrite Ec; discriminate|]. rewrite Ep.
  assert (Hc : In (dc, c) cand) by (eapply Permutation_in; [apply Permutation_sym; exact P|left; auto]).
  destruct I as [I1 I2 I3 I4 I5 I6]; cbn [fst snd] in *. destruct (I2 _ _ Hc) as [Hcv HDc].
  destruct (HC c (I1 _ Hcv)) as (n & Gn & Hn). rewrite Gn.
  assert (I' : Inv (vis, cand', dyn)).
  { constructor; cbn; auto. intros d x Hx. apply I2. eapply Permutation_in; [apply Permutation_sym; exact P|right; auto]. }
  assert (PL : length cand = Datatypes.S (length cand')) by (rewrite (Permutation_length P); auto).
  unfold meas in Hf. cbn in Hf.
  destruct (layer_of n layer) as [nbs|] eqn:El.
  - destruct (visit_all_inv nbs (vis, cand', dyn) I') as (st1 & E1 & I1' & _ & V1 & M1); [cbn; intros ->; destruct Hcv|exact (Hn nbs eq_refl)|].
    rewrite E1. unfold meas in M1 at 2. cbn in M1. destruct (IH st1 I1' ltac:(lia)) as (dyn2 & vis2 & E2 & I2' & V2).
    exists dyn2, vis2. split; auto. split; auto. cbn. eapply incl_tran; [exact V1|exact V2].
  - destruct (IH (vis, cand', dyn) I') as (dyn2 & vis2 & E2 & I2' & V2); [unfold meas; cbn; lia|]. exists dyn2, vis2. auto.
Qed.

Lemma start_inv eps : forall vis cand dyn, (forall x, In x eps -> S x) -> NoDup (vis ++ eps) ->
  Inv (vis, cand, dyn) -> length dyn + length eps <= B ->
  exists cand' dyn', start dist ns q eps (vis, cand, dyn) = Ok (rev eps ++ vis, cand', dyn') /\ Inv (rev eps ++ vis, cand', dyn')
    /\ length cand' = length cand + length eps /\ Permutation (rev eps ++ map snd dyn) (map snd dyn').
Proof.
  induction eps as [|p eps IH]; intros vis cand dyn HS ND I HL; cbn [start].
  - exists cand, dyn. cbn. split; [reflexivity|]. split; [exact I|]. split; [lia|auto].
  - destruct (HC p (HS p (or_introl eq_refl))) as (n & Gn & _). rewrite Gn. set (d := dist q (n_vec n)).
    assert (HD : Dof ns q p = Some d) by (unfold Dof; rewrite Gn; auto).
    pose proof (push_perm less_item (d, p) cand) as P1. pose proof (push_perm less_item (SFopp d, p) dyn) as P2.
    set (cand1 := heap_push less_item (d, p) cand) in *. set (dyn1 := heap_push less_item (SFopp d, p) dyn) in *.
    assert (Np : ~ In p vis). { intros H. apply (NoDup_app_disj _ _ ND p H). left; auto. }
    destruct I as [I1 I2 I3 I4 I5 I6]; cbn [fst snd] in *.
    destruct (IH (p :: vis) cand1 dyn1) as (cand' & dyn' & E & I' & L & PP).
    + intros x Hx. apply HS. right; auto.
    + cbn. constructor.
      * intros H. apply in_app_or in H as [H|H]; auto. apply NoDup_app_r in ND. inversion ND; auto.
      * apply NoDup_app_intro; [eapply NoDup_app_l; eauto|apply NoDup_app_r in ND; inversion ND; auto|].
        intros x Hx Hx'. apply (NoDup_app_disj _ _ ND x Hx). right; auto.
    + constructor; cbn.
      * intros x [<-|Hx]; auto; apply HS; left; auto.
      * intros e x Hx. apply (Permutation_in _ (Permutation_sym P1)) in Hx. destruct Hx as [Ex|Hx]; [injection Ex as <- <-; auto|].
        destruct (I2 _ _ Hx); auto.
      * intros e x Hx. apply (Permutation_in _ (Permutation_sym P2)) in Hx. destruct Hx as [Ex|Hx]; [injection Ex as <- <-; rewrite SFopp_opp; auto|].
        destruct (I3 _ _ Hx); auto.
      * eapply Permutation_NoDup; [apply perm_snd; exact P2|]. cbn. constructor; auto. intros Hx. apply in_map_iff in Hx as ([e y] & Ey & Hx).
        cbn in Ey. subst y. apply I3 in Hx as [Hx _]. auto.
      * intros _ E. apply Permutation_length in P2. rewrite E in P2. discriminate.
      * rewrite <- (Permutation_length P2). cbn. cbn [length] in HL; lia.
    + rewrite <- (Permutation_length P2). cbn. cbn [length] in HL; lia.
    + exists cand', dyn'. cbn [rev]. rewrite <- !app_assoc. cbn [app]. split; [exact E|]. split; [exact I'|].
      rewrite L, <- (Permutation_length P1). cbn. split; [lia|].
      eapply perm_trans; [|exact PP]. apply Permutation_app_head. apply (Permutation_map snd) in P2. exact P2.
Qed.
Lemma unvis_nil : unvis [] = length ns.
Proof. unfold unvis, ids_of. rewrite filter_all; [apply map_length|]. auto. Qed.
Lemma unvis_incl v : unvis v <= length ns.
Proof.
  unfold unvis. pose proof (map_length fst ns) as E. fold (ids_of ns) in E. rewrite <- E.
  clear. induction (ids_of ns) as [|x l IH]; cbn; auto. destruct (negb _); cbn; lia.
Qed.

End Layer.

(** What searchLayer returns, without any assumption on the distances: distinct
    ids of the closed set, at most max(ef, number of entry points). *)
Lemma search_layer_sound ns q eps ef layer S : closed ns layer S -> NoDup eps -> (forall x, In x eps -> S x) ->
  exists r, search_layer dist ns q eps ef layer = Ok r /\ NoDup r /\ (forall x, In x r -> S x) /\
    (eps <> [] -> r <> []) /\ length r <= Nat.max ef (length eps).
Proof.
  intros HC ND HS. unfold search_layer. set (B := Nat.max ef (length eps)).
  destruct (start_inv ns q ef layer B S HC ltac:(unfold B; lia) eps [] [] [] HS ND) as (cand & dyn & E & I & L & P).
  { constructor; cbn; try (intros ? ? []); try (intros ? []); try constructor; try congruence; try lia. }
  { cbn. unfold B. lia. }
  rewrite E. rewrite app_nil_r in *.
  destruct (loop_inv ns q ef layer B S HC ltac:(unfold B; lia) (Datatypes.S (length eps + length ns)) _ I) as (dyn2 & vis2 & E2 & I2 & V2).
  { unfold meas. cbn. cbn in L. pose proof (unvis_incl ns (rev eps)). lia. }
  rewrite E2. eexists. split; [reflexivity|].
  pose proof (drain_perm less_item (length dyn2) dyn2 (le_n _)) as PD. apply (Permutation_map snd) in PD.
  assert (PR : Permutation (map snd dyn2) (rev (map snd (heap_drain less_item (length dyn2) dyn2)))) by (eapply perm_trans; [exact PD|apply Permutation_rev]).
  destruct I2 as [I21 I22 I23 I24 I25 I26]; cbn [fst snd] in *.
  split; [eapply Permutation_NoDup; eauto|]. split; [|split].
  - intros x Hx. apply (Permutation_in _ (Permutation_sym PR)) in Hx. apply in_map_iff in Hx as ([e y] & Ey & Hx). cbn in Ey. subst y.
    apply I21. apply (I23 _ _ Hx).
  - intros NE E0. rewrite E0 in PR. apply Permutation_sym, Permutation_nil, map_eq_nil in PR. apply I25; auto.
    intros Ev. destruct eps as [|p eps0]; [congruence|]. specialize (V2 p). rewrite Ev in V2. apply V2. cbn. apply in_or_app. right; left; auto.
  - rewrite <- (Permutation_length PR), map_length. exact I26.
Qed.

(** *** order: the search is locally optimal *)
Section Order.
Variables (ns : nodes vec) (q : vec) (ef layer B : nat) (S : string -> Prop).
Hypothesis HC : closed ns layer S.
Hypothesis HB : ef <= B.
Hypothesis HN : forall x d, S x -> Dof ns q x = Some d -> not_nan d.

Definition numi (it : item) : Prop := not_nan (fst it).
Lemma less_asym : forall x y, numi x -> numi y -> less_item x y = true -> less_item y x = false.
Proof. intros. apply flt_asym. auto. Qed.
Lemma less_ntrans : forall x y z, numi x -> numi y -> numi z -> less_item y x = false -> less_item z y = false -> less_item z x = false.
Proof. unfold numi, less_item. intros. eapply flt_ntrans; [| |  |eassumption|eassumption]; auto. Qed.

Definition expanded (vis : list string) (x : string) : Prop :=
  forall n l, get ns x = Some n -> layer_of n layer = Some l -> incl l vis.

(** [cur] is the node being expanded, if any. *)
Record Ord (cur : option string) (st : lstate) : Prop := {
  o_hc : heap_ok less_item (snd (fst st));
  o_hd : heap_ok less_item (snd st);
  o_out : forall x d, In x (fst (fst st)) -> Dof ns q x = Some d -> ~ In x (map snd (snd st)) ->
            ef <= length (snd st) /\ forall e y, In (e, y) (snd st) -> flt d (SFopp e) = false;
  o_exp : forall x, In x (map snd (snd st)) -> In x (map snd (snd (fst st))) \/ expanded (fst (fst st)) x \/ cur = Some x }.

Lemma inv_num_cand st : Inv ns q B S st -> Forall numi (snd (fst st)).
Proof. intros I. apply Forall_forall. intros [d x] H. destruct I as [I1 I2 I3 I4 I5 I6]. apply I2 in H as [H1 H2]. unfold numi. cbn. eapply HN; [apply I1; exact H1|exact H2]. Qed.
Lemma inv_num_dyn st : Inv ns q B S st -> Forall numi (snd st).
Proof.
  intros I. apply Forall_forall. intros [d x] H. destruct I as [I1 I2 I3 I4 I5 I6]. apply I3 in H as [H1 H2]. unfold numi. cbn.
  rewrite <- SFopp_opp. apply not_nan_opp. eapply HN; [apply I1; exact H1|exact H2].
Qed.

Lemma visit_ord cur st nb st' : Inv ns q B S st -> Ord cur st -> S nb -> visit dist ns q ef st nb = Ok st' -> Inv ns q B S st' -> Ord cur st'.
Proof.
  intros I O Hnb E I'. pose proof (inv_num_cand _ I) as NC. pose proof (inv_num_dyn _ I) as NDy.
  destruct st as [[vis cand] dyn]. unfold visit in E. destruct (mem nb vis) eqn:M; [injection E as <-; auto|]. apply mem_nIn in M.
  destruct (HC nb Hnb) as (n & Gn & _). rewrite Gn in E. destruct dyn as [|[top tid] dyn0] eqn:Ed; [discriminate|]. rewrite <- Ed in *.
  set (d := dist q (n_vec n)) in *. assert (HD : Dof ns q nb = Some d) by (unfold Dof; rewrite Gn; auto).
  assert (Nd : not_nan d) by (eapply HN; eauto).
  destruct O as [O1 O2 O3 O4]. destruct I as [I1 I2 I3 I4 I5 I6]. cbn [fst snd] in *.
  assert (Hmax : forall e y, In (e, y) dyn -> flt (SFopp top) (SFopp e) = false).
  { intros e y Hy. rewrite flt_opp. pose proof (heap_min less_item numi less_asym less_ntrans dyn (top, tid) (e, y) NDy O2) as Hm.
    unfold less_item in Hm. cbn in Hm. apply Hm; auto. rewrite Ed. auto. }
  assert (Ntop : not_nan (SFopp top)). { apply not_nan_opp. rewrite Ed in NDy. inversion NDy; auto. }
  assert (HexpW : forall x, expanded vis x -> expanded (nb :: vis) x).
  { intros x Hx n' l' G L y Hy. right. eapply Hx; eauto. }
  destruct (flt d (SFopp top) || Nat.ltb (length dyn) ef) eqn:C.
  - set (dyn1 := heap_push less_item (SFopp d, nb) dyn) in *. set (cand1 := heap_push less_item (d, nb) cand) in *.
    pose proof (push_perm less_item (SFopp d, nb) dyn) as P1. fold dyn1 in P1. pose proof (push_perm less_item (d, nb) cand) as P2. fold cand1 in P2.
    assert (H1 : heap_ok less_item dyn1). { eapply push_heap; eauto using less_asym, less_ntrans. constructor; auto. unfold numi; cbn. apply not_nan_opp; auto. }
    assert (F1 : Forall numi dyn1). { eapply Permutation_Forall; [exact P1|]. constructor; auto. unfold numi; cbn. apply not_nan_opp; auto. }
    assert (Hc : heap_ok less_item cand1). { eapply push_heap; eauto using less_asym, less_ntrans. }
    assert (L1 : length dyn1 = Datatypes.S (length dyn)) by (rewrite <- (Permutation_length P1); auto).
    set (dyn2 := if Nat.ltb ef (length dyn1) then match heap_pop less_item dyn1 with Some (_, r) => r | None => dyn1 end else dyn1) in *.
    injection E as <-.
    assert (Hin1 : forall y, In y (map snd dyn1) <-> y = nb \/ In y (map snd dyn)).
    { intros y. split; intros H.
      - apply (Permutation_in _ (Permutation_sym (perm_snd _ _ _ P1))) in H. destruct H as [<-|H]; auto.
      - eapply Permutation_in; [apply (perm_snd _ _ _ P1)|]. destruct H as [->|H]; cbn; auto. }
    assert (HexpDyn : forall x, In x (map snd dyn1) -> In x (map snd cand1) \/ expanded (nb :: vis) x \/ cur = Some x).
    { intros x Hx. apply Hin1 in Hx as [->|Hx].
      - left. eapply Permutation_in; [apply (perm_snd _ _ _ P2)|]. left; auto.
      - destruct (O4 x Hx) as [H|[H|H]]; auto. left. eapply Permutation_in; [apply (perm_snd _ _ _ P2)|]. right; auto. }
    assert (Hold : forall x dx, In x vis -> Dof ns q x = Some dx -> ~ In x (map snd dyn) ->
              ef <= length dyn /\ forall e y, In (e, y) dyn1 -> flt dx (SFopp e) = false).
    { intros x dx Hx Dx Nx. destruct (O3 x dx Hx Dx Nx) as [He Hf]. split; auto. intros e y Hy.
      apply (Permutation_in _ (Permutation_sym P1)) in Hy. destruct Hy as [Ey|Hy]; [injection Ey as <- <-|eauto].
      rewrite SFopp_opp. assert (Hlt : flt d (SFopp top) = true).
      { apply orb_prop in C as [C|C]; auto. apply Nat.ltb_lt in C. lia. }
      assert (Hx' : flt dx (SFopp top) = false). { apply (Hf top tid). rewrite Ed. left; auto. }
      apply (flt_ntrans d (SFopp top) dx); auto; [eapply HN; [|exact Dx]; auto|]. apply flt_asym; auto. }
    constructor; cbn.
    + exact Hc.
    + unfold dyn2. destruct (Nat.ltb ef (length dyn1)); auto. destruct (heap_pop less_item dyn1) as [[p r]|] eqn:Ep; auto.
      eapply pop_heap; eauto using less_asym, less_ntrans.
    + intros x dx Hx Dx Nx. unfold dyn2 in *. destruct (Nat.ltb_spec ef (length dyn1)) as [Hl|Hl].
      * destruct (heap_pop less_item dyn1) as [[[pe px] r]|] eqn:Ep; [|apply pop_none in Ep; rewrite Ep in L1; discriminate].
        pose proof (pop_perm _ _ _ _ Ep) as PP. pose proof (pop_hd _ _ _ _ Ep) as Ph. pose proof (Permutation_length PP) as PL. cbn in PL.
        split; [lia|]. intros e y Hy.
        assert (Hy1 : In (e, y) dyn1) by (eapply Permutation_in; [apply Permutation_sym; exact PP|right; auto]).
        destruct (in_dec string_dec x (map snd dyn1)) as [Hd|Hd].
        -- (* x is the popped item *)
           assert (Exp : x = px). { apply (Permutation_in _ (Permutation_map snd PP)) in Hd. destruct Hd as [Hd|Hd]; [auto|]. exfalso; auto. }
           subst px. assert (Hp : In (pe, x) dyn1) by (eapply Permutation_in; [apply Permutation_sym; exact PP|left; auto]).
           assert (Edx : dx = SFopp pe).
           { apply (Permutation_in _ (Permutation_sym P1)) in Hp. destruct Hp as [Ep'|Hp]; [injection Ep' as <- <-; rewrite SFopp_opp; congruence|].
             apply I3 in Hp as [_ Hp]. congruence. }
           subst dx. rewrite flt_opp. pose proof (heap_min less_item numi less_asym less_ntrans dyn1 (pe, x) (e, y) F1 H1 Ph Hy1) as Hm. exact Hm.
        -- destruct Hx as [<-|Hx]; [exfalso; apply Hd; apply Hin1; auto|].
           assert (Nd' : ~ In x (map snd dyn)) by (intros H; apply Hd, Hin1; auto). destruct (Hold x dx Hx Dx Nd') as [_ Hf]. eauto.
      * destruct Hx as [<-|Hx]; [exfalso; apply Nx, Hin1; auto|].
        assert (Nd' : ~ In x (map snd dyn)) by (intros H; apply Nx, Hin1; auto). destruct (Hold x dx Hx Dx Nd') as [He Hf]. split; [lia|auto].
    + intros x Hx. apply HexpDyn. unfold dyn2 in Hx. destruct (Nat.ltb ef (length dyn1)); auto.
      destruct (heap_pop less_item dyn1) as [[p r]|] eqn:Ep; auto. apply pop_perm, (Permutation_map snd) in Ep.
      eapply Permutation_in; [apply Permutation_sym; exact Ep|right; auto].
  - apply orb_false_elim in C as [C1 C2]. apply Nat.ltb_ge in C2. injection E as <-. constructor; cbn; auto.
    + intros x dx [<-|Hx] Dx Nx; [|eauto]. rewrite HD in Dx. injection Dx as <-. split; auto. intros e y Hy.
      apply (flt_ntrans (SFopp e) (SFopp top) d); auto; [|eapply Hmax; eauto].
      apply not_nan_opp. rewrite Forall_forall in NDy. apply (NDy (e, y) Hy).
    + intros x Hx. destruct (O4 x Hx) as [H|[H|H]]; auto.
Qed.

Lemma visit_all_ord cur nbs : forall st st', Inv ns q B S st -> Ord cur st -> fst (fst st) <> [] -> (forall y, In y nbs -> S y) ->
  visit_all dist ns q ef nbs st = Ok st' -> Ord cur st'.
Proof.
  induction nbs as [|nb nbs IH]; intros st st' I O NE H E; cbn [visit_all] in E; [injection E as <-; auto|].
  destruct (visit_inv ns q ef layer B S HC HB st nb I NE (H nb (or_introl eq_refl))) as (st1 & E1 & I1 & N1 & V1 & M1). rewrite E1 in E.
  apply (IH st1 st'); auto; [exact (visit_ord cur st nb st1 I O (H nb (or_introl eq_refl)) E1 I1)| |intros y Hy; apply H; right; auto].
  intros E0; rewrite E0 in N1; destruct N1.
Qed.

(** At the end: every kept node has been expanded; every visited node that was not
    kept is no closer than any kept one, and then at least ef nodes are kept. *)
Lemma loop_ord f : forall st dyn, Inv ns q B S st -> Ord None st -> meas ns st < f ->
  search_loop dist f ns q ef layer st = Ok dyn ->
  exists vis, Inv ns q B S (vis, [], dyn) /\ incl (fst (fst st)) vis /\
    heap_ok less_item dyn /\
    (forall x, In x (map snd dyn) -> expanded vis x) /\
    (forall x d, In x vis -> Dof ns q x = Some d -> ~ In x (map snd dyn) ->
       ef <= length dyn /\ forall e y, In (e, y) dyn -> flt d (SFopp e) = false).
Proof.
  induction f as [|f IH]; intros st dynF I O Hf E; [lia|]. destruct st as [[vis cand] dyn]. cbn [search_loop] in E.
  pose proof (inv_num_cand _ I) as NC. pose proof (inv_num_dyn _ I) as NDy. cbn in NC, NDy.
  destruct cand as [|[low lid] cand0] eqn:Ec.
  - injection E as <-. exists vis. destruct O as [O1 O2 O3 O4]; cbn [fst snd] in *. split; auto. split; [apply incl_refl|]. split; auto. split; auto.
    intros x Hx. destruct (O4 x Hx) as [[]|[H|H]]; auto. discriminate.
  - rewrite <- Ec in *. destruct (match dyn with [] => false | (top, _) :: _ => flt (SFopp top) low end) eqn:Br.
    + injection E as <-. exists vis. destruct dyn as [|[top tid] dyn0] eqn:Ed; [discriminate|]. rewrite <- Ed in *.
      destruct O as [O1 O2 O3 O4]. destruct I as [I1 I2 I3 I4 I5 I6]. cbn [fst snd] in *.
      split; [constructor; cbn; auto; intros ? ? []|]. split; [apply incl_refl|]. split; auto. split; auto.
      intros x Hx. destruct (O4 x Hx) as [H|[H|H]]; [|auto|discriminate]. exfalso.
      apply in_map_iff in H as ([dc y] & Ey & Hc). cbn in Ey. subst y. apply in_map_iff in Hx as ([e y] & Ey & Hd). cbn in Ey. subst y.
      pose proof (heap_min less_item numi less_asym less_ntrans cand (low, lid) (dc, x) NC O1) as Hm1. rewrite Ec in Hm1 at 1. specialize (Hm1 eq_refl Hc).
      pose proof (heap_min less_item numi less_asym less_ntrans dyn (top, tid) (e, x) NDy O2) as Hm2. rewrite Ed in Hm2 at 1. specialize (Hm2 eq_refl Hd).
      unfold less_item in *. cbn [fst snd] in *. apply I2 in Hc as [Hv Hc]. apply I3 in Hd as [_ Hd]. rewrite Hc in Hd. injection Hd as ->.
      (* opp top < low, opp e not < low, e not < top *)
      assert (Nt : not_nan (SFopp top)) by (rewrite Ed in NDy; inversion NDy; apply not_nan_opp; auto).
      assert (Nl : not_nan low) by (rewrite Ec in NC; inversion NC; auto).
      assert (Ne : not_nan (SFopp e)) by (eapply HN; [apply I1; exact Hv|exact Hc]).
      rewrite <- (flt_opp top e) in Hm2.
      (* Hm2: flt (opp top) (opp e) = false ; Hm1 : flt (opp e) low = false; so flt (opp top) low = false *)
      rewrite (flt_ntrans low (SFopp e) (SFopp top)) in Br; auto. discriminate.
    + destruct (pop_some less_item cand) as ([dc c] & cand' & Ep & _ & P); [rewrite Ec; discriminate|]. rewrite Ep in E.
      assert (Hc : In (dc, c) cand) by (eapply Permutation_in; [apply Permutation_sym; exact P|left; auto]).
      destruct I as [I1 I2 I3 I4 I5 I6]; cbn [fst snd] in *. destruct (I2 _ _ Hc) as [Hcv HDc].
      destruct (HC c (I1 _ Hcv)) as (n & Gn & Hn). rewrite Gn in E.
      assert (I' : Inv ns q B S (vis, cand', dyn)).
      { constructor; cbn; auto. intros d x Hx. apply I2. eapply Permutation_in; [apply Permutation_sym; exact P|right; auto]. }
      assert (PL : length cand = Datatypes.S (length cand')) by (rewrite (Permutation_length P); auto).
      unfold meas in Hf. cbn in Hf. destruct O as [O1 O2 O3 O4]; cbn [fst snd] in *.
      assert (O' : Ord (Some c) (vis, cand', dyn)).
      { constructor; cbn; auto.
        - apply (pop_heap less_item numi less_asym less_ntrans cand (dc, c) cand' NC O1 Ep).
        - intros x Hx. destruct (O4 x Hx) as [H|[H|H]]; auto; [|discriminate].
          apply (Permutation_in _ (Permutation_map snd P)) in H. destruct H as [<-|H]; auto. }
      assert (Fin : forall st, Ord (Some c) st -> expanded (fst (fst st)) c -> Ord None st).
      { intros st [A1 A2 A3 A4] He. constructor; auto. intros x Hx. destruct (A4 x Hx) as [H|[H|H]]; auto. injection H as ->. auto. }
      destruct (layer_of n layer) as [nbs|] eqn:El.
      * destruct (visit_all_inv ns q ef layer B S HC HB nbs (vis, cand', dyn) I') as (st1 & E1 & I1' & N1 & V1 & M1);
          [cbn; intros ->; destruct Hcv|exact (Hn nbs eq_refl)|].
        rewrite E1 in E. unfold meas in M1 at 2. cbn in M1.
        assert (O1' : Ord None st1).
        { apply Fin; [eapply visit_all_ord; [exact I'|exact O'|cbn; intros ->; destruct Hcv|exact (Hn nbs eq_refl)|exact E1]|].
          intros n' l' G' L'. rewrite Gn in G'. injection G' as <-. rewrite El in L'. injection L' as <-. auto. }
        destruct (IH st1 dynF I1' O1' ltac:(lia) E) as (v & A1 & A2 & A3). exists v. split; auto. split; auto.
        eapply incl_tran; [exact V1|exact A2].
      * assert (O1' : Ord None (vis, cand', dyn)).
        { apply Fin; auto. intros n' l' G' L'. rewrite Gn in G'. injection G' as <-. congruence. }
        destruct (IH _ dynF I' O1' ltac:(unfold meas; cbn; lia) E) as (v & A1 & A2 & A3). exists v. auto.
Qed.

Lemma start_ord eps : forall vis cand dyn st', (forall x, In x eps -> S x) -> Inv ns q B S (vis, cand, dyn) ->
  heap_ok less_item cand -> heap_ok less_item dyn ->
  (forall x, In x (map snd dyn) <-> In x vis) -> (forall x, In x (map snd dyn) -> In x (map snd cand)) ->
  NoDup (vis ++ eps) -> length dyn + length eps <= B ->
  start dist ns q eps (vis, cand, dyn) = Ok st' -> Ord None st'.
Proof.
  induction eps as [|p eps IH]; intros vis cand dyn st' HS I H1 H2 H3 H4 ND HL E; cbn [start] in E.
  - injection E as <-. constructor; cbn; auto. intros x d Hx Dx Nx. exfalso. apply Nx, H3; auto.
  - destruct (HC p (HS p (or_introl eq_refl))) as (n & Gn & _). rewrite Gn in E. set (d := dist q (n_vec n)) in *.
    assert (HD : Dof ns q p = Some d) by (unfold Dof; rewrite Gn; auto).
    assert (Nd : not_nan d) by (eapply HN; [apply HS; left; auto|eauto]).
    pose proof (push_perm less_item (d, p) cand) as P1. pose proof (push_perm less_item (SFopp d, p) dyn) as P2.
    pose proof (inv_num_cand _ I) as NC. pose proof (inv_num_dyn _ I) as NDy. cbn in NC, NDy.
    destruct (start_inv ns q ef layer B S HC HB [p] vis cand dyn) as (cd & dy & Es & Is & _); auto.
    { intros x [<-|[]]. apply HS; left; auto. }
    { change (p :: eps) with ([p] ++ eps) in ND. rewrite app_assoc in ND. eapply NoDup_app_l; eauto. }
    { cbn [length] in *; lia. }
    cbn [start] in Es. rewrite Gn in Es. injection Es as <- <-. cbn in Is. fold d in Is.
    eapply IH; [| exact Is | | | | | | | exact E].
    + intros x Hx. apply HS; right; auto.
    + eapply push_heap; eauto using less_asym, less_ntrans.
    + eapply push_heap; eauto using less_asym, less_ntrans. constructor; auto. unfold numi; cbn. apply not_nan_opp; auto.
    + intros x. split; intros H.
      * apply (Permutation_in _ (Permutation_sym (perm_snd _ _ _ P2))) in H. destruct H as [<-|H]; [left; auto|]. right. apply H3; auto.
      * eapply Permutation_in; [apply (perm_snd _ _ _ P2)|]. destruct H as [<-|H]; [left; auto|right; apply H3; auto].
    + intros x H. apply (Permutation_in _ (Permutation_sym (perm_snd _ _ _ P2))) in H. eapply Permutation_in; [apply (perm_snd _ _ _ P1)|].
      destruct H as [<-|H]; [left; auto|right; auto].
    + change (p :: eps) with ([p] ++ eps) in ND. rewrite app_assoc in ND. eapply Permutation_NoDup; [|exact ND].
      apply Permutation_app_tail. apply Permutation_sym, Permutation_cons_append.
    + rewrite <- (Permutation_length P2). cbn [length] in *; lia.
Qed.
End Order.

(** searchLayer keeps a locally optimal set: every neighbour of a returned node is
    returned, or at least ef nodes are returned and none of them is farther than it. *)
Lemma search_layer_local ns q eps ef layer S r : closed ns layer S -> NoDup eps -> (forall x, In x eps -> S x) ->
  (forall x d, S x -> Dof ns q x = Some d -> not_nan d) ->
  search_layer dist ns q eps ef layer = Ok r ->
  (forall x, In x eps -> In x r \/ (ef <= length r /\ forall d y dy, Dof ns q x = Some d -> In y r -> Dof ns q y = Some dy -> flt d dy = false)) /\
  forall x n l y, In x r -> get ns x = Some n -> layer_of n layer = Some l -> In y l ->
    In y r \/ (ef <= length r /\ forall d z dz, Dof ns q y = Some d -> In z r -> Dof ns q z = Some dz -> flt d dz = false).
Proof.
  intros HC ND HS HN E. unfold search_layer in E. set (B := Nat.max ef (length eps)).
  assert (I0 : Inv ns q B S ([], [], [])).
  { constructor; cbn; try (intros ? ? []); try (intros ? []); try constructor; try congruence; try lia. }
  destruct (start_inv ns q ef layer B S HC ltac:(unfold B; lia) eps [] [] [] HS ND I0) as (cand & dyn & E1 & I & L & P); [cbn; unfold B; lia|].
  rewrite E1 in E.
  assert (O : Ord ns q ef layer None (rev eps ++ [], cand, dyn)).
  { eapply (start_ord ns q ef layer B S HC ltac:(unfold B; lia) HN eps); [exact HS|exact I0| | | | |exact ND| |exact E1].
    - intros j Hj. cbn in Hj; lia.
    - intros j Hj. cbn in Hj; lia.
    - cbn. tauto.
    - cbn. tauto.
    - cbn. unfold B. lia. }
  destruct (search_loop _ _ _ _ _ _ _) as [dyn2| |] eqn:E2; try discriminate. injection E as <-.
  destruct (loop_ord ns q ef layer B S HC ltac:(unfold B; lia) HN (Datatypes.S (length eps + length ns)) _ dyn2 I O) as (vis & I2 & V2 & HH & HE & HO); [|exact E2|].
  { unfold meas. cbn. cbn in L. pose proof (unvis_incl ns (rev eps ++ [])). lia. }
  pose proof (drain_perm less_item (length dyn2) dyn2 (le_n _)) as PD. apply (Permutation_map snd) in PD.
  assert (PR : Permutation (map snd dyn2) (rev (map snd (heap_drain less_item (length dyn2) dyn2)))) by (eapply perm_trans; [exact PD|apply Permutation_rev]).
  set (r := rev (map snd (heap_drain less_item (length dyn2) dyn2))) in *.
  assert (LR : length r = length dyn2) by (rewrite <- (Permutation_length PR), map_length; auto).
  destruct I2 as [I21 I22 I23 I24 I25 I26]; cbn [fst snd] in *.
  assert (Key : forall y, In y vis -> In y r \/ (ef <= length r /\ forall d z dz, Dof ns q y = Some d -> In z r -> Dof ns q z = Some dz -> flt d dz = false)).
  { intros y Hy. destruct (in_dec string_dec y r) as [Hr|Hr]; auto. right.
    assert (Nd : ~ In y (map snd dyn2)) by (intros H; apply Hr; eapply Permutation_in; eauto).
    destruct (HC y (I21 _ Hy)) as (ny & Gy & _). assert (Dy : Dof ns q y = Some (dist q (n_vec ny))) by (unfold Dof; rewrite Gy; auto).
    destruct (HO y _ Hy Dy Nd) as [He Hf]. split; [lia|]. intros d z dz Dy' Hz Dz.
    apply (Permutation_in _ (Permutation_sym PR)) in Hz. apply in_map_iff in Hz as ([e z'] & Ez & Hz). cbn in Ez. subst z'.
    pose proof (I23 _ _ Hz) as [_ Hz']. rewrite Dz in Hz'. injection Hz' as ->. rewrite Dy in Dy'. injection Dy' as <-. eapply Hf; eauto. }
  split.
  - intros x Hx. apply Key. apply V2. rewrite app_nil_r. apply in_rev in Hx. exact Hx.
  - intros x n l y Hx Gx Lx Hy. apply Key. apply (Permutation_in _ (Permutation_sym PR)) in Hx. eapply HE; eauto.
Qed.
End HS.
