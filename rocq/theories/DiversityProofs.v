(** Proofs about DiversityModel.v. *)
From Coq Require Import String List NArith ZArith Bool Arith Lia Permutation Sorted.
From Coq Require Import Floats.SpecFloat.
From Verif Require Import Base Floats64 TopK EncodingModel DimensionModel StoreModel StoreSpec StoreProofs StoreInv StoreProofs2 StoreProofs3
  SearchModel SearchSpec SearchProofs SqlModel FilterModel FilterSpec FilterProofs FilterProofs2 DiversityModel DiversitySpec.
Import ListNotations.
Open Scope list_scope.

(** *** the best-candidate loop *)
Lemma flt_nan_r b : flt b S754_nan = false.
Proof. destruct b as [[]|[]| |[] ? ?]; reflexivity. Qed.
Lemma best_index_spec {A} (f : A -> float) l : forall i b idx, not_nan b ->
  (best_index f l i b idx = idx /\ forall y, In y l -> flt b (f y) = false) \/
  (exists p x, best_index f l i b idx = Some (i + p) /\ nth_error l p = Some x /\ flt b (f x) = true /\
     forall y, In y l -> flt (f x) (f y) = false).
Proof.
  induction l as [|x l IH]; cbn [best_index]; intros i b idx Hb.
  - left. split; auto. intros y [].
  - change (fgt (f x) b) with (flt b (f x)). destruct (flt b (f x)) eqn:E.
    + right. assert (Hx : not_nan (f x)) by (apply flt_not_nan in E; tauto).
      destruct (IH (S i) (f x) (Some i) Hx) as [(R & H)|(p & z & R & Hp & Hz & H)].
      * exists 0, x. rewrite R, Nat.add_0_r. split; auto. split; auto. split; auto.
        intros y [<-|Hy]; [apply flt_irrefl|auto].
      * exists (S p), z. rewrite R. split; [f_equal; lia|]. split; [exact Hp|].
        assert (flt b (f z) = true) by (eapply flt_trans; eauto). split; auto.
        intros y [<-|Hy]; [apply flt_asym; auto|auto].
    + destruct (IH (S i) b idx Hb) as [(R & H)|(p & z & R & Hp & Hz & H)].
      * left. split; auto. intros y [<-|Hy]; auto.
      * right. exists (S p), z. rewrite R. split; [f_equal; lia|]. split; [exact Hp|]. split; auto.
        intros y [<-|Hy]; [|auto]. destruct (is_nanb (f x)) eqn:Nx.
        { destruct (f x); try discriminate. apply flt_nan_r. }
        assert (not_nan (f x)) by (intros Q; rewrite Q in Nx; discriminate).
        assert (not_nan (f z)) by (apply flt_not_nan in Hz; tauto).
        apply flt_ntrans with (b := b); auto. apply flt_asym; auto.
Qed.

(** *** highest *)
Lemma max_pos_from l : forall m, not_nan m -> flt m f_zero = false ->
  let r := fold_left (fun m x => if fgt x m then x else m) l m in
  (r = m \/ (In r l /\ flt m r = true)) /\ forall x, In x l -> flt r x = false.
Proof.
  induction l as [|x l IH]; intros m Hm H0; cbn [fold_left].
  - cbn zeta. split; auto. intros x [].
  - cbv zeta. change (fgt x m) with (flt m x). destruct (flt m x) eqn:E.
    + assert (Hx : not_nan x) by (apply flt_not_nan in E; tauto).
      assert (Hx0 : flt x f_zero = false) by (apply flt_ntrans with (b := m); auto; [discriminate|apply flt_asym; auto]).
      destruct (IH x Hx Hx0) as [[R|[R1 R2]] H]; cbv zeta in *.
      * split; [right; split; [left; auto|rewrite R; auto]|]. intros y [<-|Hy]; [rewrite R; apply flt_irrefl|auto].
      * split; [right; split; [right; auto|eapply flt_trans; eauto]|]. intros y [<-|Hy]; [apply flt_asym; auto|auto].
    + destruct (IH m Hm H0) as [R H]; cbv zeta in *.
      split; [destruct R as [R|[R1 R2]]; [left; auto|right; split; [right|]; auto]|].
      intros y [<-|Hy]; [|auto]. set (r := fold_left _ l m) in *.
      destruct (is_nanb x) eqn:Nx; [destruct x; try discriminate; apply flt_nan_r|].
      assert (not_nan x) by (intros Q; rewrite Q in Nx; discriminate).
      destruct R as [-> | [_ R]]; auto. assert (not_nan r) by (apply flt_not_nan in R; tauto).
      apply flt_ntrans with (b := m); auto. apply flt_asym; auto.
Qed.
Lemma max_pos_spec l : highest l (max_pos l).
Proof. apply (max_pos_from l f_zero); [discriminate|reflexivity]. Qed.

Lemma negative_score_spec sc pos neg w e : contrast sc pos neg (or_default w half_f32) e (negative_score sc pos neg w e).
Proof. eexists. eexists. split; [apply max_pos_spec|split; [apply max_pos_spec|reflexivity]]. Qed.
Lemma mmr_score_spec sc lambda sel c : relevance sc lambda sel c (mmr_score sc lambda sel c).
Proof. eexists. split; [apply max_pos_spec|reflexivity]. Qed.

(** *** selection *)
Lemma Forall2_app_one {A B} (R : A -> B -> Prop) l l' a b : Forall2 R l l' -> R a b -> Forall2 R (l ++ [a]) (l' ++ [b]).
Proof. intros H Hr. apply Forall2_app; auto. Qed.
Lemma NoDup_snoc {A} (l : list A) x : NoDup l -> ~ In x l -> NoDup (l ++ [x]).
Proof.
  intros H Hn. apply NoDup_app_intro; auto; [constructor; [intros []|constructor]|]. intros y Hy [<-|[]]. auto.
Qed.
Lemma picked_in {A} (cs : list A) idxs out x : picked cs idxs out -> In x out -> In x cs.
Proof.
  intros [_ F] H. induction F as [|i y idxs out E F IH]; [destruct H|]. destruct H as [<-|H]; [eapply nth_error_In; eauto|auto].
Qed.
Lemma picked_NoDup {A B} (f : A -> B) (cs : list A) idxs out : picked cs idxs out -> NoDup (map f cs) -> NoDup (map f out).
Proof.
  intros [Hn F] H. induction F as [|i y idxs out E F IH]; [constructor|]. inversion Hn as [|? ? Hi Hn']; subst.
  cbn. constructor; auto. intros Hin. apply in_map_iff in Hin as (z & Hz & Hin).
  assert (exists j, In j idxs /\ nth_error cs j = Some z) as (j & Hj & Ej).
  { clear -F Hin. induction F as [|j x idxs out E F IH]; [destruct Hin|]. destruct Hin as [<-|Hin]; [exists j; split; [left|]; auto|].
    destruct (IH Hin) as (k & Hk & Ek). exists k. split; [right|]; auto. }
  assert (i = j); [|subst; auto]. rewrite NoDup_nth_error in H. apply H.
  - rewrite map_length. apply nth_error_Some. rewrite E. discriminate.
  - rewrite !nth_error_map, E, Ej. cbn. f_equal. auto.
Qed.
Lemma picked_length {A} (cs : list A) idxs out : picked cs idxs out -> length idxs = length out.
Proof. intros [_ F]. induction F; cbn; auto. Qed.
Lemma picked_range {A} (cs : list A) idxs out i : picked cs idxs out -> In i idxs -> i < length cs.
Proof.
  intros [_ F] H. induction F as [|j y idxs out E F IH]; [destruct H|]. destruct H as [<-|H]; [apply nth_error_Some; rewrite E; discriminate|auto].
Qed.
Lemma picked_le {A} (cs : list A) idxs out : picked cs idxs out -> length out <= length cs.
Proof.
  intros P. rewrite <- (picked_length _ _ _ P). rewrite <- (seq_length (length cs) 0).
  apply NoDup_incl_length; [apply P|]. intros i Hi. apply in_seq. pose proof (picked_range _ _ _ _ P Hi). lia.
Qed.
Lemma selection_refl {A} (cs : list A) : picked cs (seq 0 (length cs)) cs.
Proof.
  split; [apply seq_NoDup|]. assert (G : forall (a l : list A), Forall2 (fun i x => nth_error (a ++ l) i = Some x) (seq (length a) (length l)) l).
  { intros a l. revert a. induction l as [|x l IH]; intros a; cbn; constructor.
    - rewrite nth_error_app2, Nat.sub_diag; auto.
    - specialize (IH (a ++ [x])). rewrite app_length, <- app_assoc in IH. cbn in IH. rewrite Nat.add_1_r in IH. exact IH. }
  apply (G []).
Qed.
Lemma picked_snoc {A} (cs : list A) idxs out i x : picked cs idxs out -> ~ In i idxs -> nth_error cs i = Some x -> picked cs (idxs ++ [i]) (out ++ [x]).
Proof. intros [H F] Hi E. split; [apply NoDup_snoc; auto|apply Forall2_app_one; auto]. Qed.

Lemma nth_error_snoc {A} (l : list A) x n y : nth_error (l ++ [x]) n = Some y ->
  nth_error l n = Some y \/ (n = length l /\ y = x).
Proof.
  intros H. destruct (lt_dec n (length l)).
  - rewrite nth_error_app1 in H by auto. auto.
  - rewrite nth_error_app2 in H by lia. right. destruct (n - length l) as [|m] eqn:E; [cbn in H; injection H as <-; split; [lia|auto]|].
    destruct m; discriminate.
Qed.
Lemma firstn_snoc {A} (l : list A) x n : n <= length l -> firstn n (l ++ [x]) = firstn n l.
Proof. intros H. rewrite firstn_app. replace (n - length l) with 0 by lia. cbn. apply app_nil_r. Qed.
Lemma firstn_snoc_all {A} (l : list A) x : firstn (length l) (l ++ [x]) = l.
Proof. rewrite firstn_snoc by auto. apply firstn_all. Qed.

Lemma greedy_snoc value cs lim n0 idxs out i x : length idxs = length out -> greedy value cs lim n0 idxs out ->
  (forall j, j < lim -> ~ In j idxs -> flt (value out i) (value out j) = false) ->
  greedy value cs lim n0 (idxs ++ [i]) (out ++ [x]).
Proof.
  intros HL G H n a j Hn Hle Hj Hnot. destruct (nth_error_snoc _ _ _ _ Hn) as [E|[-> ->]].
  - assert (n < length idxs) by (apply nth_error_Some; rewrite E; discriminate).
    rewrite firstn_snoc in Hnot by lia. rewrite firstn_snoc by lia. apply (G n a j); auto.
  - rewrite firstn_snoc_all in Hnot. rewrite HL, firstn_snoc_all. apply H; auto.
Qed.

(** *** MMR *)
(** The remaining candidates are those at the positions not yet picked. *)
Definition rests {A} (cs : list A) (idxs ridx : list nat) (rem : list A) : Prop :=
  Forall2 (fun i x => nth_error cs i = Some x) ridx rem /\ NoDup ridx /\ forall i, In i ridx <-> i < length cs /\ ~ In i idxs.

Lemma Forall2_remove_at {A B} (R : A -> B -> Prop) l l' n : Forall2 R l l' -> Forall2 R (remove_at n l) (remove_at n l').
Proof.
  intros H. unfold remove_at. revert n. induction H as [|a b l l' Hr H IH]; intros n; [destruct n; constructor|].
  destruct n; cbn; auto. constructor; auto. apply IH.
Qed.
Lemma in_remove_at {A} (l : list A) n i : NoDup l -> nth_error l n = Some i ->
  NoDup (remove_at n l) /\ forall j, In j (remove_at n l) <-> In j l /\ j <> i.
Proof.
  intros Hn E. assert (Hl : l = firstn n l ++ i :: skipn (S n) l).
  { clear Hn. revert n E. induction l as [|a l IH]; intros [|n] E; cbn in *; try discriminate; [injection E as ->; auto|]. f_equal. auto. }
  unfold remove_at. rewrite Hl in Hn. pose proof (NoDup_remove_1 _ _ _ Hn) as N1. pose proof (NoDup_remove_2 _ _ _ Hn) as N2.
  split; auto. intros j. rewrite Hl at 3. rewrite !in_app_iff. cbn [In]. split.
  - intros H. split; [tauto|]. intros ->. apply N2. apply in_or_app. tauto.
  - intros [[H|[H|H]] Hne]; auto. congruence.
Qed.
Lemma remove_at_length {A} (l : list A) n : n < length l -> length (remove_at n l) = length l - 1.
Proof. intros H. unfold remove_at. rewrite app_length, firstn_length, skipn_length. lia. Qed.
Lemma Forall2_nth {A B} (R : A -> B -> Prop) l l' n b : Forall2 R l l' -> nth_error l' n = Some b -> exists a, nth_error l n = Some a /\ R a b.
Proof.
  intros H. revert n. induction H as [|a c l l' Hr H IH]; intros [|n] E; cbn in *; try discriminate; [injection E as <-; eauto|eauto].
Qed.
Lemma Forall2_in_l {A B} (R : A -> B -> Prop) l l' a : Forall2 R l l' -> In a l -> exists b, In b l' /\ R a b.
Proof.
  intros H. induction H as [|x y l l' Hr H IH]; intros []; [subst; exists y; split; [left|]; auto|].
  destruct (IH H0) as (b & Hb & Hr'). exists b. split; [right|]; auto.
Qed.

Definition at_index {A} (v : A -> float) (cs : list A) (i : nat) : float := match nth_error cs i with Some c => v c | None => f_zero end.

Lemma mmr_loop_spec sc lambda k cs : forall fuel idxs sel ridx rem,
  picked cs idxs sel -> rests cs idxs ridx rem -> length rem <= fuel -> 1 <= length sel ->
  (Z.of_nat (length sel) <= Z.max k 1)%Z ->
  greedy (fun sel i => at_index (mmr_score sc lambda sel) cs i) cs (length cs) 1 idxs sel ->
  exists idxs', picked cs idxs' (mmr_loop sc lambda k fuel sel rem) /\
    greedy (fun sel i => at_index (mmr_score sc lambda sel) cs i) cs (length cs) 1 idxs' (mmr_loop sc lambda k fuel sel rem) /\
    nth_error idxs' 0 = nth_error idxs 0 /\
    (Z.of_nat (length (mmr_loop sc lambda k fuel sel rem)) <= Z.max k 1)%Z /\
    ((Z.max k 1 <= Z.of_nat (length (mmr_loop sc lambda k fuel sel rem)))%Z \/
     forall j c, nth_error cs j = Some c -> ~ In j idxs' ->
       flt (SFopp max_float32) (mmr_score sc lambda (mmr_loop sc lambda k fuel sel rem) c) = false).
Proof.
  induction fuel as [|fuel IH]; intros idxs sel ridx rem P R Hf Hs Hk G; cbn [mmr_loop].
  - exists idxs. split; auto. split; auto. split; auto. split; auto. right. intros j c Hj Hn. exfalso.
    destruct R as (R1 & R2 & R3). assert (In j ridx) as Hin by (apply R3; split; [apply nth_error_Some; rewrite Hj; discriminate|auto]).
    destruct rem; [|cbn in Hf; lia]. inversion R1; subst. destruct Hin.
  - destruct (Z.ltb_spec (Z.of_nat (length sel)) k) as [Hlt|Hge]; cbn [andb].
    2:{ exists idxs. split; auto. split; auto. split; auto. split; auto. left. lia. }
    destruct rem as [|r0 rem0] eqn:Er; cbn [negb].
    { exists idxs. split; auto. split; auto. split; auto. split; auto. right. intros j c Hj Hn. exfalso.
      destruct R as (R1 & R2 & R3). assert (In j ridx) as Hin by (apply R3; split; [apply nth_error_Some; rewrite Hj; discriminate|auto]).
      inversion R1; subst. destruct Hin. }
    rewrite <- Er in *. clear Er r0 rem0.
    destruct (best_index_spec (mmr_score sc lambda sel) rem 0 (SFopp max_float32) None ltac:(discriminate)) as [(E & H)|(p & x & E & Hp & _ & H)].
    + rewrite E. exists idxs. split; auto. split; auto. split; auto. split; auto. right. intros j c Hj Hn.
      destruct R as (R1 & R2 & R3). assert (In j ridx) as Hin by (apply R3; split; [apply nth_error_Some; rewrite Hj; discriminate|auto]).
      destruct (Forall2_in_l _ _ _ _ R1 Hin) as (c' & Hc & Ec). rewrite Hj in Ec. injection Ec as <-. auto.
    + rewrite E. cbn [Nat.add]. rewrite Hp. destruct R as (R1 & R2 & R3).
      destruct (Forall2_nth _ _ _ _ _ R1 Hp) as (i & Hi & Ei).
      destruct (in_remove_at ridx p i R2 Hi) as [D1 D2].
      assert (Hni : ~ In i idxs) by (apply R3; eapply nth_error_In; eauto).
      destruct (IH (idxs ++ [i]) (sel ++ [x]) (remove_at p ridx) (remove_at p rem)) as (idxs' & A1 & A2 & A3 & A4 & A5).
      * apply picked_snoc; auto.
      * split; [apply Forall2_remove_at; auto|]. split; auto. intros j. rewrite D2, R3, in_app_iff. cbn [In].
        split; [intros [[H1 H2] H3]; split; auto; intros [H4|[H4|[]]]; [auto|congruence]|]. intros [H1 H2]. split; [split; auto|]. intros ->. auto.
      * rewrite remove_at_length; [lia|]. apply nth_error_Some. rewrite Hp. discriminate.
      * rewrite app_length. cbn. lia.
      * rewrite app_length. cbn. lia.
      * apply greedy_snoc; auto; [apply (picked_length _ _ _ P)|]. intros j Hj Hnj. unfold at_index. rewrite Ei.
        destruct (nth_error cs j) as [c|] eqn:Ec; [|apply nth_error_None in Ec; lia].
        apply H. assert (In j ridx) as Hin by (apply R3; auto).
        destruct (Forall2_in_l _ _ _ _ R1 Hin) as (c' & Hc & Ec'). rewrite Ec in Ec'. injection Ec' as <-. auto.
      * exists idxs'. split; auto. split; auto. split; [|auto]. rewrite A3.
        destruct idxs; [pose proof (picked_length _ _ _ P) as Q; cbn in Q; lia|reflexivity].
Qed.

Lemma mmr_spec sc lambda k cs : cs <> [] ->
  let out := diversify_mmr sc lambda k cs in
  exists idxs, picked cs idxs out /\ nth_error idxs 0 = Some 0 /\
    greedy (fun sel i => at_index (mmr_score sc (or_default lambda half_f32) sel) cs i) cs (length cs) 1 idxs out /\
    (Z.of_nat (length out) <= Z.max k 1)%Z /\
    ((Z.max k 1 <= Z.of_nat (length out))%Z \/
     forall j c, nth_error cs j = Some c -> ~ In j idxs ->
       flt (SFopp max_float32) (mmr_score sc (or_default lambda half_f32) out c) = false).
Proof.
  intros Hne. destruct cs as [|c cs]; [congruence|]. cbn [diversify_mmr]. fold (or_default lambda half_f32).
  destruct (mmr_loop_spec sc (or_default lambda half_f32) k (c :: cs) (length cs) [0] [c] (seq 1 (length cs)) cs) as (idxs & A1 & A2 & A3 & A4 & A5).
  - split; [constructor; [intros []|constructor]|]. constructor; auto.
  - split; [|split; [apply seq_NoDup|]].
    + pose proof (selection_refl (c :: cs)) as [_ F]. cbn [length seq] in F. inversion F; subst. auto.
    + intros i. rewrite in_seq. cbn [length In]. split; [intros H; split; [lia|intros [?|[]]; lia]|]. intros [H1 H2].
      assert (i <> 0) by (intros ->; tauto). lia.
  - auto.
  - auto.
  - cbn [length]. lia.
  - intros n i j Hn Hle. assert (n < length [0]) by (apply nth_error_Some; rewrite Hn; discriminate). cbn in H. lia.
  - exists idxs. split; [exact A1|]. split; [rewrite A3; reflexivity|]. split; [exact A2|]. split; [exact A4|exact A5].
Qed.

(** *** distance *)
Lemma far_enough_spec sc mind sel c : far_enough sc mind sel c = true <->
  forall s, In s sel -> flt (separation sc (fst c) (fst s)) mind = false.
Proof.
  unfold far_enough. rewrite forallb_forall. split; intros H s Hs; specialize (H s Hs).
  - apply negb_true_iff in H. exact H.
  - apply negb_true_iff. exact H.
Qed.
Lemma not_far sc mind sel c : far_enough sc mind sel c = false ->
  exists s, In s sel /\ flt (separation sc (fst c) (fst s)) mind = true.
Proof.
  unfold far_enough. intros H. apply not_true_iff_false in H. induction sel as [|s sel IH]; [exfalso; auto|].
  cbn [forallb] in H. destruct (flt (dist32 sc (vec_of (fst c)) (vec_of (fst s))) mind) eqn:E; cbn [negb andb] in H.
  - exists s. split; [left; auto|exact E].
  - destruct (IH H) as (t & Ht & Et). exists t. split; [right|]; auto.
Qed.

(** Positions in [out] are in the order of [cs], pairwise apart, and whatever is left
    out is too close to an earlier result or comes after the last one. *)
Definition spread (sc : scorer) (mind : float) (idxs : list nat) (out : list scored) : Prop :=
  StronglySorted lt idxs /\
  (forall n m a b, n < m -> nth_error out n = Some a -> nth_error out m = Some b -> flt (separation sc (fst b) (fst a)) mind = false).

Lemma sorted_snoc (l : list nat) x : StronglySorted lt l -> (forall y, In y l -> y < x) -> StronglySorted lt (l ++ [x]).
Proof.
  intros H Hx. induction H as [|y l Hl IH HF]; cbn; [constructor; constructor|]. constructor.
  - apply IH. intros z Hz. apply Hx. right; auto.
  - rewrite Forall_forall in *. intros z Hz. apply in_app_or in Hz as [Hz|[<-|[]]]; auto. apply Hx. left; auto.
Qed.
Lemma spread_snoc sc mind idxs sel i c : spread sc mind idxs sel -> (forall j, In j idxs -> j < i) ->
  (forall s, In s sel -> flt (separation sc (fst c) (fst s)) mind = false) -> spread sc mind (idxs ++ [i]) (sel ++ [c]).
Proof.
  intros [S1 S2] Hi Hf. split; [apply sorted_snoc; auto|]. intros n m a b Hlt Ha Hb.
  assert (Hl : m < length (sel ++ [c])) by (apply nth_error_Some; rewrite Hb; discriminate). rewrite app_length in Hl. cbn in Hl.
  rewrite nth_error_app1 in Ha by lia. destruct (nth_error_snoc _ _ _ _ Hb) as [E|[-> ->]]; [eauto|].
  apply Hf. eapply nth_error_In; eauto.
Qed.

Lemma distance_loop_spec sc mind k : forall rest pre idxs sel,
  picked (pre ++ rest) idxs sel -> spread sc mind idxs sel -> (forall i, In i idxs -> i < length pre) ->
  (Z.of_nat (length sel) < Z.max k 1)%Z ->
  (forall j c, nth_error pre j = Some c -> ~ In j idxs -> exists i s, In i idxs /\ i < j /\ nth_error (pre ++ rest) i = Some s /\ flt (separation sc (fst c) (fst s)) mind = true) ->
  let out := distance_loop sc mind k rest sel in
  exists idxs', picked (pre ++ rest) idxs' out /\ spread sc mind idxs' out /\
    (Z.of_nat (length out) <= Z.max k 1)%Z /\
    (forall j c, nth_error (pre ++ rest) j = Some c -> ~ In j idxs' ->
       (exists i s, In i idxs' /\ i < j /\ nth_error (pre ++ rest) i = Some s /\ flt (separation sc (fst c) (fst s)) mind = true) \/
       ((Z.of_nat (length out) = Z.max k 1)%Z /\ forall i, In i idxs' -> i < j)).
Proof.
  induction rest as [|c rest IH]; intros pre idxs sel P Sp Hb Hk Hc; cbn [distance_loop].
  - exists idxs. split; auto. split; auto. split; [lia|]. intros j c Hj Hn. left. rewrite app_nil_r in Hj. apply (Hc j c Hj Hn).
  - assert (EQ : pre ++ c :: rest = (pre ++ [c]) ++ rest) by (rewrite <- app_assoc; reflexivity).
    assert (Enth : nth_error (pre ++ c :: rest) (length pre) = Some c) by (rewrite nth_error_app2, Nat.sub_diag; auto).
    destruct (far_enough sc mind sel c) eqn:F.
    + assert (Pn : picked (pre ++ c :: rest) (idxs ++ [length pre]) (sel ++ [c])).
      { apply picked_snoc; auto. intros Hin. apply Hb in Hin. lia. }
      assert (Sn : spread sc mind (idxs ++ [length pre]) (sel ++ [c])).
      { apply spread_snoc; auto. apply far_enough_spec. exact F. }
      assert (Hl : length (sel ++ [c]) = S (length sel)) by (rewrite app_length; cbn; lia).
      destruct (Z.leb_spec k (Z.of_nat (length (sel ++ [c])))) as [Hle|Hgt].
      * exists (idxs ++ [length pre]). split; auto. split; auto. split; [lia|]. intros j x Hj Hn.
        destruct (lt_dec j (length pre)).
        -- left. destruct (Hc j x) as (i & s & A1 & A2 & A3 & A4).
           ++ rewrite nth_error_app1 in Hj; auto.
           ++ intros Hin. apply Hn. apply in_or_app; auto.
           ++ exists i, s. split; [apply in_or_app; auto|]. auto.
        -- right. split; [lia|]. intros i Hi. apply in_app_or in Hi as [Hi|[<-|[]]]; [apply Hb in Hi; lia|].
           assert (j <> length pre) by (intros ->; apply Hn; apply in_or_app; right; left; auto). lia.
      * rewrite EQ in *. apply (IH (pre ++ [c]) (idxs ++ [length pre]) (sel ++ [c])); auto.
        -- intros i Hi. rewrite app_length. cbn. apply in_app_or in Hi as [Hi|[<-|[]]]; [apply Hb in Hi; lia|lia].
        -- lia.
        -- intros j x Hj Hn. destruct (nth_error_snoc _ _ _ _ Hj) as [E|[-> ->]].
           ++ destruct (Hc j x E) as (i & s & A1 & A2 & A3 & A4); [intros Hin; apply Hn; apply in_or_app; auto|].
              exists i, s. split; [apply in_or_app; auto|]. auto.
           ++ exfalso. apply Hn. apply in_or_app. right; left; auto.
    + rewrite EQ in *. apply (IH (pre ++ [c]) idxs sel); auto.
      * intros i Hi. rewrite app_length. cbn. apply Hb in Hi. lia.
      * intros j x Hj Hn. destruct (nth_error_snoc _ _ _ _ Hj) as [E|[-> ->]]; [auto|].
        destruct (not_far _ _ _ _ F) as (s & Hs & Es). destruct P as [P1 P2].
        assert (exists i, In i idxs /\ nth_error ((pre ++ [c]) ++ rest) i = Some s) as (i & Hi & Ei).
        { apply In_nth_error in Hs as [n Hs]. destruct (Forall2_nth _ _ _ _ _ P2 Hs) as (i & Hi & Ei). exists i. split; [eapply nth_error_In; eauto|auto]. }
        exists i, s. split; auto.
Qed.
Lemma distance_spec sc mind k cs :
  let out := diversify_distance sc mind k cs in
  let md := or_default mind tenth_f32 in
  exists idxs, picked cs idxs out /\ spread sc md idxs out /\
    (Z.of_nat (length out) <= Z.max k 1)%Z /\
    (forall j c, nth_error cs j = Some c -> ~ In j idxs ->
       (exists i s, In i idxs /\ i < j /\ nth_error cs i = Some s /\ flt (separation sc (fst c) (fst s)) md = true) \/
       ((Z.of_nat (length out) = Z.max k 1)%Z /\ forall i, In i idxs -> i < j)).
Proof.
  apply (distance_loop_spec sc (or_default mind tenth_f32) k cs [] [] []).
  - split; constructor.
  - split; [constructor|]. intros n m a b _ H. destruct n; discriminate.
  - intros i [].
  - cbn. lia.
  - intros [|j] c H; discriminate.
Qed.

(** *** random *)
Lemma Forall2_len {A B} (R : A -> B -> Prop) l l' : Forall2 R l l' -> length l = length l'.
Proof. induction 1; cbn; auto. Qed.
Lemma pick_in_range {A} (cs : list A) l : (forall i, In i l -> i < length cs) ->
  Forall2 (fun i x => nth_error cs i = Some x) l (flat_map (fun i => match nth_error cs i with Some x => [x] | None => [] end) l).
Proof.
  induction l as [|i l IH]; intros H; cbn; [constructor|]. destruct (nth_error cs i) eqn:E.
  - cbn. constructor; auto. apply IH. intros j Hj. apply H. right; auto.
  - apply nth_error_None in E. specialize (H i (or_introl eq_refl)). lia.
Qed.
Lemma nth_error_firstn {A} (l : list A) n i : i < n -> nth_error (firstn n l) i = nth_error l i.
Proof. revert n i. induction l as [|x l IH]; intros [|n] [|i] H; cbn; auto; try lia. apply IH. lia. Qed.
Lemma Forall2_perm {A B} (R : A -> B -> Prop) l l' k' : Forall2 R l l' -> Permutation l' k' -> exists k, Permutation l k /\ Forall2 R k k'.
Proof.
  intros F P. revert l F. induction P as [|y l' k' P IH|y z l'|l' k' m' P1 IH1 P2 IH2]; intros l F.
  - exists l. inversion F; subst. split; constructor.
  - inversion F as [|x ? l1 ? Hr F1]; subst. destruct (IH _ F1) as (k & Pk & Fk). exists (x :: k). split; constructor; auto.
  - inversion F as [|x ? l1 ? Hr F1]; subst. inversion F1 as [|x2 ? l2 ? Hr2 F2]; subst. exists (x2 :: x :: l2). split; [constructor|]. constructor; auto.
  - destruct (IH1 _ F) as (k & Pk & Fk). destruct (IH2 _ Fk) as (m & Pm & Fm). exists m. split; auto. eapply perm_trans; eauto.
Qed.

Lemma random_spec srt perm k cs out : sort_ok by_score srt -> (forall n, Permutation (seq 0 n) (perm n)) ->
  diversify_random srt perm k cs = Ok out ->
  exists idxs, picked cs idxs out /\
    length out = Nat.min (Z.to_nat k) (length cs) /\
    (length cs <= Z.to_nat k -> out = cs) /\
    (Z.to_nat k < length cs -> forall i, In i idxs -> i < Z.to_nat k * 2).
Proof.
  intros Hs Hp H. unfold diversify_random in H.
  destruct (Z.leb_spec (Z.of_nat (length cs)) k) as [Hle|Hgt].
  - injection H as <-. exists (seq 0 (length cs)). split; [apply selection_refl|]. split; [lia|]. split; [auto|]. intros Hlt. lia.
  - destruct (Z.ltb_spec k 0) as [Hn|Hn]; [discriminate|]. injection H as <-.
    set (N := Nat.min (Z.to_nat k * 2) (length cs)). set (pool := firstn N cs).
    assert (Hl : length pool = N) by (unfold pool; rewrite firstn_length; lia).
    set (l := firstn (Z.to_nat k) (perm (length pool))).
    assert (Hr : forall i, In i l -> i < N).
    { intros i Hi. apply in_firstn in Hi. apply (Permutation_in _ (Permutation_sym (Hp _))) in Hi. apply in_seq in Hi. lia. }
    assert (F : Forall2 (fun i x => nth_error cs i = Some x) l (flat_map (fun i => match nth_error pool i with Some x => [x] | None => [] end) l)).
    { pose proof (pick_in_range pool l) as F. rewrite Hl in F. specialize (F Hr). clear -F Hr. 
      revert F. generalize (flat_map (fun i => match nth_error pool i with Some x => [x] | None => [] end) l). intros o F.
      revert Hr. induction F as [|i x l o E F IH]; intros Hr; constructor.
      - unfold pool in E. rewrite nth_error_firstn in E; auto. apply Hr. left; auto.
      - apply IH. intros j Hj. apply Hr. right; auto. }
    destruct (Hs (flat_map (fun i => match nth_error pool i with Some x => [x] | None => [] end) l)) as [P _].
    destruct (Forall2_perm _ _ _ _ F P) as (idxs & Pi & Fi). exists idxs.
    assert (Hlen : length l = Z.to_nat k).
    { unfold l. rewrite firstn_length, <- (Permutation_length (Hp _)), seq_length, Hl. unfold N. lia. }
    split; [split; [|exact Fi]|].
    { eapply Permutation_NoDup; [exact Pi|]. unfold l. apply NoDup_firstn. eapply Permutation_NoDup; [apply Hp|]. apply seq_NoDup. }
    split; [|split].
    + rewrite <- (Permutation_length P), <- (Forall2_len _ _ _ F), Hlen. lia.
    + lia.
    + intros _ i Hi. apply (Permutation_in _ (Permutation_sym Pi)) in Hi. apply Hr in Hi. lia.
Qed.

(** *** DPP *)
Definition not_selected (sel : list nat) (i : nat) : bool := negb (existsb (Nat.eqb i) sel).
Lemma not_selected_spec sel i : not_selected sel i = true <-> ~ In i sel.
Proof.
  unfold not_selected. rewrite negb_true_iff, <- not_true_iff_false. split; intros H Hin; apply H.
  - apply existsb_exists. exists i. split; auto. apply Nat.eqb_refl.
  - apply existsb_exists in Hin as (j & Hj & E). apply Nat.eqb_eq in E. subst. auto.
Qed.
Definition greedy_idx (gain : list nat -> nat -> float) (lim : nat) (idxs : list nat) : Prop :=
  forall n i j, nth_error idxs n = Some i -> j < lim -> ~ In j (firstn n idxs) ->
    flt (gain (firstn n idxs) i) (gain (firstn n idxs) j) = false.
Lemma dpp_loop_spec gain k n : forall fuel sel, NoDup sel -> (forall i, In i sel -> i < n) -> n <= fuel + length sel ->
  (Z.of_nat (length sel) <= Z.max k 0)%Z -> greedy_idx gain n sel ->
  (forall m i, nth_error sel m = Some i -> flt f_zero (gain (firstn m sel) i) = true) ->
  let r := dpp_loop gain k n fuel sel in
  NoDup r /\ (forall i, In i r -> i < n) /\ (Z.of_nat (length r) <= Z.max k 0)%Z /\ greedy_idx gain n r /\
  (forall m i, nth_error r m = Some i -> flt f_zero (gain (firstn m r) i) = true) /\
  ((k <= Z.of_nat (length r))%Z \/ forall j, j < n -> ~ In j r -> flt f_zero (gain r j) = false).
Proof.
  assert (Hfull : forall sel, NoDup sel -> (forall i, In i sel -> i < n) -> n <= length sel -> forall j, j < n -> ~ In j sel -> False).
  { intros sel Hn Hr Hl j Hj Hnj. assert (NoDup (j :: sel)) as Hd by (constructor; auto).
    pose proof (NoDup_incl_length Hd (l' := seq 0 n)) as L. rewrite seq_length in L. cbn in L.
    assert (S (length sel) <= n); [|lia]. apply L. intros i [<-|Hi]; apply in_seq; [lia|apply Hr in Hi; lia]. }
  induction fuel as [|fuel IH]; intros sel Hd Hr Hf Hk Hg Hp; cbn [dpp_loop]; cbv zeta.
  - repeat split; auto. right. intros j Hj Hn. exfalso. apply (Hfull sel Hd Hr ltac:(lia) j Hj Hn).
  - destruct (Z.ltb_spec (Z.of_nat (length sel)) k) as [Hlt|Hge]; cbn [andb]; [|repeat split; auto].
    destruct (Nat.ltb_spec (length sel) n) as [Hltn|Hgen].
    2:{ repeat split; auto. right. intros j Hj Hn. exfalso. apply (Hfull sel Hd Hr Hgen j Hj Hn). }
    change (fun i : nat => negb (existsb (Nat.eqb i) sel)) with (not_selected sel).
    set (rem := filter (not_selected sel) (seq 0 n)).
    assert (Hrem : forall j, In j rem <-> j < n /\ ~ In j sel).
    { intros j. unfold rem. rewrite filter_In, in_seq, not_selected_spec. split; [intros [? ?]; split; [lia|auto]|intros [? ?]; split; [lia|auto]]. }
    destruct (best_index_spec (gain sel) rem 0 f_zero None ltac:(discriminate)) as [(E & H)|(p & i & E & Hi & Hpos & H)].
    + rewrite E. repeat split; auto. right. intros j Hj Hn. apply H. apply Hrem. auto.
    + rewrite E. cbn [Nat.add]. rewrite Hi. assert (Hin : In i rem) by (eapply nth_error_In; eauto). apply Hrem in Hin as [Hin1 Hin2].
      apply IH.
      * apply NoDup_snoc; auto.
      * intros j Hj. apply in_app_or in Hj as [Hj|[<-|[]]]; auto.
      * rewrite app_length. cbn. lia.
      * rewrite app_length. cbn. lia.
      * intros m a j Hm Hj Hnj. destruct (nth_error_snoc _ _ _ _ Hm) as [Em|[-> ->]].
        -- assert (m < length sel) by (apply nth_error_Some; rewrite Em; discriminate).
           rewrite firstn_snoc in * by lia. apply (Hg m a j); auto.
        -- rewrite firstn_snoc_all in *. apply H. apply Hrem. auto.
      * intros m a Hm. destruct (nth_error_snoc _ _ _ _ Hm) as [Em|[-> ->]].
        -- assert (m < length sel) by (apply nth_error_Some; rewrite Em; discriminate). rewrite firstn_snoc by lia. auto.
        -- rewrite firstn_snoc_all. exact Hpos.
Qed.

Lemma Forall2_perm_l {A B} (R : A -> B -> Prop) l l' k : Forall2 R l l' -> Permutation l k -> exists k', Permutation l' k' /\ Forall2 R k k'.
Proof.
  intros F P. assert (F' : Forall2 (fun b a => R a b) l' l). { clear P. induction F; constructor; auto. }
  destruct (Forall2_perm _ _ _ _ F' P) as (k' & P' & F''). exists k'. split; auto. clear -F''. induction F''; constructor; auto.
Qed.
Lemma dpp_gain_spec sc order cs idxs sel i c : (forall i l, Permutation l (order i l)) ->
  Forall2 (fun i x => nth_error cs i = Some x) idxs sel -> nth_error cs i = Some c -> ~ In i idxs ->
  gain sc sel c (dpp_gain sc order cs idxs i).
Proof.
  intros Ho F Hc Hn. destruct (Forall2_perm_l _ _ _ _ F (Ho i idxs)) as (ord & Po & Fo). exists ord. split; auto.
  unfold dpp_gain. replace (kernel sc cs i i) with (f32_of_f64 (snd c)) by (unfold kernel; rewrite Hc, Nat.eqb_refl; reflexivity).
  assert (Hn' : ~ In i (order i idxs)) by (intros Hin; apply Hn; eapply Permutation_in; [apply Permutation_sym; apply Ho|]; eauto).
  generalize (f32_of_f64 (snd c)). clear Ho Po F Hn. induction Fo as [|j s l ord E Fo IH]; intros g; cbn [fold_left]; [reflexivity|].
  assert (Hij : i <> j) by (intros ->; apply Hn'; left; auto).
  rewrite IH by (intros Hin; apply Hn'; right; auto). f_equal. unfold kernel. rewrite Hc, E, Nat.eqb_refl.
  destruct (Nat.eqb_spec i j); [congruence|]. reflexivity.
Qed.

(** *** candidates *)
Section StoreLevel.
Variable I : index_ops.
Notation store := (store I).

Lemma candidates_listed (s : store) envs o f : reachable I envs s -> st_closed I s = false ->
  lists_stored I s (qualifies o) f (map (fun e => (e, f e)) (fetch_candidates (st_db I s) o)).
Proof.
  intros Hr Hc. pose proof (reachable_uniq I envs s Hr) as Hu. pose proof (reachable_colls I envs s Hr) as Hco.
  pose proof (reachable_named I envs s Hr) as Hdn. unfold fetch_candidates. apply (scanned_stored I s _ _ (qualifies o)); auto.
  intros r e Hin Hsc. rewrite (where_spec _ o r e Hco Hdn Hin Hsc), matches_filter_spec. unfold qualifies, meta_matches. tauto.
Qed.

Lemma negatives_spec srt sc (s : store) envs pos neg w o out : sort_ok by_score srt -> reachable I envs s ->
  (forall id e x, get_by_id I s id = Ok e -> contrast sc pos neg (or_default w half_f32) e x -> not_nan x) ->
  search_with_negatives I srt sc s pos neg w o = Ok out ->
  exists f all, (forall e, contrast sc pos neg (or_default w half_f32) e (f e)) /\
    lists_stored I s (qualifies o) f all /\ is_topk by_score (limit_count o all) all out.
Proof.
  intros Hs R Hn H. unfold search_with_negatives in H. destruct (st_closed I s) eqn:C; [discriminate|]. injection H as <-.
  exists (negative_score sc pos neg w). eexists. split; [apply negative_score_spec|].
  pose proof (candidates_listed s envs o (negative_score sc pos neg w) R C) as L. split; [exact L|].
  apply limit_topk; auto. eapply lists_not_nan; [exact L|]. intros id e G. apply (Hn id e _ G). apply (negative_score_spec sc pos neg w e).
Qed.

Lemma others_spec {A B} (dec : B -> B -> bool) (Hdec : forall x y, dec x y = true <-> x = y) (f : A -> B) l : forall before, NoDup (map f (before ++ l)) ->
  map (fun p => p) (each_with_others before l) =
  map (fun x => (x, filter (fun y => negb (dec (f y) (f x))) (before ++ l))) l.
Proof.
  induction l as [|x l IH]; intros before H; [reflexivity|]. cbn [each_with_others map]. f_equal.
  - f_equal. rewrite filter_app. cbn [filter]. rewrite (proj2 (Hdec (f x) (f x)) eq_refl). cbn [negb].
    rewrite map_app in H. cbn [map] in H.
    rewrite !filter_all; auto; intros y Hy; apply negb_true_iff; apply not_true_iff_false; rewrite Hdec; intros E.
    + apply NoDup_remove_2 in H. apply H. apply in_or_app. right. rewrite <- E. apply in_map; auto.
    + apply NoDup_remove_2 in H. apply H. apply in_or_app. left. rewrite <- E. apply in_map; auto.
  - rewrite IH by (rewrite <- app_assoc; exact H). rewrite <- app_assoc. reflexivity.
Qed.
Lemma avg_mean n l : avg_first n l = mean (firstn n l).
Proof.
  unfold avg_first, mean. rewrite <- firstn_length. destruct (firstn n l) as [|x m]; reflexivity.
Qed.

Lemma anomalies_spec srt dsrt sc (s : store) envs o out : sort_ok by_score srt -> sort_ok flt dsrt -> reachable I envs s ->
  (forall id id' e e', get_by_id I s id = Ok e -> get_by_id I s id' = Ok e' -> not_nan (separation sc e e')) ->
  find_anomalies I srt dsrt sc s o = Ok out ->
  exists f all, lists_stored I s (qualifies o) f all /\
    (forall e x, In (e, x) all -> exists ds,
       is_topk flt 5 (map (separation sc e) (filter (fun y => negb (String.eqb (e_id y) (e_id e))) (map fst all))) ds /\
       x = f64_of_f32 (mean ds)) /\
    (Forall (fun x => not_nan (snd x)) all -> is_topk by_score (limit_count o all) all out).
Proof.
  intros Hs Hd R Hn H. unfold find_anomalies in H. destruct (st_closed I s) eqn:C; [discriminate|]. injection H as <-.
  set (cs := fetch_candidates (st_db I s) o).
  set (f := fun e => anomaly_score dsrt sc e (filter (fun y => negb (String.eqb (e_id y) (e_id e))) cs)).
  pose proof (candidates_listed s envs o f R C) as L. fold cs in L. set (all := map (fun e => (e, f e)) cs) in *.
  assert (E : map (fun p => (fst p, anomaly_score dsrt sc (fst p) (snd p))) (each_with_others [] cs) = all).
  { assert (HN : NoDup (map e_id ([] ++ cs))).
    { destruct L as [L _]. unfold all in L. rewrite map_map in L. exact L. }
    pose proof (others_spec String.eqb String.eqb_eq e_id cs [] HN) as O. rewrite map_id in O. rewrite O, map_map. reflexivity. }
  assert (Hfst : map fst all = cs) by (unfold all; rewrite map_map; apply map_id).
  exists f, all. split; [exact L|]. split.
  - intros e x Hin. rewrite Hfst. pose proof Hin as Hin'. apply L in Hin' as (e0 & G & Ee & _ & ->).
    unfold f, anomaly_score. rewrite avg_mean. eexists. split; [|reflexivity]. apply topk_of_sort; auto.
    apply (weak_order_asc (fun x : float => x)). intros d Hin2. apply in_map_iff in Hin2 as (y & <- & Hy).
    apply filter_In in Hy as [Hy _]. rewrite <- Hfst in Hy. apply in_map_iff in Hy as ((y' & z) & Ey & Hy). cbn in Ey. subst y'.
    apply L in Hy as (y0 & Gy & -> & _). subst e. exact (Hn _ _ _ _ G Gy).
  - intros Ha. rewrite E. apply limit_topk; auto. apply (weak_order_desc (fun x : scored => snd x)). rewrite Forall_forall in Ha. auto.
Qed.
End StoreLevel.

Lemma picked_nth_firstn {A} (cs : list A) idxs out n : picked cs idxs out -> picked cs (firstn n idxs) (firstn n out).
Proof.
  intros [H F]. split; [apply NoDup_firstn; auto|]. clear H. revert n. induction F; intros [|n]; cbn; constructor; auto.
Qed.
Lemma nodup_not_firstn {A} (l : list A) n x : NoDup l -> nth_error l n = Some x -> ~ In x (firstn n l).
Proof.
  intros H. revert n. induction H as [|y l Hy H IH]; intros [|n] E; cbn in *; try discriminate; [auto|].
  intros [<-|Hin]; [apply Hy; eapply nth_error_In; eauto|]. apply (IH n E Hin).
Qed.

Lemma dpp_spec sc order k cs : (forall i l, Permutation l (order i l)) ->
  let out := diversify_dpp sc order k cs in
  exists idxs, picked cs idxs out /\
    ((Z.of_nat (length cs) <= k)%Z -> out = cs) /\
    (Z.of_nat (length out) <= Z.max k 0)%Z /\
    ((k < Z.of_nat (length cs))%Z ->
      (forall n i, nth_error idxs n = Some i -> i < 100 /\ exists ci xi, nth_error cs i = Some ci /\
        gain sc (firstn n out) ci xi /\ flt f_zero xi = true /\
        forall j cj, j < 100 -> nth_error cs j = Some cj -> ~ In j (firstn n idxs) -> exists xj, gain sc (firstn n out) cj xj /\ flt xi xj = false) /\
      ((k <= Z.of_nat (length out))%Z \/
       forall j cj, j < 100 -> nth_error cs j = Some cj -> ~ In j idxs -> exists xj, gain sc out cj xj /\ flt f_zero xj = false)).
Proof.
  intros Ho. cbv zeta. unfold diversify_dpp. destruct (Z.leb_spec (Z.of_nat (length cs)) k) as [Hle|Hgt].
  - exists (seq 0 (length cs)). split; [apply selection_refl|]. split; [auto|]. split; [lia|]. intros H. lia.
  - set (n := Nat.min (length cs) 100).
    destruct (dpp_loop_spec (dpp_gain sc order cs) k n n []) as (A1 & A2 & A3 & A4 & A5 & A6).
    { constructor. } { intros i []. } { cbn. lia. } { cbn. lia. } { intros m i j H. destruct m; discriminate. } { intros m i H. destruct m; discriminate. }
    set (idxs := dpp_loop (dpp_gain sc order cs) k n n []) in *. exists idxs.
    assert (F : Forall2 (fun i x => nth_error cs i = Some x) idxs (flat_map (fun i => match nth_error cs i with Some x => [x] | None => [] end) idxs)).
    { apply pick_in_range. intros i Hi. apply A2 in Hi. lia. }
    set (out := flat_map _ idxs) in *. assert (P : picked cs idxs out) by (split; auto).
    assert (Hlt : forall j cj, j < 100 -> nth_error cs j = Some cj -> j < n).
    { intros j cj H1 H2. assert (j < length cs) by (apply nth_error_Some; rewrite H2; discriminate). lia. }
    split; auto. split; [lia|]. split; [rewrite <- (picked_length _ _ _ P); auto|]. intros _. split.
    + intros m i Hi. assert (Hin : i < n) by (apply A2; eapply nth_error_In; eauto). split; [lia|].
      destruct (nth_error cs i) as [ci|] eqn:Ec; [|apply nth_error_None in Ec; lia].
      exists ci, (dpp_gain sc order cs (firstn m idxs) i). split; auto.
      split; [apply dpp_gain_spec; auto; [apply picked_nth_firstn; auto|apply nodup_not_firstn; auto]|].
      split; [apply A5; auto|]. intros j cj Hj Ej Hn. exists (dpp_gain sc order cs (firstn m idxs) j).
      split; [apply dpp_gain_spec; auto; apply picked_nth_firstn; auto|]. apply (A4 m i j); eauto.
    + rewrite <- (picked_length _ _ _ P). destruct A6 as [A6|A6]; auto. right. intros j cj Hj Ej Hn.
      exists (dpp_gain sc order cs idxs j). split; [apply dpp_gain_spec; auto|]. apply A6; auto. eapply Hlt; eauto.
Qed.
