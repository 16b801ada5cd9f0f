(** Specification of "the k best of a collection, best first", shared by all
    search properties, and the argmin loop used by several quantisers. *)
From Coq Require Import List Bool Arith ZArith Lia Permutation Sorted.
From Coq Require Import Floats.SpecFloat.
From Verif Require Import Base Floats64.
Import ListNotations.

(** [out] is a list of the [n] best elements of [all] under "x is better than y"
    [better x y]: it is a sub-multiset of [all] of size min n |all|, in order of
    quality, and nothing left out is better than something included. *)
Definition is_topk {A} (better : A -> A -> bool) (n : nat) (all out : list A) : Prop :=
  exists rest,
    Permutation all (out ++ rest) /\
    length out = Nat.min n (length all) /\
    StronglySorted (fun a b => better b a = false) out /\
    (forall x y, In x out -> In y rest -> better y x = false).

Lemma topk_of_sort {A} (better : A -> A -> bool) srt n (l : list A) :
  sort_ok better srt -> weak_order_on better l -> is_topk better n l (firstn n (srt l)).
Proof.
  intros HS HW. destruct (HS l) as [P S]. specialize (S HW).
  exists (skipn n (srt l)). rewrite firstn_skipn. split; [exact P|]. split; [|split].
  - rewrite firstn_length, (Permutation_length P). reflexivity.
  - apply sorted_firstn. exact S.
  - apply sorted_top. exact S.
Qed.

Lemma is_topk_in {A} (better : A -> A -> bool) n all out x : is_topk better n all out -> In x out -> In x all.
Proof.
  intros (rest & P & _) H. eapply Permutation_in; [apply Permutation_sym; exact P|]. apply in_or_app; auto.
Qed.

Lemma is_topk_NoDup {A B} (f : A -> B) (better : A -> A -> bool) n all out :
  is_topk better n all out -> NoDup (map f all) -> NoDup (map f out).
Proof.
  intros (rest & P & _) H. apply (Permutation_map f) in P. rewrite map_app in P.
  eapply NoDup_app_l. eapply Permutation_NoDup; eauto.
Qed.

Lemma is_topk_best {A} (better : A -> A -> bool) n all out :
  is_topk better n all out -> weak_order_on better all ->
  forall x y, In x out -> In y all -> ~ In y out -> better y x = false.
Proof.
  intros (rest & P & _ & _ & H) _ x y Hx Hy Hn. apply H; auto.
  eapply Permutation_in in Hy; [|exact P]. apply in_app_or in Hy. tauto.
Qed.

Lemma is_topk_all {A} (better : A -> A -> bool) n all out :
  is_topk better n all out -> length all <= n -> Permutation all out.
Proof.
  intros (rest & P & L & _) H. pose proof (Permutation_length P) as PL. rewrite app_length in PL.
  assert (rest = []) by (apply length_zero_iff_nil; lia). subst. rewrite app_nil_r in P. exact P.
Qed.

(** The loop [min := init; idx := 0; for k { if d[k] < min { min, idx = d[k], k } }]. *)
Fixpoint argmin_loop (ds : list float) (k : nat) (minD : float) (minI : nat) : float * nat :=
  match ds with
  | [] => (minD, minI)
  | d :: ds' => if flt d minD then argmin_loop ds' (S k) d k else argmin_loop ds' (S k) minD minI
  end.

(** math.MaxFloat32 and math.MaxFloat64. *)
Definition max_float32 : float := S754_finite false 16777215%positive 104%Z.
Definition max_float64 : float := S754_finite false 9007199254740991%positive 971%Z.

Lemma argmin_loop_spec ds : forall k m i m' i',
  not_nan m -> argmin_loop ds k m i = (m', i') ->
  not_nan m' /\ flt m m' = false /\
  (forall j d, nth_error ds j = Some d -> flt d m' = false) /\
  ((m' = m /\ i' = i) \/ (k <= i' /\ nth_error ds (i' - k) = Some m' /\ flt m' m = true)).
Proof.
  induction ds as [|d ds IH]; cbn [argmin_loop]; intros k m i m' i' Hm H.
  - injection H as <- <-. split; auto. split; [apply flt_irrefl|]. split; [|auto].
    intros [|j] d; discriminate.
  - destruct (flt d m) eqn:E.
    + pose proof (flt_not_nan _ _ E) as [Hd _].
      apply IH in H as (N & L & A & B); auto.
      assert (Hmm : flt m m' = false).
      { apply flt_asym in E as E'. eapply flt_ntrans with (b := d); auto. }
      split; auto. split; auto. split.
      * intros [|j] x Hx; cbn in Hx; [injection Hx as <-; auto|eauto].
      * right. destruct B as [[-> ->]|(B1 & B2 & B3)].
        -- rewrite Nat.sub_diag. split; auto.
        -- split; [lia|]. split.
           ++ replace (i' - k) with (S (i' - S k)) by lia. exact B2.
           ++ eapply flt_trans; eauto.
    + apply IH in H as (N & L & A & B); auto.
      split; auto. split; auto. split.
      * intros [|j] x Hx; cbn in Hx; [injection Hx as <-|eauto].
        destruct (is_nanb d) eqn:Nd.
        { destruct d; try discriminate. destruct m' as [[]|[]| |[] ? ?]; reflexivity. }
        assert (not_nan d) by (intros ->; discriminate).
        eapply flt_ntrans with (b := m); auto.
      * destruct B as [B|(B1 & B2 & B3)]; auto. right. split; [lia|]. split; auto.
        replace (i' - k) with (S (i' - S k)) by lia. exact B2.
Qed.

(** When some distance is below the initial value, the loop finds a minimal one. *)
Lemma argmin_loop_found ds m m' i' :
  not_nan m -> argmin_loop ds 0 m 0 = (m', i') ->
  (exists j d, nth_error ds j = Some d /\ flt d m = true) ->
  nth_error ds i' = Some m' /\ forall j d, nth_error ds j = Some d -> flt d m' = false.
Proof.
  intros Hm H (j & d & Hj & Hd). apply argmin_loop_spec in H as (N & L & A & B); auto.
  split; auto. destruct B as [[-> ->]|(_ & B & _)].
  - rewrite (A _ _ Hj) in Hd. discriminate.
  - rewrite Nat.sub_0_r in B. exact B.
Qed.

Lemma StronglySorted_map {A B} (f : A -> B) (R : A -> A -> Prop) (S : B -> B -> Prop) l :
  (forall x y, R x y -> S (f x) (f y)) -> StronglySorted R l -> StronglySorted S (map f l).
Proof.
  intros H. induction 1 as [|x l Hl IH HF]; cbn; constructor; auto.
  rewrite Forall_forall in *. intros y Hy. apply in_map_iff in Hy as (z & <- & Hz). auto.
Qed.
Lemma is_topk_map {A B} (f : A -> B) (ba : A -> A -> bool) (bb : B -> B -> bool) n all out :
  (forall x y, bb (f x) (f y) = ba x y) -> is_topk ba n all out -> is_topk bb n (map f all) (map f out).
Proof.
  intros H (rest & P & L & S & R). exists (map f rest). rewrite <- map_app, !map_length.
  split; [apply Permutation_map; auto|]. split; auto. split.
  - eapply StronglySorted_map; [|exact S]. intros x y. rewrite H. auto.
  - intros x y Hx Hy. apply in_map_iff in Hx as (a & <- & Ha). apply in_map_iff in Hy as (b & <- & Hb). rewrite H. auto.
Qed.
Lemma is_topk_perm {A} (better : A -> A -> bool) n all all' out :
  Permutation all all' -> is_topk better n all out -> is_topk better n all' out.
Proof.
  intros Pa (rest & P & L & S & R). exists rest. split; [eapply perm_trans; [apply Permutation_sym; exact Pa|exact P]|].
  rewrite <- (Permutation_length Pa). auto.
Qed.
