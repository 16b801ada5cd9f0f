From Coq Require Import String List NArith ZArith Bool Lia Permutation.
From Coq Require Import Floats.SpecFloat.
From Verif Require Import Base Floats64 StoreModel StoreSpec GraphModel GraphSpec GraphProofs.
Import ListNotations.
Open Scope string_scope.
Open Scope list_scope.
From Coq Require Import ZifyBool ZifyNat ZifyN.

(** * Breadth-first search, for any relation *)
Section Bfs.
Variable R : string -> string -> Prop.
Inductive trail : string -> list string -> string -> Prop :=
| trail_nil x : trail x [] x
| trail_cons x y p z : R x y -> trail y p z -> trail x (y :: p) z.

Lemma trail_end x p z : trail x p z -> In z (x :: p).
Proof. induction 1; [left; auto|right; auto]. Qed.
Lemma trail_last x p z u : trail x p z -> In u (x :: p) ->
  exists p', trail u p' z /\ incl p' p /\ ~ In u p' /\ (length p' <= length p)%nat /\ (In u p -> (length p' < length p)%nat).
Proof.
  induction 1 as [x|x y p z Rxy T IH].
  - intros [<-|[]]. exists []. split; [constructor|]. split; [intros ? []|]. split; [intros []|]. split; [lia|intros []].
  - intros H. destruct (in_dec String.string_dec u (y :: p)) as [I|I].
    + destruct (IH I) as [p' [T' [I' [N [L _]]]]]. exists p'. split; [auto|]. split; [intros v Hv; right; auto|]. split; [auto|].
      cbn [length]. split; [|intros _]; lia.
    + destruct H as [<-|H]; [|contradiction]. exists (y :: p). split; [constructor; auto|]. split; [apply incl_refl|].
      split; [auto|]. split; [lia|]. intros C. contradiction.
Qed.
Lemma trail_snoc x p y z : trail x p y -> R y z -> trail x (p ++ [z]) z.
Proof. induction 1 as [x|x w p y Rw T IH]; intros H; cbn; [constructor; auto; constructor|constructor; auto]. Qed.
Lemma trail_unsnoc x p z y : trail x (p ++ [z]) y -> y = z /\ exists w, trail x p w /\ R w z.
Proof.
  revert x. induction p as [|v p IH]; intros x H; cbn in H; inversion H as [|? ? ? ? Rxv T]; subst.
  - inversion T; subst. split; auto. exists x. split; [constructor|auto].
  - destruct (IH _ T) as [E [w [Tw Rw]]]. split; auto. exists w. split; [constructor; auto|auto].
Qed.

(** Visited when taken from the queue: ShortestPath and Connected. *)
Definition levels (queue : list (string * Z)) : Prop :=
  exists k q1 q2, queue = q1 ++ q2 /\ (forall i, In i q1 -> snd i = k) /\ (forall i, In i q2 -> snd i = (k + 1)%Z).
Lemma levels_head x k q : levels ((x, k) :: q) -> forall i, In i ((x, k) :: q) -> (k <= snd i)%Z.
Proof.
  intros [c [q1 [q2 [E [H1 H2]]]]] i Hi. destruct q1 as [|j q1]; cbn in E.
  - subst q2. rewrite (H2 i Hi), <- (H2 (x, k) (or_introl eq_refl)). cbn. lia.
  - injection E as <- E. pose proof (H1 (x, k) (or_introl eq_refl)) as Hk. cbn in Hk. subst c.
    destruct Hi as [<-|Hi]; [cbn; lia|]. rewrite E in Hi. apply in_app_or in Hi as [Hi|Hi].
    + rewrite (H1 i (or_intror Hi)). lia.
    + rewrite (H2 i Hi). lia.
Qed.
Lemma levels_tail i q : levels (i :: q) -> levels q.
Proof.
  intros [c [q1 [q2 [E [H1 H2]]]]]. destruct q1 as [|j q1]; cbn in E.
  - exists c, [], q. subst q2. split; auto. split; [intros ? []|]. intros j Hj. apply H2. right; auto.
  - injection E as <- E. exists c, q1, q2. split; auto. split; auto. intros j Hj. apply H1. right; auto.
Qed.
Lemma levels_push x k q l : levels ((x, k) :: q) -> (forall i, In i l -> snd i = (k + 1)%Z) -> levels (q ++ l).
Proof.
  intros [c [q1 [q2 [E [H1 H2]]]]] Hl. destruct q1 as [|j q1]; cbn in E.
  - subst q2. pose proof (H2 (x, k) (or_introl eq_refl)) as Hk. cbn in Hk.
    exists k, q, l. split; auto. split; auto. intros i Hi. rewrite (H2 i (or_intror Hi)). lia.
  - injection E as <- E. pose proof (H1 (x, k) (or_introl eq_refl)) as Hk. cbn in Hk. subst c.
    exists k, q1, (q2 ++ l). rewrite E, app_assoc. split; auto. split; [intros i Hi; apply H1; right; auto|].
    intros i Hi. apply in_app_or in Hi as [Hi|Hi]; auto.
Qed.

Section Target.
Variables (a b : string) (okd : nat -> Prop).
Definition inv (queue : list (string * Z)) (seen : list string) : Prop :=
  levels queue /\ ~ In b seen /\
  forall p, trail a p b -> okd (length p) ->
    exists z dz q, In (z, dz) queue /\ trail z q b /\ (dz + Z.of_nat (length q) <= Z.of_nat (length p))%Z /\ forall u, In u (z :: q) -> ~ In u seen.

Lemma inv_start : inv [(a, 0%Z)] [].
Proof.
  split; [|split].
  - exists 0%Z, [(a, 0%Z)], []. split; auto. split; [intros i [<-|[]]; auto|intros i []].
  - intros [].
  - intros p T _. exists a, 0%Z, p. split; [left; auto|]. split; auto. split; [lia|]. intros u _ [].
Qed.
Lemma inv_seen x k q seen : inv ((x, k) :: q) seen -> In x seen -> inv q seen.
Proof.
  intros [L [B J]] Hx. split; [eapply levels_tail; eauto|]. split; auto.
  intros p T O. destruct (J p T O) as [z [dz [q2 [[E|I] [Tz [Le U]]]]]].
  - injection E as -> ->. destruct (U z (or_introl eq_refl) Hx).
  - exists z, dz, q2. auto.
Qed.
Lemma inv_deep x k q seen : inv ((x, k) :: q) seen -> x <> b -> (forall n, okd n -> (Z.of_nat n <= k)%Z) -> inv q seen.
Proof.
  intros [L [B J]] Hx D. split; [eapply levels_tail; eauto|]. split; auto.
  intros p T O. destruct (J p T O) as [z [dz [q2 [[E|I] [Tz [Le U]]]]]].
  - injection E as -> ->. exfalso. specialize (D _ O). destruct q2; [inversion Tz; congruence|cbn [length] in Le; lia].
  - exists z, dz, q2. auto.
Qed.
Lemma inv_expand x k q seen ys : inv ((x, k) :: q) seen -> x <> b ->
  (forall y, R x y -> ~ In y (x :: seen) -> In y ys) ->
  inv (q ++ map (fun y => (y, (k + 1)%Z)) ys) (x :: seen).
Proof.
  intros [L [B J]] Hx S. split; [|split].
  - eapply levels_push; eauto. intros i Hi. apply in_map_iff in Hi as [y [<- _]]. reflexivity.
  - intros [C|C]; [congruence|contradiction].
  - intros p T O. destruct (J p T O) as [z [dz [q2 [I [Tz [Le U]]]]]].
    pose proof (levels_head _ _ _ L _ I) as Kz. cbn in Kz.
    destruct (in_dec String.string_dec x (z :: q2)) as [Ix|Ix].
    + destruct (trail_last _ _ _ _ Tz Ix) as [p' [T' [I' [N [Len _]]]]].
      inversion T' as [|? y p'' ? Rxy T'']; subst; [congruence|].
      assert (Uy : forall u, In u (y :: p'') -> ~ In u (x :: seen)).
      { intros u Hu [<-|C]; [contradiction|]. exact (U u (or_intror (I' _ Hu)) C). }
      exists y, (k + 1)%Z, p''. split.
      { apply in_or_app. right. apply in_map_iff. exists y. split; auto. apply S; auto. apply Uy. left; auto. }
      split; auto. cbn [length] in Len. split; [lia|auto].
    + exists z, dz, q2. split.
      { apply in_or_app. left. destruct I as [E|I]; auto. injection E as -> ->. destruct Ix. left; auto. }
      split; auto. split; auto. intros u Hu [<-|C]; [contradiction|exact (U u Hu C)].
Qed.
Lemma inv_target k q seen p : inv ((b, k) :: q) seen -> trail a p b -> okd (length p) -> (k <= Z.of_nat (length p))%Z.
Proof.
  intros [L [B J]] T O. destruct (J p T O) as [z [dz [q2 [I [Tz [Le U]]]]]].
  pose proof (levels_head _ _ _ L _ I) as Kz. cbn in Kz. lia.
Qed.
Lemma inv_empty seen p : inv [] seen -> trail a p b -> ~ okd (length p).
Proof. intros [L [B J]] T O. destruct (J p T O) as [z [dz [q2 [[] _]]]]. Qed.
End Target.

(** Visited when put into the queue: Neighbors.  [m] bounds the depth. *)
Section All.
Variables (a : string) (m : Z).
(** [cur] is the node being expanded and the targets not yet looked at. *)
Definition covered (queue : list (string * Z)) (seen : list string) (cur : option (string * Z * list string)) : Prop :=
  forall p y, trail a p y -> (Z.of_nat (length p) <= m)%Z ->
    In y seen \/
    (exists z dz q, In (z, dz) queue /\ trail z q y /\ (dz + Z.of_nat (length q) <= Z.of_nat (length p))%Z /\ forall u, In u q -> ~ In u seen) \/
    (exists x k ts w q, cur = Some (x, k, ts) /\ In w ts /\ trail w q y /\ (k + 1 + Z.of_nat (length q) <= Z.of_nat (length p))%Z /\ forall u, In u (w :: q) -> ~ In u seen).

Lemma covered_done queue seen x k : covered queue seen (Some (x, k, [])) -> covered queue seen None.
Proof.
  intros C p y T L. destruct (C p y T L) as [H|[H|[x' [k' [ts [w [q [E [I _]]]]]]]]]; auto.
  injection E as <- <- <-. destruct I.
Qed.
(** Taking a node off the queue. *)
Lemma covered_pop x k q seen ts : covered ((x, k) :: q) seen None -> In x seen ->
  (forall w, R x w -> In w ts) -> covered q seen (Some (x, k, ts)).
Proof.
  intros C Hx S p y T L. destruct (C p y T L) as [H|[[z [dz [q2 [[E|I] [Tz [Le U]]]]]]|[x' [k' [ts' [w [q2 [E _]]]]]]]]; auto; [| |discriminate].
  - injection E as <- <-. inversion Tz as [|? w q2' ? Rw Tw]; subst; auto.
    right; right. exists x, k, ts, w, q2'. split; auto. split; auto. split; auto. cbn [length] in Le. split; [lia|auto].
  - right; left. exists z, dz, q2. auto.
Qed.
Lemma covered_deep x k q seen : covered ((x, k) :: q) seen None -> In x seen -> (m <= k)%Z -> covered q seen None.
Proof.
  intros C Hx D p y T L. destruct (C p y T L) as [H|[[z [dz [q2 [[E|I] [Tz [Le U]]]]]]|[x' [k' [ts' [w [q2 [E _]]]]]]]]; auto; [| |discriminate].
  - injection E as <- <-. left. destruct q2 as [|w q2]; [inversion Tz; subst; auto|cbn [length] in Le; lia].
  - right; left. exists z, dz, q2. auto.
Qed.
(** A target already seen, or that is not followed. *)
Lemma covered_skip x k q seen t ts : covered q seen (Some (x, k, t :: ts)) -> In t seen -> covered q seen (Some (x, k, ts)).
Proof.
  intros C Ht p y T L. destruct (C p y T L) as [H|[H|[x' [k' [ts' [w [q2 [E [I [Tw [Le U]]]]]]]]]]]; auto.
  injection E as <- <- <-. destruct I as [<-|I]; [destruct (U t (or_introl eq_refl) Ht)|].
  right; right. exists x, k, ts, w, q2. auto.
Qed.
(** A new target, put into the queue unless its depth is the bound. *)
Lemma covered_see x k q seen t ts : covered q seen (Some (x, k, t :: ts)) -> ~ In t seen ->
  (forall i, In i q -> (k <= snd i)%Z) ->
  covered (if Z.ltb (k + 1) m then q ++ [(t, (k + 1)%Z)] else q) (t :: seen) (Some (x, k, ts)).
Proof.
  intros C Ht D p y T L.
  (* a trail from a node at depth [c >= k] whose later nodes are unseen and meet t *)
  assert (Case : forall q2 z c, trail z q2 y -> (k <= c)%Z -> (c + Z.of_nat (length q2) <= Z.of_nat (length p))%Z ->
            In t q2 -> (forall u, In u q2 -> ~ In u seen) ->
            In y (t :: seen) \/
            (exists z dz q', In (z, dz) (if Z.ltb (k + 1) m then q ++ [(t, (k + 1)%Z)] else q) /\ trail z q' y /\
               (dz + Z.of_nat (length q') <= Z.of_nat (length p))%Z /\ forall u, In u q' -> ~ In u (t :: seen))).
  { intros q2 z c Tz Kc Le It U.
    destruct (trail_last _ _ _ t Tz (or_intror It)) as [p' [T' [I' [N [_ Len]]]]]. specialize (Len It).
    destruct p' as [|v p'].
    - inversion T'; subst. left; left; auto.
    - right. exists t, (k + 1)%Z, (v :: p'). cbn [length] in *.
      destruct (Z.ltb_spec (k + 1) m) as [M|M]; [|lia].
      split; [apply in_or_app; right; left; auto|]. split; auto. split; [lia|].
      intros u Hu [<-|Cc]; [contradiction|exact (U u (I' _ Hu) Cc)]. }
  assert (Sub : forall i, In i q -> In i (if Z.ltb (k + 1) m then q ++ [(t, (k + 1)%Z)] else q)).
  { intros i Hi. destruct (Z.ltb _ _); auto. apply in_or_app; auto. }
  destruct (C p y T L) as [H|[[z [dz [q2 [I [Tz [Le U]]]]]]|[x' [k' [ts' [w [q2 [E [I [Tw [Le U]]]]]]]]]]].
  - left; right; auto.
  - destruct (in_dec String.string_dec t q2) as [It|It].
    + destruct (Case q2 z dz Tz) as [H|H]; auto. exact (D _ I).
    + right; left. exists z, dz, q2. split; auto. split; auto. split; auto. intros u Hu [<-|Cc]; [contradiction|exact (U u Hu Cc)].
  - injection E as <- <- <-.
    assert (Uq : forall u, In u q2 -> ~ In u seen) by (intros u Hu; apply U; right; auto).
    destruct (in_dec String.string_dec t q2) as [It|It].
    + destruct (Case q2 w (k + 1)%Z Tw) as [H|H]; auto; lia.
    + destruct I as [<-|I].
      * (* the new target itself *)
        destruct q2 as [|v q2]; [inversion Tw; subst; left; left; auto|].
        right; left. exists t, (k + 1)%Z, (v :: q2). cbn [length] in Le.
        destruct (Z.ltb_spec (k + 1) m) as [M|M]; [|lia].
        split; [apply in_or_app; right; left; auto|]. split; auto. split; [cbn [length]; lia|].
        intros u Hu [<-|Cc]; [contradiction|exact (Uq u Hu Cc)].
      * destruct (String.string_dec t w) as [->|Dw].
        -- destruct q2 as [|v q2]; [inversion Tw; subst; left; left; auto|].
           right; left. exists w, (k + 1)%Z, (v :: q2). cbn [length] in Le.
           destruct (Z.ltb_spec (k + 1) m) as [M|M]; [|lia].
           split; [apply in_or_app; right; left; auto|]. split; auto. split; [cbn [length]; lia|].
           intros u Hu [<-|Cc]; [contradiction|exact (Uq u Hu Cc)].
        -- right; right. exists x, k, ts, w, q2. split; auto. split; auto. split; auto. split; auto.
           intros u [<-|Hu] [Cc|Cc]; [congruence|exact (U w (or_introl eq_refl) Cc)|subst; contradiction|exact (Uq u Hu Cc)].
Qed.
Lemma covered_start : covered [(a, 0%Z)] [a] None.
Proof.
  intros p y T L. destruct p as [|v p]; [left; inversion T; subst; left; auto|].
  right; left.
  destruct (trail_last _ _ _ a T (or_introl eq_refl)) as [p' [T' [I' [N [Len _]]]]].
  exists a, 0%Z, p'. split; [left; auto|]. split; auto. split; [lia|]. intros u Hu [<-|[]]. contradiction.
Qed.
(** A node found late is far away. *)
Lemma covered_far q seen x k ts y p : covered q seen (Some (x, k, ts)) -> ~ In y seen -> trail a p y -> (Z.of_nat (length p) <= m)%Z ->
  (forall i, In i q -> (k <= snd i)%Z /\ In (fst i) seen) -> (k < Z.of_nat (length p))%Z.
Proof.
  intros C Ny T L D. destruct (C p y T L) as [H|[[z [dz [q2 [I [Tz [Le U]]]]]]|[x' [k' [ts' [w [q2 [E [I [Tw [Le U]]]]]]]]]]]; [contradiction| |].
  - destruct (D _ I) as [D1 D2]. cbn in D1, D2. destruct q2 as [|v q2]; [inversion Tz; subst; contradiction|cbn [length] in Le; lia].
  - injection E as <- <- <-. lia.
Qed.
End All.
End Bfs.
