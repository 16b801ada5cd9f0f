(** Distances derived from scores are monotone on either side of zero. *)
From Coq Require Import ZArith List Bool Lia Reals Lra.
From Coq Require Import Floats.SpecFloat.
From Flocq Require Import Core.Core IEEE754.BinarySingleNaN.
From Verif Require Import Base Floats64 SimilaritySpec FloatReal AdvSearchSpec.
Open Scope R_scope.

Global Instance Hprec32 : FLX.Prec_gt_0 24 := eq_refl _.
Global Instance Hmax32 : Prec_lt_emax 24 128 := eq_refl _.
Notation b32 := (binary_float 24 128).
Notation fexp32 := (SpecFloat.fexp 24 128).
Global Instance fexp32_valid : Valid_exp fexp32 := FLT_exp_valid (-149) 24.
Definition rnd32 (r : R) : R := round radix2 fexp32 ZnearestE r.
Local Notation big32 := (bpow radix2 128).

(** A finite float64. *)
Definition finite64 (x : float) : Prop := exists a, fin x a.

Lemma f32_value_of x a : fin x a ->
  (Rabs (rnd32 a) < big32 /\ exists b : b32, B2SF b = f32_of_f64 x /\ is_finite b = true /\ B2R b = rnd32 a) \/
  (big32 <= rnd32 a /\ f32_of_f64 x = S754_infinity false) \/ (rnd32 a <= - big32 /\ f32_of_f64 x = S754_infinity true).
Proof.
  intros (u & <- & Fu & <-). destruct u as [s|s| |s m e Hb]; try discriminate.
  - left. cbn [B2SF f32_of_f64 f_round B2R]. unfold rnd32. rewrite round_0 by auto with typeclass_instances. rewrite Rabs_R0. split; [apply bpow_gt_0|].
    exists (B754_zero s). auto.
  - cbn [B2SF]. unfold f32_of_f64, f_round. change prec32 with 24%Z. change emax32 with 128%Z.
    rewrite (bn_equiv 24 128 Hprec32 Hmax32). set (k := if s then Z.neg m else Z.pos m).
    pose proof (binary_normalize_correct 24 128 _ _ mode_NE k e s) as C. cbv zeta in C.
    assert (V : B2R (B754_finite s m e Hb) = F2R (Float radix2 k e)) by (unfold k; destruct s; reflexivity). rewrite V.
    change (round radix2 fexp32 (round_mode mode_NE) (F2R (Float radix2 k e))) with (rnd32 (F2R (Float radix2 k e))) in C.
    destruct (Rlt_bool_spec (Rabs (rnd32 (F2R (Float radix2 k e)))) big32) as [H|H].
    + left. split; auto. destruct C as (C1 & C2 & _). eexists. split; [reflexivity|]. auto.
    + right. rewrite C. unfold binary_overflow. cbn [overflow_to_inf].
      destruct (Rlt_bool_spec (F2R (Float radix2 k e)) 0) as [Hs|Hs].
      * right. split; [|reflexivity].
        assert (rnd32 (F2R (Float radix2 k e)) <= 0). { unfold rnd32. rewrite <- (round_0 radix2 fexp32 ZnearestE). apply round_le; auto with typeclass_instances. lra. }
        rewrite Rabs_left1 in H by auto. lra.
      * left. split; [|reflexivity].
        assert (0 <= rnd32 (F2R (Float radix2 k e))). { unfold rnd32. rewrite <- (round_0 radix2 fexp32 ZnearestE). apply round_le; auto with typeclass_instances. }
        rewrite Rabs_pos_eq in H by auto. exact H.
Qed.

Lemma f32_mono x y a b : fin x a -> fin y b -> a <= b -> fle (f32_of_f64 x) (f32_of_f64 y) = true.
Proof.
  intros Hx Hy Hab. assert (M : rnd32 a <= rnd32 b) by (apply round_le; auto with typeclass_instances).
  pose proof (bpow_gt_0 radix2 128) as Hbig.
  destruct (f32_value_of x a Hx) as [(H1 & u & <- & Fu & Eu)|[(H1 & ->)|(H1 & ->)]];
  destruct (f32_value_of y b Hy) as [(H2 & v & <- & Fv & Ev)|[(H2 & ->)|(H2 & ->)]]; try reflexivity.
  - unfold fle, SFleb. assert (E : SFcompare (B2SF u) (B2SF v) = Some (Rcompare (B2R u) (B2R v))).
    { rewrite <- (Bcompare_correct 24 128 u v Fu Fv). destruct u, v; reflexivity. }
    rewrite E, Eu, Ev. destruct (Rcompare_spec (rnd32 a) (rnd32 b)); auto. lra.
  - destruct u as [[]|[]| |[] m e Hb]; try discriminate; reflexivity.
  - apply Rabs_lt_inv in H1. lra.
  - apply Rabs_lt_inv in H2. lra.
  - lra.
  - destruct v as [[]|[]| |[] m e Hb]; try discriminate; reflexivity.
Qed.

Lemma fin_one : fin (f64_of_Z 1) 1.
Proof.
  unfold f64_of_Z. change prec64 with 53%Z. change emax64 with 1024%Z. rewrite (bn_equiv 53 1024 Hprec64 Hmax64).
  exists (binary_normalize 53 1024 Hprec64 Hmax64 mode_NE 1 0 false). split; [reflexivity|].
  pose proof (binary_normalize_correct 53 1024 Hprec64 Hmax64 mode_NE 1 0 false) as C. cbv zeta in C.
  assert (E : F2R (Float radix2 1 0) = 1) by (unfold F2R; cbn; ring). rewrite E in C.
  change (round radix2 fexp64 (round_mode mode_NE) 1) with (rnd 1) in C.
  assert (Er : rnd 1 = 1). { apply round_generic; auto with typeclass_instances. replace 1 with (IZR 1 * bpow radix2 0) by (cbn; ring). apply format_scaled; lia. }
  rewrite Er, Rlt_bool_true in C; [tauto|]. rewrite Rabs_pos_eq by lra. apply (bpow_lt radix2 0 1024). lia.
Qed.
Lemma fin_format x a : fin x a -> generic_format radix2 fexp64 a /\ Rabs a < bpow radix2 1024.
Proof. intros (u & _ & _ & <-). split; [apply generic_format_B2R|apply abs_B2R_lt_emax]. Qed.
Lemma one_minus x a : fin x a -> 0 < a -> fin (f64_sub (f64_of_Z 1) x) (rnd (1 - a)).
Proof.
  intros Hx Ha. apply fin_sub; [exact fin_one|exact Hx|]. destruct (fin_format x a Hx) as [G B]. rewrite Rabs_pos_eq in B by lra.
  destruct (Rle_or_lt a 1) as [H|H].
  - apply Rle_lt_trans with 1; [|apply (bpow_lt radix2 0 1024); lia]. apply abs_round_le_generic; auto with typeclass_instances.
    + exact (proj1 (fin_format _ _ fin_one)).
    + rewrite Rabs_pos_eq; lra.
  - apply Rle_lt_trans with a; auto. apply abs_round_le_generic; auto with typeclass_instances. rewrite Rabs_left; lra.
Qed.

Lemma distance_mono x y : finite64 x -> finite64 y -> fle x y = true -> (fle y f_zero = true \/ flt f_zero x = true) ->
  fle (distance_of_score y) (distance_of_score x) = true.
Proof.
  intros [a Hx] [b Hy] Hle Hside. apply (fin_le x y a b Hx Hy) in Hle. unfold distance_of_score.
  destruct Hside as [H|H].
  - rewrite H. apply (fin_le y f_zero b 0 Hy fin_zero) in H.
    assert (H2 : fle x f_zero = true) by (apply (fin_le x f_zero a 0 Hx fin_zero); lra). rewrite H2.
    eapply f32_mono; [apply fin_opp; exact Hy|apply fin_opp; exact Hx|lra].
  - apply (fin_lt f_zero x 0 a fin_zero Hx) in H.
    assert (E1 : fle x f_zero = false). { apply not_true_iff_false. intros C. apply (fin_le x f_zero a 0 Hx fin_zero) in C. lra. }
    assert (E2 : fle y f_zero = false). { apply not_true_iff_false. intros C. apply (fin_le y f_zero b 0 Hy fin_zero) in C. lra. }
    rewrite E1, E2. eapply f32_mono; [apply one_minus; [exact Hy|lra]|apply one_minus; [exact Hx|lra]|].
    apply round_le; auto with typeclass_instances. lra.
Qed.
