(** Real value of the specification floats, through Flocq: float64 addition,
    subtraction, multiplication, division and square root round the exact result. *)
From Coq Require Import ZArith List Bool Lia Reals Lra.
From Coq Require Import Floats.SpecFloat.
From Flocq Require Import Core.Core IEEE754.BinarySingleNaN.
From Verif Require Import Base Floats64 SimilaritySpec.
Import ListNotations.
Open Scope R_scope.

Global Instance Hprec64 : FLX.Prec_gt_0 53 := eq_refl _.
Global Instance Hmax64 : Prec_lt_emax 53 1024 := eq_refl _.

Notation b64 := (binary_float 53 1024).
Notation fexp64 := (SpecFloat.fexp 53 1024).
Global Instance fexp64_valid : Valid_exp fexp64 := FLT_exp_valid (-1074) 53.
(** Rounding to the nearest float64, ties to even. *)
Definition rnd (r : R) : R := round radix2 fexp64 ZnearestE r.

(** [f] is a finite float64 of real value [r]. *)
Definition fin (f : float) (r : R) : Prop :=
  exists b : b64, B2SF b = f /\ is_finite b = true /\ B2R b = r.

(** *** the two descriptions of the operations agree *)
Section Equiv.
Variables prec emax : Z.
Context (Hp : FLX.Prec_gt_0 prec) (Hm : Prec_lt_emax prec emax).
Lemma rne_equiv s m l : round_nearest_even m l = choice_mode mode_NE s m l.
Proof. case l; [reflexivity|intro c]. case c; [|reflexivity..]. now simpl; unfold Round.cond_incr; case Z.even. Qed.
Lemma bra_equiv sx mx ex lx :
  SpecFloat.binary_round_aux prec emax sx mx ex lx = binary_round_aux prec emax mode_NE sx mx ex lx.
Proof.
  unfold SpecFloat.binary_round_aux, binary_round_aux. set (mrse' := shr_fexp _ _ _ _ _). case mrse'; intros mrs' e'; simpl.
  now rewrite (rne_equiv sx).
Qed.
Lemma br_equiv s m e : SpecFloat.binary_round prec emax s m e = binary_round prec emax mode_NE s m e.
Proof.
  unfold SpecFloat.binary_round, binary_round, shl_align_fexp. set (mez := shl_align _ _ _); case mez as [mz ez]. apply bra_equiv.
Qed.
Lemma bn_equiv m e sz : SpecFloat.binary_normalize prec emax m e sz = B2SF (binary_normalize prec emax Hp Hm mode_NE m e sz).
Proof. case m as [|p|p]; simpl; auto; rewrite B2SF_SF2B; apply br_equiv. Qed.
Lemma add_B (x y : binary_float prec emax) : SFadd prec emax (B2SF x) (B2SF y) = B2SF (Bplus mode_NE x y).
Proof.
  case x as [sx|sx| |sx mx ex Bx]; case y as [sy|sy| |sy my ey By]; [now (trivial || simpl; case Bool.eqb)..|].
  apply bn_equiv.
Qed.
Lemma sub_B (x y : binary_float prec emax) : SFsub prec emax (B2SF x) (B2SF y) = B2SF (Bminus mode_NE x y).
Proof.
  case x as [sx|sx| |sx mx ex Bx]; case y as [sy|sy| |sy my ey By]; [now (trivial || simpl; case Bool.eqb)..|].
  simpl. unfold Zminus. rewrite <- cond_Zopp_negb. apply bn_equiv.
Qed.
Lemma mul_B (x y : binary_float prec emax) : SFmul prec emax (B2SF x) (B2SF y) = B2SF (Bmult mode_NE x y).
Proof.
  case x as [sx|sx| |sx mx ex Bx]; case y as [sy|sy| |sy my ey By]; [now trivial..|]. simpl. rewrite B2SF_SF2B. apply bra_equiv.
Qed.
Lemma div_B (x y : binary_float prec emax) : SFdiv prec emax (B2SF x) (B2SF y) = B2SF (Bdiv mode_NE x y).
Proof.
  case x as [sx|sx| |sx mx ex Bx]; case y as [sy|sy| |sy my ey By]; [now (trivial || simpl; case Bool.eqb)..|].
  simpl. rewrite B2SF_SF2B. set (melz := SFdiv_core_binary _ _ _ _ _ _). case melz as [[mz ez] lz]. apply bra_equiv.
Qed.
Lemma sqrt_B (x : binary_float prec emax) : SFsqrt prec emax (B2SF x) = B2SF (Bsqrt mode_NE x).
Proof.
  case x as [sx|sx| |sx mx ex Bx]; [now (trivial || case sx)..|]. case sx; [reflexivity|]. simpl. rewrite B2SF_SF2B.
  set (melz := SFsqrt_core_binary _ _ _ _). case melz as [[mz ez] lz]. apply bra_equiv.
Qed.
End Equiv.

Local Notation big := (bpow radix2 1024).

Lemma fin_zero : fin f_zero 0.
Proof. exists (B754_zero false). auto. Qed.
Lemma fin_not_nan f r : fin f r -> not_nan f.
Proof. intros (b & <- & H & _). destruct b; try discriminate; discriminate. Qed.

Lemma fin_add x y a b : fin x a -> fin y b -> Rabs (rnd (a + b)) < big -> fin (f64_add x y) (rnd (a + b)).
Proof.
  intros (u & <- & Fu & <-) (v & <- & Fv & <-) H. unfold f64_add. change prec64 with 53%Z. change emax64 with 1024%Z.
  rewrite (add_B 53 1024 Hprec64 Hmax64). pose proof (Bplus_correct 53 1024 _ _ mode_NE u v Fu Fv) as C.
  rewrite Rlt_bool_true in C by exact H. destruct C as (C1 & C2 & _). eexists. split; [reflexivity|]. split; [exact C2|exact C1].
Qed.
Lemma fin_sub x y a b : fin x a -> fin y b -> Rabs (rnd (a - b)) < big -> fin (f64_sub x y) (rnd (a - b)).
Proof.
  intros (u & <- & Fu & <-) (v & <- & Fv & <-) H. unfold f64_sub. change prec64 with 53%Z. change emax64 with 1024%Z.
  rewrite (sub_B 53 1024 Hprec64 Hmax64). pose proof (Bminus_correct 53 1024 _ _ mode_NE u v Fu Fv) as C.
  rewrite Rlt_bool_true in C by exact H. destruct C as (C1 & C2 & _). eexists. split; [reflexivity|]. split; [exact C2|exact C1].
Qed.
Lemma fin_mul x y a b : fin x a -> fin y b -> Rabs (rnd (a * b)) < big -> fin (f64_mul x y) (rnd (a * b)).
Proof.
  intros (u & <- & Fu & <-) (v & <- & Fv & <-) H. unfold f64_mul. change prec64 with 53%Z. change emax64 with 1024%Z.
  rewrite (mul_B 53 1024 Hprec64 Hmax64). pose proof (Bmult_correct 53 1024 _ _ mode_NE u v) as C.
  rewrite Rlt_bool_true in C by exact H. destruct C as (C1 & C2 & _). eexists. split; [reflexivity|].
  rewrite C2, Fu, Fv. split; [reflexivity|exact C1].
Qed.
Lemma fin_sqrt x a : fin x a -> 0 <= a -> fin (f64_sqrt x) (rnd (sqrt a)).
Proof.
  intros (u & <- & Fu & <-) H. unfold f64_sqrt. change prec64 with 53%Z. change emax64 with 1024%Z.
  rewrite (sqrt_B 53 1024 Hprec64 Hmax64). pose proof (Bsqrt_correct 53 1024 _ _ mode_NE u) as (C1 & C2 & _).
  eexists. split; [reflexivity|]. split; [|exact C1]. rewrite C2. destruct u as [s|s| |s m e Hb]; try discriminate; auto.
  destruct s; auto. exfalso. simpl in H.
  assert (F2R (Float radix2 (Z.neg m) (e)) < 0) by (apply F2R_lt_0; reflexivity). lra.
Qed.
Lemma fin_div_not_nan x y a b : fin x a -> fin y b -> b <> 0 -> not_nan (f64_div x y).
Proof.
  intros (u & <- & Fu & <-) (v & <- & Fv & <-) H. unfold f64_div. change prec64 with 53%Z. change emax64 with 1024%Z.
  rewrite (div_B 53 1024 Hprec64 Hmax64). pose proof (Bdiv_correct 53 1024 _ _ mode_NE u v H) as C.
  destruct (Rlt_bool _ _).
  - destruct C as (_ & C & _). rewrite Fu in C. destruct (Bdiv mode_NE u v); try discriminate; intros D; discriminate D.
  - rewrite C. discriminate.
Qed.
Lemma fin_div x y a b : fin x a -> fin y b -> b <> 0 -> Rabs (rnd (a / b)) < big -> fin (f64_div x y) (rnd (a / b)).
Proof.
  intros (u & <- & Fu & <-) (v & <- & Fv & <-) H Hb. unfold f64_div. change prec64 with 53%Z. change emax64 with 1024%Z.
  rewrite (div_B 53 1024 Hprec64 Hmax64). pose proof (Bdiv_correct 53 1024 _ _ mode_NE u v H) as C.
  rewrite Rlt_bool_true in C by exact Hb. destruct C as (C1 & C2 & _). eexists. split; [reflexivity|].
  rewrite C2. split; [exact Fu|exact C1].
Qed.
Lemma fin_opp x a : fin x a -> fin (SFopp x) (- a).
Proof.
  intros (u & <- & Fu & <-). exists (Bopp u). split; [destruct u; reflexivity|].
  split; [rewrite is_finite_Bopp; auto|apply B2R_Bopp].
Qed.
Lemma fin_eq0 x a : fin x a -> (feq x f_zero = true <-> a = 0).
Proof.
  intros (u & <- & Fu & <-). destruct u as [s|s| |s m e H]; try discriminate; simpl.
  - split; auto.
  - split; [destruct s; discriminate|]. intros E. destruct s; simpl in E.
    + assert (F2R (Float radix2 (Z.neg m) (e)) < 0) by (apply F2R_lt_0; reflexivity). lra.
    + assert (0 < F2R (Float radix2 (Z.pos m) (e))) by (apply F2R_gt_0; reflexivity). lra.
Qed.
Lemma fin_compare x y a b : fin x a -> fin y b -> SFcompare x y = Some (Rcompare a b).
Proof.
  intros (u & <- & Fu & <-) (v & <- & Fv & <-). rewrite <- (Bcompare_correct 53 1024 u v Fu Fv). destruct u, v; reflexivity.
Qed.
Lemma fin_lt x y a b : fin x a -> fin y b -> (flt x y = true <-> a < b).
Proof.
  intros Hx Hy. unfold flt, SFltb. rewrite (fin_compare x y a b Hx Hy). destruct (Rcompare_spec a b); split; intros; auto; try discriminate; lra.
Qed.
Lemma fin_le x y a b : fin x a -> fin y b -> (fle x y = true <-> a <= b).
Proof.
  intros Hx Hy. unfold fle, SFleb. rewrite (fin_compare x y a b Hx Hy). destruct (Rcompare_spec a b); split; intros; auto; try discriminate; lra.
Qed.

(** *** bounds survive rounding *)
Lemma format_scaled k d : (Z.abs k <= 2 ^ 53)%Z -> (-1074 <= d)%Z -> generic_format radix2 fexp64 (IZR k * bpow radix2 d).
Proof.
  intros Hk Hd. change fexp64 with (FLT_exp (-1074) 53).
  assert (Z.abs k < 2 ^ 53 \/ Z.abs k = 2 ^ 53)%Z as [H|H] by lia.
  - apply generic_format_FLT. exists (Float radix2 (k) (d)); auto.
  - assert (E : (k = (if Z.ltb k 0 then -1 else 1) * 2 ^ 53)%Z) by (destruct (Z.ltb_spec k 0); lia).
    apply generic_format_FLT. exists (Float radix2 ((if Z.ltb k 0 then -1 else 1)) ((d + 53))).
    + unfold F2R. cbn [Fnum Fexp]. rewrite E at 1. rewrite mult_IZR, bpow_plus. change (IZR (2^53)) with (bpow radix2 53). ring.
    + cbn [Fnum]. destruct (Z.ltb k 0); reflexivity.
    + cbn [Fexp]. lia.
Qed.
Lemma rnd_bound r k d : (Z.abs k <= 2 ^ 53)%Z -> (-1074 <= d)%Z -> Rabs r <= IZR k * bpow radix2 d -> Rabs (rnd r) <= IZR k * bpow radix2 d.
Proof. intros Hk Hd H. apply abs_round_le_generic; auto with typeclass_instances. apply format_scaled; auto. Qed.
Lemma rnd_ge r k d : (Z.abs k <= 2 ^ 53)%Z -> (-1074 <= d)%Z -> IZR k * bpow radix2 d <= r -> IZR k * bpow radix2 d <= rnd r.
Proof. intros Hk Hd H. apply round_ge_generic; auto with typeclass_instances. apply format_scaled; auto. Qed.
Lemma rnd_abs_ge r k d : (Z.abs k <= 2 ^ 53)%Z -> (-1074 <= d)%Z -> IZR k * bpow radix2 d <= Rabs r -> IZR k * bpow radix2 d <= Rabs (rnd r).
Proof. intros Hk Hd H. apply abs_round_ge_generic; auto with typeclass_instances. apply format_scaled; auto. Qed.
Lemma rnd_nonneg r : 0 <= r -> 0 <= rnd r.
Proof. intros H. unfold rnd. rewrite <- (round_0 radix2 fexp64 ZnearestE). apply round_le; auto with typeclass_instances. Qed.
Lemma rnd_0 : rnd 0 = 0.
Proof. apply round_0. auto with typeclass_instances. Qed.
Lemma fin_min x a : fin x a -> 0 < a -> bpow radix2 (-1074) <= a.
Proof.
  intros (u & <- & Fu & <-) H. pose proof (generic_format_B2R 53 1024 u) as G.
  destruct u as [s|s| |s m e Hb]; try discriminate; [simpl in H; lra|].
  destruct (Rle_or_lt (bpow radix2 (-1074)) (B2R (B754_finite s m e Hb))) as [|C]; auto. exfalso.
  pose proof (abs_B2R_ge_emin 53 1024 (B754_finite s m e Hb)) as E. specialize (E eq_refl).
  rewrite Rabs_pos_eq in E by lra. unfold SpecFloat.emin in E. change (3 - 1024 - 53)%Z with (-1074)%Z in E. lra.
Qed.

(** *** float32 values in float64 *)
Lemma f32_value n : (exists m e s, f32_of_bits n = S754_finite s m e /\ (Z.pos m < 2 ^ 24)%Z /\ (-149 <= e <= 104)%Z) \/
  (exists s, f32_of_bits n = S754_zero s) \/ f32_of_bits n = S754_nan \/ (exists s, f32_of_bits n = S754_infinity s).
Proof.
  unfold f32_of_bits. set (z := Z.of_N n). set (e := ((z / 2 ^ 23) mod 2 ^ 8)%Z). set (m := (z mod 2 ^ 23)%Z).
  assert (He : (0 <= e < 256)%Z) by (apply Z.mod_pos_bound; lia). assert (Hm : (0 <= m < 2 ^ 23)%Z) by (apply Z.mod_pos_bound; lia).
  destruct (Z.eqb_spec e 255).
  - destruct (Z.eqb m 0); eauto 6.
  - destruct (Z.eqb_spec e 0).
    + destruct m as [|p|p] eqn:Em; eauto. left. exists p, (-149)%Z, (Z.testbit z 31). split; [reflexivity|]. lia.
    + destruct (m + 2 ^ 23)%Z as [|p|p] eqn:Em; eauto. left. exists p, (e - 150)%Z, (Z.testbit z 31). split; [reflexivity|]. lia.
Qed.

(** Signed value of a float32 in units of 2^-149. *)
Definition units (n : N) : Z :=
  match f32_of_bits n with
  | S754_finite s m e => (if s then Z.neg m else Z.pos m) * 2 ^ (e + 149)
  | _ => 0
  end%Z.
Lemma fin_f32 n : finite32 n -> fin (f64_of_f32 (f32_of_bits n)) (IZR (units n) * bpow radix2 (-149)) /\ (Z.abs (units n) <= 2 ^ 277)%Z.
Proof.
  intros [H1 H2]. unfold units. destruct (f32_value n) as [(m & e & s & -> & Hm & He)|[(s & ->)|[E|(s & E)]]]; try congruence.
  2: { split; [|cbn; lia]. rewrite Rmult_0_l. cbn. exists (B754_zero s). auto. }
  set (k := if s then Z.neg m else Z.pos m). assert (Hk : (Z.abs k < 2 ^ 24)%Z) by (unfold k; destruct s; lia).
  assert (V : IZR (k * 2 ^ (e + 149)) * bpow radix2 (-149) = IZR k * bpow radix2 e).
  { rewrite mult_IZR. change 2%Z with (radix_val radix2). rewrite (IZR_Zpower radix2) by lia. rewrite Rmult_assoc, <- bpow_plus. do 2 f_equal. lia. }
  rewrite V. split.
  - unfold f64_of_f32, f_round. fold k. change prec64 with 53%Z. change emax64 with 1024%Z. rewrite (bn_equiv 53 1024 Hprec64 Hmax64).
    pose proof (binary_normalize_correct 53 1024 _ _ mode_NE k e s) as C. cbv zeta in C.
    change (F2R (Float radix2 (k) (e))) with (IZR k * bpow radix2 e) in C.
    change (round radix2 fexp64 (round_mode mode_NE) (IZR k * bpow radix2 e)) with (rnd (IZR k * bpow radix2 e)) in C.
    assert (Er : rnd (IZR k * bpow radix2 e) = IZR k * bpow radix2 e).
    { apply round_generic; auto with typeclass_instances. apply format_scaled; lia. }
    rewrite Er in C. rewrite Rlt_bool_true in C.
    + destruct C as (C1 & C2 & _). eexists. split; [reflexivity|]. auto.
    + rewrite Rabs_mult, <- abs_IZR, (Rabs_pos_eq (bpow radix2 e)) by apply bpow_ge_0.
      apply Rlt_le_trans with (bpow radix2 24 * bpow radix2 e).
      * apply Rmult_lt_compat_r; [apply bpow_gt_0|]. apply (IZR_lt _ (2^24)); auto.
      * rewrite <- bpow_plus. apply bpow_le. lia.
  - rewrite Z.abs_mul, (Z.abs_eq (2 ^ _)) by (apply Z.pow_nonneg; lia).
    apply Z.le_trans with (2 ^ 24 * 2 ^ (e + 149))%Z; [apply Z.mul_le_mono_nonneg_r; [apply Z.pow_nonneg|]; lia|].
    rewrite <- Z.pow_add_r by lia. apply Z.pow_le_mono_r; lia.
Qed.
