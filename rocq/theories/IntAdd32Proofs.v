(** Adding whole numbers below 2^24 as float32 is exact. *)
From Coq Require Import ZArith Reals Lia Lra.
From Flocq Require Import Core.Core IEEE754.BinarySingleNaN.
From Coq Require Import Floats.SpecFloat.
From Verif Require Import Floats64 FloatReal.
Open Scope R_scope.

Global Instance Hprec32 : FLX.Prec_gt_0 24 := eq_refl _.
Global Instance Hmax32 : Prec_lt_emax 24 128 := eq_refl _.
Definition fexp32 := fexp 24 128.
Lemma format32_int z : (Z.abs z <= 2 ^ 24)%Z -> generic_format radix2 fexp32 (IZR z).
Proof.
  intros H. change fexp32 with (FLT_exp (-149) 24). assert (Z.abs z < 2 ^ 24 \/ Z.abs z = 2 ^ 24)%Z as [L|L] by lia.
  - apply generic_format_FLT. exists (Float radix2 z 0); [unfold F2R; cbn; ring|exact L|cbn; lia].
  - assert (E : (z = (if Z.ltb z 0 then -1 else 1) * 2 ^ 24)%Z) by (destruct (Z.ltb_spec z 0); lia).
    apply generic_format_FLT. exists (Float radix2 (if Z.ltb z 0 then -1 else 1) 24).
    + unfold F2R. cbn [Fnum Fexp]. rewrite E at 1. rewrite mult_IZR. change (IZR (2^24)) with (bpow radix2 24). ring.
    + cbn [Fnum]. destruct (Z.ltb z 0); reflexivity.
    + cbn [Fexp]. lia.
Qed.
Lemma fin32_int z : (Z.abs z <= 2 ^ 24)%Z -> exists u : binary_float 24 128, B2SF u = f32_of_Z z /\ is_finite u = true /\ B2R u = IZR z.
Proof.
  intros Hz. unfold f32_of_Z. change prec32 with 24%Z. change emax32 with 128%Z. rewrite (bn_equiv 24 128 Hprec32 Hmax32).
  exists (BinarySingleNaN.binary_normalize 24 128 Hprec32 Hmax32 mode_NE z 0 false). split; [reflexivity|].
  pose proof (binary_normalize_correct 24 128 Hprec32 Hmax32 mode_NE z 0 false) as C. cbv zeta in C.
  assert (E : F2R (Float radix2 z 0) = IZR z) by (unfold F2R; cbn; ring). rewrite E in C.
  assert (Er : round radix2 (fexp 24 128) (round_mode mode_NE) (IZR z) = IZR z) by (apply round_generic; auto with typeclass_instances; apply format32_int; exact Hz).
  rewrite Er, Rlt_bool_true in C; [tauto|].
  apply Rle_lt_trans with (IZR (2 ^ 24)); [rewrite <- abs_IZR; apply IZR_le; exact Hz|].
  change (IZR (2 ^ 24)) with (bpow radix2 24). apply bpow_lt. lia.
Qed.
Lemma f32_add_int a b : (0 <= a)%Z -> (0 <= b)%Z -> (a + b <= 2 ^ 24)%Z -> f32_add (f32_of_Z a) (f32_of_Z b) = f32_of_Z (a + b).
Proof.
  intros A B H. destruct (Z.eq_dec (a + b) 0) as [Z|Z]; [assert (a = 0%Z) by lia; assert (b = 0%Z) by lia; subst; reflexivity|].
  destruct (fin32_int a) as (u & Eu & Fu & Ru); [lia|]. destruct (fin32_int b) as (v & Ev & Fv & Rv); [lia|]. destruct (fin32_int (a + b)) as (w & Ew & Fw & Rw); [lia|].
  rewrite <- Eu, <- Ev, <- Ew. unfold f32_add. change prec32 with 24%Z. change emax32 with 128%Z. rewrite (add_B 24 128 Hprec32 Hmax32).
  pose proof (Bplus_correct 24 128 Hprec32 Hmax32 mode_NE u v Fu Fv) as C. rewrite Ru, Rv in C.
  assert (Er : round radix2 (fexp 24 128) (round_mode mode_NE) (IZR a + IZR b) = IZR (a + b)) by (rewrite <- plus_IZR; apply round_generic; auto with typeclass_instances; apply format32_int; lia).
  rewrite Er, Rlt_bool_true in C; [|rewrite <- Rw; apply abs_B2R_lt_emax]. destruct C as (C1 & C2 & _).
  f_equal. apply B2R_inj; [| |congruence].
  - destruct (Bplus mode_NE u v); try discriminate; [cbn in C1; apply eq_IZR in C1; lia|reflexivity].
  - destruct w; try discriminate; [cbn in Rw; apply eq_IZR in Rw; lia|reflexivity].
Qed.
Lemma f32_not_zero z : (0 < z <= 2 ^ 24)%Z -> feq (f32_of_Z z) f_zero = false.
Proof.
  intros H. destruct (fin32_int z) as (u & E & F & R); [lia|]. rewrite <- E. destruct u as [s|s| |s m e Hb]; try discriminate; [|destruct s; reflexivity].
  cbn in R. exfalso. apply eq_IZR in R. lia.
Qed.
