(** Adding whole numbers below 2^53 as float64 is exact. *)
From Coq Require Import ZArith Reals Lia Lra.
From Flocq Require Import Core.Core IEEE754.BinarySingleNaN.
From Coq Require Import Floats.SpecFloat.
From Verif Require Import Floats64 FloatReal GeoFloatProofs.
Open Scope R_scope.

Lemma fin_same x y a : fin x a -> fin y a -> a <> 0 -> x = y.
Proof.
  intros (u & <- & Fu & <-) (v & <- & Fv & E) N. f_equal. apply B2R_inj; auto.
  - destruct u; try discriminate; [cbn in N; congruence|reflexivity].
  - destruct v; try discriminate; [cbn in E; rewrite <- E in N; congruence|reflexivity].
Qed.
Lemma f64_add_int a b : (0 <= a)%Z -> (0 <= b)%Z -> (a + b <= 2 ^ 53)%Z -> f64_add (f64_of_Z a) (f64_of_Z b) = f64_of_Z (a + b).
Proof.
  intros A B H. destruct (Z.eq_dec (a + b) 0) as [Z|Z]; [assert (a = 0%Z) by lia; assert (b = 0%Z) by lia; subst; reflexivity|].
  assert (R : rnd (IZR a + IZR b) = IZR (a + b)).
  { rewrite <- plus_IZR. apply Rle_antisym; [apply rnd_le_int|apply rnd_ge_int]; try lia; lra. }
  assert (X : fin (f64_of_Z (a + b)) (IZR (a + b))) by (apply fin_of_int; lia).
  apply (fin_same _ _ (IZR (a + b))); auto.
  - rewrite <- R. apply fin_add; [apply fin_of_int; lia|apply fin_of_int; lia|]. rewrite R. destruct X as (u & _ & Fu & <-). apply abs_B2R_lt_emax.
  - intros E. apply eq_IZR in E. lia.
Qed.
Lemma compare_int a b : (Z.abs a <= 2 ^ 53)%Z -> (Z.abs b <= 2 ^ 53)%Z -> SFcompare (f64_of_Z a) (f64_of_Z b) = Some (Z.compare a b).
Proof. intros A B. rewrite (fin_compare _ _ (IZR a) (IZR b)); [|apply fin_of_int; exact A|apply fin_of_int; exact B]. f_equal. apply Rcompare_IZR. Qed.
