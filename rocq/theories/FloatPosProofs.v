(** Sums of positive float64 numbers are positive. *)
From Coq Require Import ZArith List Bool Lia Reals Lra.
From Coq Require Import Floats.SpecFloat.
From Flocq Require Import Core.Core IEEE754.BinarySingleNaN.
From Verif Require Import Base Floats64 SimilaritySpec FloatReal AdvSearchSpec RangeProofs.
Open Scope R_scope.

(** A float64 above zero: finite, or plus infinity. *)
Definition positive (w : float) : Prop := (exists r, fin w r /\ 0 < r) \/ w = S754_infinity false.

Lemma positive_flt w : positive w -> flt f_zero w = true.
Proof. intros [[r [F H]]| ->]; [|reflexivity]. apply (fin_lt f_zero w 0 r fin_zero F). auto. Qed.

Lemma add_nonneg_pos x y a b : fin x a -> fin y b -> 0 <= a -> 0 < b -> positive (f64_add x y).
Proof.
  intros Hx Hy Ha Hb.
  assert (Pb : 0 < rnd (a + b)).
  { apply Rlt_le_trans with b; auto. destruct (fin_format y b Hy) as [G _]. unfold rnd. rewrite <- (round_generic radix2 fexp64 ZnearestE b) at 1 by exact G.
    apply round_le; auto with typeclass_instances. lra. }
  destruct (Rlt_or_le (Rabs (rnd (a + b))) (bpow radix2 1024)) as [S|S].
  - left. exists (rnd (a + b)). split; auto. apply fin_add; auto.
  - right. destruct Hx as (u & <- & Fu & <-). destruct Hy as (v & <- & Fv & <-). unfold f64_add. change prec64 with 53%Z. change emax64 with 1024%Z.
    rewrite (add_B 53 1024 Hprec64 Hmax64). pose proof (Bplus_correct 53 1024 _ _ mode_NE u v Fu Fv) as C.
    rewrite Rlt_bool_false in C by exact S. destruct C as [C1 C2]. rewrite C1. unfold binary_overflow. cbn [overflow_to_inf].
    replace (Bsign u) with false; [reflexivity|]. rewrite C2.
    destruct v as [|[]| |[] m e Hv]; try discriminate; auto; exfalso; cbn in Hb; try lra.
    pose proof (F2R_lt_0 radix2 (Float radix2 (Z.neg m) e) ltac:(reflexivity)) as L. unfold F2R in *. cbn in *. lra.
Qed.
Lemma positive_add a w : positive a -> positive w -> positive (f64_add a w).
Proof.
  intros [[r [F H]]| ->] [[s [F' H']]| ->].
  - eapply add_nonneg_pos; eauto. lra.
  - right. destruct F as (u & <- & Fu & _). destruct u as [|[]| |]; try discriminate; reflexivity.
  - right. destruct F' as (u & <- & Fu & _). destruct u as [|[]| |]; try discriminate; reflexivity.
  - right. reflexivity.
Qed.
Lemma positive_zero_add w : positive w -> positive (f64_add f_zero w).
Proof. intros [[s [F H]]| ->]; [eapply add_nonneg_pos; [apply fin_zero|exact F|lra|lra]|right; reflexivity]. Qed.
(** A valid float that compares above zero. *)
Lemma flt_positive w r : fin w r -> flt f_zero w = true -> positive w.
Proof. intros F H. left. exists r. split; auto. apply (fin_lt f_zero w 0 r fin_zero F) in H. auto. Qed.
