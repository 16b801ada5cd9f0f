(** The score 1/(60+place) is strictly decreasing for up to 2^50 places. *)
From Coq Require Import ZArith List Bool Lia Reals Lra.
From Coq Require Import Floats.SpecFloat.
From Flocq Require Import Core.Core Relative IEEE754.BinarySingleNaN.
From Verif Require Import Base Floats64 SimilaritySpec FloatReal AdvSearchSpec RangeProofs GraphStatsProps IntAddProofs TextApiSpec.
Open Scope R_scope.

Lemma rnd_rel x : bpow radix2 (-1022) <= Rabs x -> Rabs (rnd x - x) <= / 2 * bpow radix2 (-52) * Rabs x.
Proof.
  intros H. unfold rnd. apply (relative_error_N_FLT radix2 (-1074) 53 ltac:(lia) (fun x => negb (Z.even x)) x). exact H.
Qed.
Lemma inv_bounds n : (1 <= n <= 2 ^ 51)%Z -> bpow radix2 (-51) <= 1 / IZR n <= 1.
Proof.
  intros H. assert (A : 1 <= IZR n) by (apply (IZR_le 1); lia).
  assert (B : IZR n <= bpow radix2 51) by (change (bpow radix2 51) with (IZR (2 ^ 51)); apply IZR_le; lia).
  split.
  - change (bpow radix2 (-51)) with (/ IZR (2 ^ 51)). unfold Rdiv. rewrite Rmult_1_l. apply Rinv_le; [lra|exact B].
  - unfold Rdiv. rewrite Rmult_1_l. rewrite <- Rinv_1. apply Rinv_le; lra.
Qed.
Lemma rnd_inv n : (1 <= n <= 2 ^ 51)%Z -> (1 / IZR n) * (1 - bpow radix2 (-53)) <= rnd (1 / IZR n) <= (1 / IZR n) * (1 + bpow radix2 (-53)).
Proof.
  intros H. pose proof (inv_bounds n H) as [A B].
  assert (Hp : 0 < 1 / IZR n) by (eapply Rlt_le_trans; [apply (bpow_gt_0 radix2 (-51))|exact A]).
  pose proof (rnd_rel (1 / IZR n)) as E. rewrite (Rabs_pos_eq (1 / IZR n)) in E by lra.
  specialize (E ltac:(eapply Rle_trans; [|exact A]; apply bpow_le; lia)).
  change (bpow radix2 (-52)) with (bpow radix2 (1 + -53)) in E. rewrite bpow_plus in E. change (bpow radix2 1) with 2 in E.
  apply Rabs_le_inv in E. lra.
Qed.
Lemma place_fin n : (60 + Z.of_nat n <= 2 ^ 51)%Z -> fin (place_score n) (rnd (1 / IZR (60 + Z.of_nat n))).
Proof.
  intros H. set (z := (60 + Z.of_nat n)%Z) in *. unfold place_score. fold z.
  assert (Z1 : (1 <= z <= 2 ^ 51)%Z) by lia. pose proof (rnd_inv z Z1) as [A B]. pose proof (inv_bounds z Z1) as [C D].
  assert (P : 0 < bpow radix2 (-51)) by apply bpow_gt_0. assert (P' : 0 < bpow radix2 (-53) < 1) by (split; [apply bpow_gt_0|apply (bpow_lt radix2 (-53) 0); lia]).
  apply fin_div; [apply (fin_of_Z 1); lia|apply fin_of_Z; lia| |].
  - apply not_0_IZR. lia.
  - assert (L : 0 <= rnd (1 / IZR z) <= 2) by (split; nra). rewrite Rabs_pos_eq by lra.
    apply Rle_lt_trans with 2; [lra|]. apply (bpow_lt radix2 1 1024). lia.
Qed.
Lemma place_pos n : (60 + Z.of_nat n <= 2 ^ 51)%Z -> 0 < rnd (1 / IZR (60 + Z.of_nat n)).
Proof.
  intros H. set (z := (60 + Z.of_nat n)%Z) in *. pose proof (rnd_inv z ltac:(lia)) as [A B]. pose proof (inv_bounds z ltac:(lia)) as [C D].
  assert (P : 0 < bpow radix2 (-51)) by apply bpow_gt_0. assert (P' : 0 < bpow radix2 (-53) < 1) by (split; [apply bpow_gt_0|apply (bpow_lt radix2 (-53) 0); lia]).
  nra.
Qed.
Lemma place_not_nan n : (60 + Z.of_nat n <= 2 ^ 51)%Z -> not_nan (place_score n).
Proof. intros H. exact (fin_not_nan _ _ (place_fin n H)). Qed.
Lemma place_less a b : (a < b)%nat -> (60 + Z.of_nat b <= 2 ^ 51)%Z -> flt (place_score b) (place_score a) = true.
Proof.
  intros L H. apply (fin_lt _ _ _ _ (place_fin b H) (place_fin a ltac:(lia))).
  set (y := (60 + Z.of_nat b)%Z) in *. set (x := (60 + Z.of_nat a)%Z) in *.
  assert (X : (1 <= x)%Z /\ (x + 1 <= y)%Z) by (unfold x, y; lia).
  pose proof (rnd_inv y ltac:(lia)) as [_ B]. pose proof (rnd_inv x ltac:(lia)) as [A _].
  eapply Rle_lt_trans; [exact B|]. eapply Rlt_le_trans; [|exact A].
  set (u := bpow radix2 (-53)). assert (U : u * IZR (2 ^ 53) = 1) by (unfold u; change (bpow radix2 (-53)) with (/ IZR (2 ^ 53)); field; apply not_0_IZR; lia).
  assert (U0 : 0 < u) by apply bpow_gt_0.
  assert (Rx : 1 <= IZR x) by (apply (IZR_le 1); lia). assert (Rxy : IZR x + 1 <= IZR y) by (rewrite <- plus_IZR; apply IZR_le; lia).
  assert (Ry : 2 * IZR y <= IZR (2 ^ 52)) by (rewrite <- mult_IZR; apply IZR_le; lia).
  assert (K : u * IZR (2 ^ 52) < 1). { assert (IZR (2 ^ 53) = 2 * IZR (2 ^ 52)) by (rewrite <- mult_IZR; reflexivity). nra. }
  apply (Rmult_lt_reg_r (IZR x * IZR y)); [nra|].
  replace (1 / IZR y * (1 + u) * (IZR x * IZR y)) with (IZR x * (1 + u)) by (field; lra).
  replace (1 / IZR x * (1 - u) * (IZR x * IZR y)) with (IZR y * (1 - u)) by (field; lra).
  nra.
Qed.
Lemma place_eq n : (60 + Z.of_nat (S n) <= 2 ^ 51)%Z -> f64_add f_zero (reciprocal (f64_of_Z 60) n) = place_score (S n).
Proof.
  intros H. unfold reciprocal. rewrite f64_add_int by lia. fold (place_score (S n)).
  apply (fin_same _ _ (rnd (1 / IZR (60 + Z.of_nat (S n))))); [|now apply place_fin|apply Rgt_not_eq; now apply place_pos].
  pose proof (place_fin _ H) as F. destruct (fin_format _ _ F) as [G B].
  assert (E : rnd (0 + rnd (1 / IZR (60 + Z.of_nat (S n)))) = rnd (1 / IZR (60 + Z.of_nat (S n)))) by (rewrite Rplus_0_l; unfold rnd at 1; apply round_generic; [apply valid_rnd_N|exact G]).
  pose proof (fin_add _ _ _ _ fin_zero F) as A. rewrite E in A. apply A. exact B.
Qed.
