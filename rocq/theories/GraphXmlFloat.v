(** Weights with six decimals survive GraphML. *)
From Coq Require Import String List NArith ZArith Bool Lia Reals Lra.
From Coq Require Import Floats.SpecFloat.
From Flocq Require Import Core.Core Relative IEEE754.BinarySingleNaN.
From Verif Require Import Base Floats64 SimilaritySpec FloatReal GeoFloatProofs StoreModel GraphModel GraphSpec GraphProps GraphExportSpec GraphXmlModel GraphXmlSpec GraphXmlProps.
Import ListNotations.
From Coq Require Import ZifyBool ZifyNat ZifyN.
Open Scope R_scope.
Local Notation big := (bpow radix2 1024).

Lemma fin_equal x y r : fin x r -> fin y r -> r <> 0 -> x = y.
Proof.
  intros (b & <- & F1 & V1) (c & <- & F2 & V2) H. f_equal. apply B2R_inj; [| |congruence].
  - destruct b; cbn in *; try discriminate; auto; congruence.
  - destruct c; cbn in *; try discriminate; auto; congruence.
Qed.
Lemma fin_finite x r : fin x r -> r <> 0 -> exists s m e, x = S754_finite s m e /\ r = F2R (Float radix2 (cond_Zopp s (Zpos m)) e).
Proof.
  intros (b & <- & F1 & V1) H. destruct b as [s|s| |s m e B]; cbn in *; try discriminate; [congruence|]. exists s, m, e. auto.
Qed.
Lemma div_any s p q : Rabs (rnd (IZR (cond_Zopp s (Zpos p)) / IZR (Zpos q))) < big ->
  fin (SFdiv 53 1024 (S754_finite s p 0) (S754_finite false q 0)) (rnd (IZR (cond_Zopp s (Zpos p)) / IZR (Zpos q))).
Proof.
  intros Hb. pose proof (Bdiv_correct_aux 53 1024 _ _ mode_NE s p 0 false q 0) as C. cbv zeta in C.
  assert (E : SFdiv 53 1024 (S754_finite s p 0) (S754_finite false q 0) = let '(mz, ez, lz) := SFdiv_core_binary 53 1024 (Zpos p) 0 (Zpos q) 0 in binary_round_aux 53 1024 mode_NE (xorb s false) mz ez lz).
  { cbn [SFdiv]. destruct (SFdiv_core_binary 53 1024 (Zpos p) 0 (Zpos q) 0) as [[mz ez] lz]. apply bra_equiv. }
  rewrite E. set (z := let '(mz, ez, lz) := SFdiv_core_binary 53 1024 (Zpos p) 0 (Zpos q) 0 in _) in *. destruct C as [V C].
  assert (X : F2R (Float radix2 (cond_Zopp s (Zpos p)) 0) / F2R (Float radix2 (cond_Zopp false (Zpos q)) 0) = IZR (cond_Zopp s (Zpos p)) / IZR (Zpos q)).
  { unfold F2R. cbn [Fnum Fexp cond_Zopp]. change (bpow radix2 0) with 1. now rewrite !Rmult_1_r. }
  rewrite X in C. change (round radix2 (SpecFloat.fexp 53 1024) (round_mode mode_NE)) with rnd in C. rewrite Rlt_bool_true in C by exact Hb.
  destruct C as (C1 & C2 & C3). exists (SF2B z V). split; [apply B2SF_SF2B|]. split; [now rewrite is_finite_SF2B|now rewrite B2R_SF2B].
Qed.
Lemma rnd_close a : bpow radix2 (-1022) <= Rabs a -> Rabs (rnd a - a) <= / 2 * bpow radix2 (-52) * Rabs a.
Proof. intros H. unfold rnd. exact (relative_error_N_FLT radix2 (-1074) 53 eq_refl (fun x => negb (Z.even x)) a H). Qed.

Lemma quotient_bounds k : (k <> 0)%Z -> (Z.abs k < 2 ^ 52)%Z ->
  let a := IZR k / IZR 1000000 in bpow radix2 (-1022) <= Rabs a /\ rnd a <> 0 /\ Rabs (rnd a) < big /\ Rabs (rnd a * IZR 1000000 - IZR k) < / 2.
Proof.
  intros Hk Hb a.
  assert (K1 : 1 <= Rabs (IZR k)) by (rewrite <- abs_IZR; apply IZR_le; lia).
  assert (K2 : Rabs (IZR k) < 4503599627370496) by (rewrite <- abs_IZR; change 4503599627370496 with (IZR (2 ^ 52)); apply IZR_lt; exact Hb).
  assert (A : Rabs a = Rabs (IZR k) / 1000000) by (unfold a, Rdiv; rewrite Rabs_mult, (Rabs_right (/ IZR 1000000)); [reflexivity|apply Rle_ge, Rlt_le, Rinv_0_lt_compat; lra]).
  assert (B : bpow radix2 (-1022) <= bpow radix2 (-20)) by (apply bpow_le; lia).
  assert (B20 : bpow radix2 (-20) = / 1048576) by reflexivity.
  assert (L : bpow radix2 (-20) <= Rabs a) by (rewrite A, B20; lra).
  split; [lra|]. pose proof (rnd_close a ltac:(lra)) as C. assert (B52 : bpow radix2 (-52) = / 4503599627370496) by reflexivity. rewrite B52 in C.
  assert (C' : Rabs (rnd a - a) <= Rabs a / 9007199254740992) by lra.
  assert (D : Rabs (rnd a) >= Rabs a / 2) by (pose proof (Rabs_triang_inv a (a - rnd a)) as T; replace (a - (a - rnd a)) with (rnd a) in T by ring; rewrite (Rabs_minus_sym a (rnd a)) in T; lra).
  split; [intros Z; rewrite Z, Rabs_R0 in D; lra|].
  assert (U : Rabs (rnd a) <= 2 * Rabs a) by (pose proof (Rabs_triang a (rnd a - a)) as T; replace (a + (rnd a - a)) with (rnd a) in T by ring; lra).
  split.
  - apply Rle_lt_trans with (2 * Rabs a); [exact U|]. apply Rlt_trans with (bpow radix2 53); [|apply bpow_lt; lia]. change (bpow radix2 53) with 9007199254740992. lra.
  - replace (rnd a * IZR 1000000 - IZR k) with ((rnd a - a) * IZR 1000000) by (unfold a; field). rewrite Rabs_mult, (Rabs_right (IZR 1000000)) by lra.
    apply Rle_lt_trans with (Rabs a / 9007199254740992 * 1000000); [apply Rmult_le_compat_r; lra|]. rewrite A. lra.
Qed.

(** The number nearest to [k] millionths. *)
Definition millionths (k : Z) : float := f64_div (f64_of_Z k) (f64_of_Z 1000000).
Lemma six_digits_real m e : nearest_integer (Z.pos m * 1000000 * 2 ^ Z.max 0 e) (2 ^ Z.max 0 (- e)) (six_digits m e).
Proof.
  unfold six_digits. destruct (0 <=? e)%Z eqn:E.
  - replace (Z.max 0 (- e))%Z with 0%Z by lia. replace (Z.max 0 e)%Z with e by lia. unfold nearest_integer. change (2 ^ 0)%Z with 1%Z. rewrite !Z.mul_1_r, Z.sub_diag. cbn. split; [lia|discriminate].
  - assert (D : (0 < 2 ^ (- e))%Z) by (apply Z.pow_pos_nonneg; lia).
    replace (Z.max 0 (- e))%Z with (- e)%Z by lia. replace (Z.max 0 e)%Z with 0%Z by lia. change (2 ^ 0)%Z with 1%Z. rewrite Z.mul_1_r. cbv zeta.
    set (n := (Z.pos m * 1000000)%Z) in *. set (d := (2 ^ (- e))%Z) in *. pose proof (Z.div_mod n d ltac:(lia)) as DM. pose proof (Z.mod_pos_bound n d D) as MB.
    set (q := (n / d)%Z) in *. set (r := (n mod d)%Z) in *.
    unfold nearest_integer. assert (X0 : (n - q * d = r)%Z) by lia. assert (X1 : (n - (q + 1) * d = r - d)%Z) by lia.
    destruct (2 * r <? d)%Z eqn:A1; [|destruct (d <? 2 * r)%Z eqn:A2; [|destruct (Z.even q) eqn:A3]]; rewrite ?X0, ?X1; split; try lia; auto.
    intros _. replace (q + 1)%Z with (Z.succ q) by lia. rewrite Z.even_succ, <- Z.negb_even, A3. reflexivity.
Qed.
Lemma fixed6_millionths k : (k <> 0)%Z -> (Z.abs k < 2 ^ 52)%Z -> fixed6 (millionths k) = millionths k.
Proof.
  intros Hk Hb. destruct (quotient_bounds k Hk Hb) as (Q1 & Q2 & Q3 & Q4). cbv zeta in *.
  assert (Fk : fin (f64_of_Z k) (IZR k)) by (apply fin_of_int; lia).
  assert (Fm : fin (f64_of_Z 1000000) (IZR 1000000)) by (apply fin_of_int; lia).
  pose proof (fin_div _ _ _ _ Fk Fm ltac:(lra) Q3) as Fw. fold (millionths k) in Fw.
  destruct (fin_finite _ _ Fw Q2) as (s & m & e & E & V). rewrite E. cbn [fixed6].
  assert (D : six_digits m e = Z.abs k /\ s = (k <? 0)%Z).
  { assert (Ms : (0 < 1000000)%R) by lra. assert (Vp : 0 < F2R (Float radix2 (Zpos m) e)) by (apply F2R_gt_0; reflexivity).
    assert (Vs : rnd (IZR k / IZR 1000000) = (if s then -1 else 1) * F2R (Float radix2 (Zpos m) e)).
    { rewrite V. destruct s; cbn [cond_Zopp]; [change (- Zpos m)%Z with (- (Zpos m))%Z; rewrite F2R_Zopp; ring|ring]. }
    assert (Sg : s = (k <? 0)%Z).
    { rewrite Vs in Q4. assert (Hk1 : (k <= -1 \/ 1 <= k)%Z) by lia. destruct s, (k <? 0)%Z eqn:Ek; auto; exfalso.
      - assert (1 <= IZR k) by (apply IZR_le; lia). rewrite Rabs_left1 in Q4; nra.
      - assert (IZR k <= -1) by (apply IZR_le; lia). rewrite Rabs_pos_eq in Q4; nra. }
    split; auto.
    pose proof (six_digits_real m e) as Nd. apply (nearest_unique (Z.pos m * 1000000 * 2 ^ Z.max 0 e) (2 ^ Z.max 0 (- e))); auto; [apply Z.pow_pos_nonneg; lia|].
    set (num := (Z.pos m * 1000000 * 2 ^ Z.max 0 e)%Z). set (den := (2 ^ Z.max 0 (- e))%Z). assert (Dp : (0 < den)%Z) by (apply Z.pow_pos_nonneg; lia).
    assert (X : (Z.abs (2 * (num - Z.abs k * den)) < den)%Z).
    { apply lt_IZR. rewrite abs_IZR, mult_IZR, minus_IZR, mult_IZR.
      assert (Hd : 0 < IZR den) by (apply IZR_lt; auto).
      assert (Hv : F2R (Float radix2 (Zpos m) e) * 1000000 * IZR den = IZR num).
      { unfold F2R. cbn [Fnum Fexp]. unfold num, den. rewrite !mult_IZR.
        assert (Hp : bpow radix2 e * IZR (2 ^ Z.max 0 (- e)) = IZR (2 ^ Z.max 0 e)).
        { change 2%Z with (radix_val radix2). rewrite !IZR_Zpower by lia. rewrite <- bpow_plus. f_equal. lia. }
        rewrite <- Hp. ring. }
      assert (Y : Rabs (F2R (Float radix2 (Zpos m) e) * 1000000 - IZR (Z.abs k)) < / 2).
      { rewrite Vs in Q4. rewrite abs_IZR. destruct (k <? 0)%Z eqn:Ek; rewrite Sg in Q4.
        - rewrite (Rabs_left (IZR k)) by (apply IZR_lt; lia). replace (F2R (Float radix2 (Zpos m) e) * 1000000 - - IZR k) with (- (-1 * F2R (Float radix2 (Zpos m) e) * 1000000 - IZR k)) by ring. rewrite Rabs_Ropp. exact Q4.
        - rewrite (Rabs_pos_eq (IZR k)) by (apply IZR_le; lia). rewrite Rmult_1_l in Q4. exact Q4. }
      rewrite <- Hv. replace (2 * (F2R (Float radix2 (Zpos m) e) * 1000000 * IZR den - IZR (Z.abs k) * IZR den)) with (2 * (F2R (Float radix2 (Zpos m) e) * 1000000 - IZR (Z.abs k)) * IZR den) by ring.
      rewrite !Rabs_mult, (Rabs_pos_eq (IZR den)) by lra. rewrite (Rabs_pos_eq 2) by lra. nra. }
    split; lia. }
  destruct D as [D1 D2]. rewrite D1. destruct (Z.abs k) as [|p|p] eqn:Ea; [lia| |lia].
  assert (Ec : cond_Zopp s (Zpos p) = k) by (rewrite D2; destruct (k <? 0)%Z eqn:Ek; cbn; lia).
  rewrite <- E. apply (fin_equal _ _ (rnd (IZR k / IZR 1000000))); auto. rewrite <- Ec at 1. apply div_any. rewrite Ec. exact Q3.
Qed.

(** An edge whose weight is the number nearest to some millionths has that weight after the
    round trip through GraphML. *)
Theorem graphml_weight_kept : forall k e e', (k <> 0)%Z -> (Z.abs k < 2 ^ 52)%Z -> ge_weight e = f64_div (f64_of_Z k) (f64_of_Z 1000000) ->
  edge_back_ml e e' -> ge_weight e' = ge_weight e.
Proof.
  intros k e e' Hk Hb W H.
  set (e1 := {| ge_id := ge_id e; ge_from := ge_from e; ge_to := ge_to e; ge_type := ge_type e; ge_weight := ge_weight e; ge_props := Some (props_or_empty (ge_props e)); ge_vec := [] |}).
  assert (H1 : edge_back_ml e e1).
  { unfold edge_back_ml, e1. cbn. do 6 (split; [reflexivity|]). exists (ge_weight e). split.
    - pose proof (six_decimals_fixed6 (ge_weight e)) as S6. rewrite W in *. fold (millionths k) in *. rewrite fixed6_millionths in S6 by auto. exact S6.
    - rewrite W. fold (millionths k). destruct (quotient_bounds k Hk Hb) as (Q1 & Q2 & Q3 & Q4). cbv zeta in *.
      assert (Fk : fin (f64_of_Z k) (IZR k)) by (apply fin_of_int; lia).
      assert (Fm : fin (f64_of_Z 1000000) (IZR 1000000)) by (apply fin_of_int; lia).
      pose proof (fin_div _ _ _ _ Fk Fm ltac:(lra) Q3) as Fw. fold (millionths k) in Fw.
      destruct (feq (millionths k) f_zero) eqn:Z; auto. apply (fin_eq0 _ _ Fw) in Z. contradiction. }
  rewrite (edge_ml_fun e e' e1 H H1). reflexivity.
Qed.
(** 0.1, which no finite binary fraction equals, is such a weight. *)
Example graphml_weight_kept_ex : exists e e', ge_weight e = f64_div (f64_of_Z 100000) (f64_of_Z 1000000) /\ edge_back_ml e e' /\ feq (ge_weight e') (f64_div (f64_of_Z 1) (f64_of_Z 10)) = true.
Proof.
  set (e := gedge_w "ab" "a" "b" "t" (f64_div (f64_of_Z 100000) (f64_of_Z 1000000))).
  exists e, (default_weight (ml_import_edge (fun _ => ""%string) (fun _ => None) (fun _ => None) (md_keys (export_graphml (fun s => s) (fun s => s) (fun l => l) (fun _ l => l) new_graph)) (ml_export_edge (fun s => s) (fun s => s) e))).
  split; [reflexivity|]. split; [apply edge_back_fields; auto; intros l k v H; discriminate H|]. vm_compute. reflexivity.
Qed.
Print Assumptions graphml_weight_kept.
