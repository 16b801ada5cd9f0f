From Coq Require Import List NArith ZArith QArith Qround Bool Lia Permutation Sorted ZifyBool ZifyNat ZifyN.
From Coq Require Import Lqa.
From Coq Require Import Floats.SpecFloat.
From Verif Require Import Base Floats64 QuantModel QuantSpec.
Import ListNotations.
Ltac Zify.zify_post_hook ::= Z.div_mod_to_equations.

(** ** Bits of a byte string *)
Lemma or_at_spec m : forall i bs, (i < length bs)%nat ->
  exists bs', or_at i m bs = Ok bs' /\ length bs' = length bs /\
    forall j, nth_error bs' j = if Nat.eqb j i then option_map (fun b => N.lor b m) (nth_error bs j) else nth_error bs j.
Proof.
  induction i as [|i IH]; intros [|b bs] H; cbn in H; try lia; cbn [or_at].
  - eexists; split; [reflexivity|]. split; [reflexivity|]. intros [|j]; reflexivity.
  - destruct (IH bs) as (bs' & E & L & G); [lia|]. rewrite E. cbn [bind].
    eexists; split; [reflexivity|]. split; [cbn; congruence|].
    intros [|j]; cbn; auto.
Qed.

Lemma testbit_shift1 k j : N.testbit (N.shiftl 1 k) j = N.eqb j k.
Proof.
  rewrite N.shiftl_1_l. destruct (N.eqb_spec j k).
  - subst. apply N.pow2_bits_true.
  - apply N.pow2_bits_false. auto.
Qed.

Lemma set_bit_spec bs off : (off < 8 * length bs)%nat ->
  exists bs', or_at (Nat.div off 8) (N.shiftl 1 (N.of_nat (Nat.modulo off 8))) bs = Ok bs' /\
    length bs' = length bs /\ forall o, getb bs' o = Nat.eqb o off || getb bs o.
Proof.
  intros H. destruct (or_at_spec (N.shiftl 1 (N.of_nat (Nat.modulo off 8))) (Nat.div off 8) bs) as (bs' & E & L & G).
  { lia. }
  exists bs'. split; auto. split; auto. intros o. unfold getb. rewrite G.
  destruct (Nat.eqb_spec (Nat.div o 8) (Nat.div off 8)) as [Ed|Ed].
  - destruct (nth_error bs (Nat.div o 8)) as [x|] eqn:Ex; cbn [option_map].
    + rewrite N.lor_spec, testbit_shift1.
      destruct (Nat.eqb_spec o off).
      * subst. rewrite N.eqb_refl. rewrite orb_true_r. reflexivity.
      * destruct (N.eqb_spec (N.of_nat (Nat.modulo o 8)) (N.of_nat (Nat.modulo off 8))); [lia|].
        rewrite orb_false_r. reflexivity.
    + apply nth_error_None in Ex. lia.
  - destruct (Nat.eqb_spec o off); [subst; lia|]. reflexivity.
Qed.

Lemma bool_eq_iff (a b : bool) : (a = true <-> b = true) -> a = b.
Proof. destruct a, b; intuition. Qed.

Lemma pack_bits_spec q : forall k b off bs, (off + k <= 8 * length bs)%nat ->
  exists bs', pack_bits k b q off bs = Ok (bs', (off + k)%nat) /\ length bs' = length bs /\
    forall o, getb bs' o = getb bs o || (Nat.leb off o && Nat.ltb o (off + k) && N.testbit q (b + N.of_nat (o - off))).
Proof.
  induction k as [|k IH]; intros b off bs H; cbn [pack_bits].
  - exists bs. rewrite Nat.add_0_r. split; auto. split; auto. intros o.
    destruct (Nat.leb_spec off o), (Nat.ltb_spec o off); cbn; try lia; rewrite orb_false_r; auto.
  - assert (exists bs1, (if N.testbit q b
            then or_at (Nat.div off 8) (N.shiftl 1 (N.of_nat (Nat.modulo off 8))) bs
            else Ok bs) = Ok bs1 /\ length bs1 = length bs /\ forall o, getb bs1 o = (Nat.eqb o off && N.testbit q b) || getb bs o) as (bs1 & E1 & L1 & G1).
    { destruct (N.testbit q b).
      - destruct (set_bit_spec bs off) as (bs1 & ? & ? & G); [lia|]. exists bs1. split; auto. split; auto.
        intros o. rewrite G, andb_true_r. reflexivity.
      - exists bs. split; auto. split; auto. intros o. rewrite andb_false_r. reflexivity. }
    rewrite E1. cbn [bind].
    destruct (IH (b + 1)%N (S off) bs1) as (bs' & E & L & G); [lia|].
    exists bs'. replace (off + S k)%nat with (S off + k)%nat by lia. split; auto. split; [congruence|].
    intros o. rewrite G, G1.
    destruct (Nat.eqb_spec o off) as [->|Hne]; cbn [andb].
    + replace (Nat.leb (S off) off) with false by (symmetry; apply Nat.leb_gt; lia). cbn [andb].
      rewrite orb_false_r, Nat.leb_refl, Nat.sub_diag, N.add_0_r. cbn [andb].
      replace (Nat.ltb off (S off + k)) with true by (symmetry; apply Nat.ltb_lt; lia).
      cbn [andb]. apply orb_comm.
    + cbn [orb]. f_equal.
      destruct (Nat.leb_spec (S off) o); destruct (Nat.leb_spec off o); try lia; cbn [andb]; auto.
      destruct (Nat.ltb_spec o (S off + k)); cbn [andb]; auto.
      f_equal. lia.
Qed.

Lemma pack_levels_spec n : (0 < n)%nat -> forall qs off bs, (off + n * length qs <= 8 * length bs)%nat ->
  exists bs', pack_levels n qs off bs = Ok bs' /\ length bs' = length bs /\
    forall o, getb bs' o = getb bs o ||
      (Nat.leb off o && match nth_error qs (Nat.div (o - off) n) with
                        | Some q => N.testbit q (N.of_nat (Nat.modulo (o - off) n))
                        | None => false end).
Proof.
  intros Hn. induction qs as [|q qs IH]; intros off bs H; cbn [pack_levels].
  - exists bs. split; auto. split; auto. intros o.
    destruct (Nat.div (o - off) n); cbn; rewrite andb_false_r, orb_false_r; auto.
  - cbn [length] in H.
    destruct (pack_bits_spec q n 0%N off bs) as (bs1 & E1 & L1 & G1); [nia|].
    rewrite E1. cbn [bind].
    destruct (IH (off + n)%nat bs1) as (bs' & E & L & G); [nia|].
    exists bs'. split; auto. split; [congruence|].
    intros o. rewrite G, G1. rewrite <- orb_assoc. f_equal.
    destruct (Nat.leb_spec off o); cbn [andb].
    + destruct (Nat.ltb_spec o (off + n)); cbn [andb].
      * rewrite (Nat.div_small (o - off) n) by lia. rewrite (Nat.mod_small (o - off) n) by lia. cbn [nth_error].
        replace (Nat.leb (off + n) o) with false by (symmetry; apply Nat.leb_gt; lia). cbn [andb].
        rewrite orb_false_r, N.add_0_l. reflexivity.
      * cbn [orb]. replace (Nat.leb (off + n) o) with true by (symmetry; apply Nat.leb_le; lia). cbn [andb].
        replace (o - off)%nat with ((o - (off + n)) + 1 * n)%nat by lia.
        rewrite Nat.div_add by lia. rewrite Nat.mod_add by lia.
        rewrite Nat.add_1_r. reflexivity.
    + destruct (Nat.leb_spec (off + n) o); [lia|]. reflexivity.
Qed.

Lemma getb_in bs o : (o < 8 * length bs)%nat -> exists x, nth_error bs (Nat.div o 8) = Some x /\ getb bs o = N.testbit x (N.of_nat (Nat.modulo o 8)).
Proof.
  intros H. unfold getb. destruct (nth_error bs (Nat.div o 8)) as [x|] eqn:E; eauto.
  apply nth_error_None in E. lia.
Qed.

Lemma unpack_bits_spec bs : forall k b acc off, (off + k <= 8 * length bs)%nat ->
  exists q, unpack_bits k b acc off bs = Ok (q, (off + k)%nat) /\
    forall j, N.testbit q j = N.testbit acc j || (N.leb b j && N.ltb j (b + N.of_nat k) && getb bs (off + N.to_nat (j - b))).
Proof.
  induction k as [|k IH]; intros b acc off H; cbn [unpack_bits].
  - exists acc. rewrite Nat.add_0_r. split; auto. intros j.
    destruct (N.leb_spec b j), (N.ltb_spec j (b + N.of_nat 0)); cbn; try lia; rewrite orb_false_r; auto.
  - destruct (getb_in bs off) as (x & Ex & Gx); [lia|]. rewrite Ex, <- Gx.
    set (acc' := if getb bs off then N.lor acc (N.shiftl 1 b) else acc).
    assert (Ha : forall j, N.testbit acc' j = N.testbit acc j || (N.eqb j b && getb bs off)).
    { intros j. unfold acc'. destruct (getb bs off).
      - rewrite N.lor_spec, testbit_shift1, andb_true_r. reflexivity.
      - rewrite andb_false_r, orb_false_r. reflexivity. }
    destruct (IH (b + 1)%N acc' (S off)) as (q & E & G); [lia|].
    exists q. replace (off + S k)%nat with (S off + k)%nat by lia. split; auto.
    intros j. rewrite G, Ha. rewrite <- orb_assoc. f_equal.
    destruct (N.eqb_spec j b) as [->|Hne]; cbn [andb].
    + replace (N.leb (b + 1) b) with false by (symmetry; apply N.leb_gt; lia). cbn [andb].
      rewrite orb_false_r, N.leb_refl, N.sub_diag. cbn [andb N.to_nat]. rewrite Nat.add_0_r.
      replace (N.ltb b (b + N.of_nat (S k))) with true by (symmetry; apply N.ltb_lt; lia). reflexivity.
    + cbn [orb].
      destruct (N.leb_spec (b + 1) j); destruct (N.leb_spec b j); try lia; cbn [andb]; auto.
      destruct (N.ltb_spec j (b + 1 + N.of_nat k)), (N.ltb_spec j (b + N.of_nat (S k))); try lia; cbn [andb]; auto.
      f_equal. lia.
Qed.

Lemma unpack_levels_spec n bs : forall dim off, (off + n * dim <= 8 * length bs)%nat ->
  exists qs, unpack_levels n dim off bs = Ok qs /\ length qs = dim /\
    forall i q, nth_error qs i = Some q ->
      forall j, N.testbit q j = N.ltb j (N.of_nat n) && getb bs (off + i * n + N.to_nat j).
Proof.
  induction dim as [|dim IH]; intros off H; cbn [unpack_levels].
  - exists []. repeat split; auto. intros [|i]; discriminate.
  - destruct (unpack_bits_spec bs n 0%N 0%N off) as (q & E & G); [nia|]. rewrite E. cbn [bind].
    destruct (IH (off + n)%nat) as (qs & E2 & L & G2); [nia|]. rewrite E2. cbn [bind].
    exists (q :: qs). split; auto. split; [cbn; auto|].
    intros [|i] q' Hq j; cbn in Hq.
    + injection Hq as <-. rewrite G. rewrite N.bits_0. cbn [orb]. rewrite N.sub_0_r.
      replace (N.leb 0 j) with true by (symmetry; apply N.leb_le; lia). cbn [andb].
      rewrite N.add_0_l. f_equal. f_equal. lia.
    + rewrite (G2 _ _ Hq). f_equal. f_equal. lia.
Qed.

Lemma getb_zeros k o : getb (repeat 0%N k) o = false.
Proof.
  unfold getb. destruct (nth_error (repeat 0%N k) (Nat.div o 8)) eqn:E; auto.
  apply nth_error_In, repeat_spec in E. subst. apply N.bits_0.
Qed.

(** Round trip of the packed levels. *)
Lemma pack_round_trip n qs : (0 < n)%nat ->
  exists bs, pack_levels n qs 0 (repeat 0%N (Nat.div (length qs * n + 7) 8)) = Ok bs /\
    length bs = Nat.div (length qs * n + 7) 8 /\
    unpack_levels n (length qs) 0 bs = Ok (map (fun q => N.modulo q (2 ^ N.of_nat n)) qs).
Proof.
  intros Hn.
  set (nb := Nat.div (length qs * n + 7) 8).
  assert (Hb : (n * length qs <= 8 * nb)%nat) by (unfold nb; lia).
  destruct (pack_levels_spec n Hn qs 0 (repeat 0%N nb)) as (bs & E & L & G).
  { rewrite repeat_length. lia. }
  rewrite repeat_length in L.
  exists bs. split; auto. split; auto.
  destruct (unpack_levels_spec n bs (length qs) 0) as (qs' & E2 & L2 & G2); [lia|].
  rewrite E2. f_equal.
  apply nth_ext with (d := 0%N) (d' := 0%N); [rewrite map_length; auto|].
  intros i Hi. rewrite L2 in Hi.
  destruct (nth_error qs i) as [q|] eqn:Eq; [|apply nth_error_None in Eq; lia].
  destruct (nth_error qs' i) as [q'|] eqn:Eq'; [|apply nth_error_None in Eq'; lia].
  rewrite (nth_error_nth _ _ _ Eq').
  assert (Em : nth_error (map (fun q => N.modulo q (2 ^ N.of_nat n)) qs) i = Some (N.modulo q (2 ^ N.of_nat n))).
  { rewrite nth_error_map, Eq. reflexivity. }
  rewrite (nth_error_nth _ _ _ Em).
  apply N.bits_inj. intros j. rewrite (G2 _ _ Eq' j).
  destruct (N.ltb_spec j (N.of_nat n)).
  - rewrite N.mod_pow2_bits_low by lia. cbn [andb].
    rewrite G, getb_zeros. cbn [orb Nat.leb andb]. rewrite Nat.sub_0_r, Nat.add_0_l.
    replace (i * n + N.to_nat j)%nat with (N.to_nat j + i * n)%nat by lia.
    rewrite Nat.div_add by lia. rewrite Nat.mod_add by lia.
    rewrite Nat.div_small by lia. rewrite Nat.mod_small by lia. cbn [Nat.add].
    rewrite Eq. rewrite Nnat.N2Nat.id. reflexivity.
  - rewrite N.mod_pow2_bits_high by lia. reflexivity.
Qed.

(** ** Scalar quantiser *)
Section SQ.
Variable A : arith.

Lemma levels_length mv los his vs : length los = length vs -> length his = length vs ->
  length (levels A mv los his vs) = length vs.
Proof.
  revert los his. induction vs as [|v vs IH]; intros [|lo los] [|hi his]; cbn; intros; try lia; auto.
Qed.

Lemma sq_round_trip (s : squant A) v :
  sq_trained A s = true -> length (sq_min A s) = sq_dim A s -> length (sq_max A s) = sq_dim A s ->
  (0 < sq_bits A s)%nat -> length v = sq_dim A s ->
  exists bs, sq_encode A s v = Ok bs /\
    length bs = Nat.div (sq_dim A s * sq_bits A s + 7) 8 /\
    sq_decode A s bs = Ok (dequants A (max_val A s) (sq_min A s) (sq_max A s)
       (map (fun q => N.modulo q (2 ^ N.of_nat (sq_bits A s)))
            (levels A (max_val A s) (sq_min A s) (sq_max A s) v))).
Proof.
  intros Ht Hm Hx Hb Hv. unfold sq_encode, sq_decode. rewrite Ht, Hv, Nat.eqb_refl. cbn [negb].
  set (L := levels A (max_val A s) (sq_min A s) (sq_max A s) v).
  assert (HL : length L = sq_dim A s) by (unfold L; rewrite levels_length; lia).
  destruct (pack_round_trip (sq_bits A s) L Hb) as (bs & E & Ln & U). rewrite HL in *.
  exists bs. split; auto. split; auto. rewrite U. reflexivity.
Qed.

Lemma zip_with_length f xs ys : length xs = length ys -> length (zip_with A f xs ys) = length ys.
Proof. revert ys. induction xs as [|x xs IH]; intros [|y ys]; cbn; intros; try lia; auto. Qed.

Lemma train_loop_inv dim vs : forall mn mx r,
  train_loop A dim vs mn mx = Ok r -> Forall (fun v => length v = dim) vs.
Proof.
  induction vs as [|v vs IH]; cbn; intros mn mx r H; [constructor|].
  destruct (Nat.eqb_spec (length v) dim); cbn in H; [|discriminate].
  constructor; eauto.
Qed.

Lemma train_loop_length dim vs : forall mn mx mn' mx',
  length mn = dim -> length mx = dim ->
  train_loop A dim vs mn mx = Ok (mn', mx') -> length mn' = dim /\ length mx' = dim.
Proof.
  induction vs as [|v vs IH]; cbn; intros mn mx mn' mx' Hn Hx H.
  - injection H as <- <-; auto.
  - destruct (Nat.eqb_spec (length v) dim); cbn in H; [|discriminate].
    apply IH in H; auto; rewrite zip_with_length; lia.
Qed.

Lemma sq_train_lengths s vs s' : sq_train A s vs = Ok s' ->
  sq_dim A s' = sq_dim A s /\ sq_bits A s' = sq_bits A s /\ sq_trained A s' = true /\
  length (sq_min A s') = sq_dim A s /\ length (sq_max A s') = sq_dim A s /\
  Forall (fun v => length v = sq_dim A s) vs.
Proof.
  unfold sq_train. destruct vs as [|v0 vs]; [discriminate|].
  destruct (Nat.ltb_spec (length v0) (sq_dim A s)); [discriminate|].
  destruct (train_loop A (sq_dim A s) (v0 :: vs) (firstn (sq_dim A s) v0) (firstn (sq_dim A s) v0)) as [[mn mx]|e|] eqn:E;
    cbn [bind]; try discriminate.
  intros [= <-]. cbn.
  pose proof (train_loop_inv _ _ _ _ _ E) as HF.
  apply train_loop_length in E as [E1 E2]; try (rewrite firstn_length; lia).
  repeat split; auto. rewrite zip_with_length; lia.
Qed.
End SQ.

(** ** Exact arithmetic *)
Local Open Scope Q_scope.

Lemma a_lt_Q x y : a_lt Qarith x y = true <-> x < y.
Proof.
  cbn. rewrite negb_true_iff. split.
  - intros H. apply Qnot_le_lt. intros Hle. apply Qle_bool_iff in Hle. congruence.
  - intros H. destruct (Qle_bool y x) eqn:E; auto. apply Qle_bool_iff in E. exfalso. lra.
Qed.
Lemma a_lt_Q_false x y : a_lt Qarith x y = false <-> y <= x.
Proof. cbn. rewrite negb_false_iff. apply Qle_bool_iff. Qed.

Lemma normalized_Q lo hi v : lo < hi ->
  let x := (v - lo) / (hi - lo) in
  let y := if a_lt Qarith x (a_ofN Qarith 0) then a_ofN Qarith 0 else if a_lt Qarith (a_ofN Qarith 1) x then a_ofN Qarith 1 else x in
  0 <= y <= 1 /\ y * (hi - lo) + lo == clampQ lo hi v.
Proof.
  intros H x y.
  assert (Hd : 0 < hi - lo) by lra.
  assert (Hx : x * (hi - lo) == v - lo).
  { unfold x. field. lra. }
  unfold y. cbn [a_ofN Qarith]. change (inject_Z (Z.of_N 0)) with 0. change (inject_Z (Z.of_N 1)) with 1.
  unfold clampQ.
  destruct (a_lt Qarith x 0) eqn:E.
  - apply a_lt_Q in E. split; [lra|].
    assert (v <= lo) by nra.
    destruct (Qle_bool v lo) eqn:E2; [ring|]. exfalso. apply Qle_bool_iff in H0. congruence.
  - apply a_lt_Q_false in E.
    destruct (a_lt Qarith 1 x) eqn:E1.
    + apply a_lt_Q in E1. split; [lra|].
      assert (hi < v) by nra.
      destruct (Qle_bool v lo) eqn:E2. { apply Qle_bool_iff in E2. exfalso; lra. }
      destruct (Qle_bool hi v) eqn:E3; [ring|]. exfalso.
      assert (hi <= v) by lra. apply Qle_bool_iff in H1. congruence.
    + apply a_lt_Q_false in E1. split; [lra|].
      assert (lo <= v) by nra. assert (v <= hi) by nra.
      destruct (Qle_bool v lo) eqn:E2. { apply Qle_bool_iff in E2. rewrite Hx. lra. }
      destruct (Qle_bool hi v) eqn:E3. { apply Qle_bool_iff in E3. rewrite Hx. lra. }
      rewrite Hx. ring.
Qed.

Lemma floor_bounds (x : Q) : 0 <= x ->
  inject_Z (Z.of_N (Z.to_N (Qfloor x))) <= x /\ x < inject_Z (Z.of_N (Z.to_N (Qfloor x))) + 1.
Proof.
  intros H.
  assert (0 <= Qfloor x)%Z. { rewrite <- (Qfloor_Z 0). apply Qfloor_resp_le. exact H. }
  rewrite Z2N.id by auto. split; [apply Qfloor_le|].
  pose proof (Qlt_floor x) as Hl. rewrite inject_Z_plus in Hl. exact Hl.
Qed.

Lemma level_Q n lo hi v : lo < hi -> (0 < n)%N ->
  let mv := a_ofN Qarith (2 ^ n - 1) in
  let q := level Qarith mv lo hi v in
  (q <= 2 ^ n - 1)%N /\
  dequant Qarith mv lo hi q <= clampQ lo hi v /\
  clampQ lo hi v < dequant Qarith mv lo hi q + (hi - lo) / mv.
Proof.
  intros H Hn mv q.
  pose proof (normalized_Q lo hi v H) as [[Hy0 Hy1] Hc]. unfold level in q. cbn [a_div a_sub Qarith] in q.
  set (y := if a_lt Qarith ((v - lo) / (hi - lo)) (a_ofN Qarith 0) then a_ofN Qarith 0
            else if a_lt Qarith (a_ofN Qarith 1) ((v - lo) / (hi - lo)) then a_ofN Qarith 1
                 else (v - lo) / (hi - lo)) in *.
  assert (Hp : (2 <= 2 ^ n)%N).
  { replace n with (N.succ (n - 1)) by lia. rewrite N.pow_succ_r'. 
    assert (1 <= 2 ^ (n - 1))%N by (apply N.neq_0_lt_0 in Hn; pose proof (N.pow_nonzero 2 (n - 1)); lia). lia. }
  assert (Hmv : 1 <= mv).
  { unfold mv. cbn. change 1 with (inject_Z 1). rewrite <- Zle_Qle. lia. }
  assert (Hyq : q = Z.to_N (Qfloor (y * mv))) by reflexivity.
  assert (Hnn : 0 <= y * mv) by nra.
  destruct (floor_bounds _ Hnn) as [F1 F2]. rewrite <- Hyq in F1, F2.
  split; [|split].
  - assert (inject_Z (Z.of_N q) <= inject_Z (Z.of_N (2 ^ n - 1))).
    { apply Qle_trans with (y * mv); auto. unfold mv at 1. cbn [a_ofN Qarith].
      assert (0 <= mv) by lra. unfold mv in *. cbn [a_ofN Qarith] in *. nra. }
    rewrite <- Zle_Qle in H0. lia.
  - unfold dequant. cbn [a_add a_mul a_div a_sub a_ofN Qarith]. rewrite <- Hc.
    assert (inject_Z (Z.of_N q) / mv <= y). { apply Qle_shift_div_r; lra. }
    assert (0 < hi - lo) by lra. fold mv. nra.
  - unfold dequant. cbn [a_add a_mul a_div a_sub a_ofN Qarith]. rewrite <- Hc.
    assert (Hl : y < (inject_Z (Z.of_N q) + 1) / mv). { apply Qlt_shift_div_l; lra. }
    assert (0 < hi - lo) by lra.
    assert (E : inject_Z (Z.of_N q) / mv * (hi - lo) + lo + (hi - lo) / mv == (inject_Z (Z.of_N q) + 1) / mv * (hi - lo) + lo).
    { field. lra. }
    fold mv. rewrite E. nra.
Qed.

(** Ranges learnt by training. *)
Definition in_rangeQ (x lo hi : Q) : Prop := lo <= x /\ x <= hi.

Lemma min_step_Q m v : min_step Qarith m v <= m /\ min_step Qarith m v <= v.
Proof.
  unfold min_step. destruct (a_lt Qarith v m) eqn:E.
  - apply a_lt_Q in E. split; [lra|apply Qle_refl].
  - apply a_lt_Q_false in E. split; [apply Qle_refl|exact E].
Qed.
Lemma max_step_Q m v : m <= max_step Qarith m v /\ v <= max_step Qarith m v.
Proof.
  unfold max_step. destruct (a_lt Qarith m v) eqn:E.
  - apply a_lt_Q in E. split; [lra|apply Qle_refl].
  - apply a_lt_Q_false in E. split; [apply Qle_refl|exact E].
Qed.

Lemma zip_le_min mn : forall v, length mn = length v ->
  Forall2 Qle (zip_with Qarith (min_step Qarith) mn v) mn /\ Forall2 Qle (zip_with Qarith (min_step Qarith) mn v) v.
Proof.
  induction mn as [|m mn IH]; intros [|x v] H; cbn in *; try lia.
  - split; constructor.
  - destruct (IH v) as [I1 I2]; [lia|]. destruct (min_step_Q m x). split; constructor; auto.
Qed.
Lemma zip_le_max mx : forall v, length mx = length v ->
  Forall2 Qle mx (zip_with Qarith (max_step Qarith) mx v) /\ Forall2 Qle v (zip_with Qarith (max_step Qarith) mx v).
Proof.
  induction mx as [|m mx IH]; intros [|x v] H; cbn in *; try lia.
  - split; constructor.
  - destruct (IH v) as [I1 I2]; [lia|]. destruct (max_step_Q m x). split; constructor; auto.
Qed.
Lemma Forall2_Qle_trans a b c : Forall2 Qle a b -> Forall2 Qle b c -> Forall2 Qle a c.
Proof.
  intros H. revert c. induction H; intros c Hc; inversion Hc; subst; constructor; auto.
  eapply Qle_trans; eauto.
Qed.

Lemma Forall2_Qle_refl a : Forall2 Qle a a.
Proof. induction a; constructor; auto. apply Qle_refl. Qed.

Lemma train_loop_bounds dim vs : forall mn mx mn' mx',
  length mn = dim -> length mx = dim ->
  train_loop Qarith dim vs mn mx = Ok (mn', mx') ->
  Forall2 Qle mn' mn /\ Forall2 Qle mx mx' /\ Forall (fun v => Forall2 Qle mn' v /\ Forall2 Qle v mx') vs.
Proof.
  induction vs as [|v vs IH]; cbn [train_loop]; intros mn mx mn' mx' Hn Hx H.
  - injection H as <- <-. auto using Forall2_Qle_refl.
  - destruct (Nat.eqb_spec (length v) dim) as [Hv|]; cbn [negb] in H; [|discriminate].
    apply IH in H as (H1 & H2 & H3); try (rewrite zip_with_length; congruence).
    destruct (zip_le_min mn v) as [M1 M2]; [cbn in *; congruence|].
    destruct (zip_le_max mx v) as [X1 X2]; [cbn in *; congruence|].
    split; [|split].
    + eapply Forall2_Qle_trans; eauto.
    + eapply Forall2_Qle_trans; eauto.
    + constructor; auto. split; eapply Forall2_Qle_trans; eauto.
Qed.

Lemma bump_max mn mx : Forall2 Qle mn mx ->
  let mx' := zip_with Qarith (fun hi lo => if a_eq Qarith hi lo then a_add Qarith hi (a_eps Qarith) else hi) mx mn in
  Forall2 Qlt mn mx' /\ Forall2 Qle mx mx'.
Proof.
  induction 1 as [|lo hi mn mx Hle HF IH]; cbn; [split; constructor|].
  destruct IH as [I1 I2].
  destruct (Qeq_bool hi lo) eqn:E.
  - apply Qeq_bool_iff in E. split; constructor; auto; lra.
  - assert (~ hi == lo) by (intros E2; apply Qeq_bool_iff in E2; congruence).
    split; constructor; auto; try apply Qle_refl. apply Qle_lteq in Hle as [|]; auto. symmetry in H0. contradiction.
Qed.

Lemma sq_train_Q s vs s' : sq_train Qarith s vs = Ok s' ->
  Forall2 Qlt (sq_min _ s') (sq_max _ s') /\
  Forall (fun v => Forall2 Qle (sq_min _ s') v /\ Forall2 Qle v (sq_max _ s')) vs.
Proof.
  unfold sq_train. destruct vs as [|v0 vs]; [discriminate|].
  destruct (Nat.ltb_spec (length v0) (sq_dim Qarith s)) as [|Hge]; [discriminate|].
  destruct (train_loop Qarith (sq_dim Qarith s) (v0 :: vs) (firstn (sq_dim Qarith s) v0) (firstn (sq_dim Qarith s) v0)) as [[mn mx]|e|] eqn:E;
    cbn [bind]; try discriminate.
  intros [= <-]. cbn [sq_min sq_max].
  apply train_loop_bounds in E as (E1 & E2 & E3); try (rewrite firstn_length; lia).
  assert (Hmm : Forall2 Qle mn mx).
  { inversion E3; subst. destruct H1. eapply Forall2_Qle_trans; eauto. }
  destruct (bump_max _ _ Hmm) as [B1 B2]. split; auto.
  eapply Forall_impl; [|exact E3]. intros v [V1 V2]. split; auto. eapply Forall2_Qle_trans; eauto.
Qed.

Lemma dequants_levels_Q n : (0 < n)%N -> forall los his vs,
  Forall2 Qlt los his -> length vs = length los ->
  let mv := a_ofN Qarith (2 ^ n - 1) in
  let qs := levels Qarith mv los his vs in
  map (fun q => N.modulo q (2 ^ n)) qs = qs /\
  Forall4 (fun lo hi v w => w <= clampQ lo hi v /\ clampQ lo hi v < w + (hi - lo) / mv)
          los his vs (dequants Qarith mv los his qs).
Proof.
  intros Hn los his vs HF. revert vs. induction HF as [|lo hi los his Hlt HF IH]; intros [|v vs] Hv; cbn in Hv; try lia.
  - cbn. split; auto. constructor.
  - destruct (IH vs) as [I1 I2]; [cbn in *; lia|]. intros mv qs.
    destruct (level_Q n lo hi v Hlt Hn) as (L1 & L2 & L3).
    unfold qs. cbn [levels map dequants]. split.
    + f_equal; auto. apply N.mod_small. fold mv in L1.
      assert (0 < 2 ^ n)%N by (apply N.neq_0_lt_0, N.pow_nonzero; lia). lia.
    + constructor; auto.
Qed.

Lemma sq_error_Q dim bits vs v s0 s : 
  sq_new Qarith dim bits = Ok s0 -> sq_train Qarith s0 vs = Ok s -> length v = dim ->
  exists bs w, sq_encode Qarith s v = Ok bs /\ sq_decode Qarith s bs = Ok w /\
    Forall4 (fun lo hi x y => y <= clampQ lo hi x /\ clampQ lo hi x < y + (hi - lo) / inject_Z (2 ^ bits - 1))
            (sq_min _ s) (sq_max _ s) v w.
Proof.
  unfold sq_new. destruct ((bits <? 1)%Z || (8 <? bits)%Z) eqn:Eb; [discriminate|].
  intros [= <-] Ht Hv.
  apply orb_false_iff in Eb as [Eb1 Eb2]. apply Z.ltb_ge in Eb1, Eb2.
  pose proof (sq_train_lengths _ _ _ _ Ht) as (D1 & D2 & D3 & D4 & D5 & _). cbn in D1, D2, D4, D5.
  pose proof (sq_train_Q _ _ _ Ht) as [R1 R2].
  destruct (sq_round_trip Qarith s v) as (bs & E1 & E2 & E3); try (cbn in *; lia); auto; try congruence.
  exists bs. rewrite E3. eexists. split; auto. split; [reflexivity|].
  set (n := N.of_nat (sq_bits Qarith s)).
  assert (Hn : (0 < n)%N) by (unfold n; lia).
  destruct (dequants_levels_Q n Hn _ _ v R1) as [Q1 Q2]; [lia|].
  unfold max_val. fold n. rewrite Q1.
  replace (inject_Z (2 ^ bits - 1)) with (a_ofN Qarith (2 ^ n - 1)); auto.
  cbn. f_equal. rewrite N2Z.inj_sub by (assert (2 ^ n <> 0)%N by (apply N.pow_nonzero; lia); lia).
  rewrite N2Z.inj_pow. unfold n. rewrite D2. 
  replace (Z.of_N (N.of_nat (Z.to_nat bits))) with bits by lia. reflexivity.
Qed.

(** ** Binary quantiser *)
Local Close Scope Q_scope.

Lemma bq_loop_spec thr : forall v d bs, length v = length thr -> (d + length thr <= 8 * length bs)%nat ->
  exists bs', bq_loop thr v d bs = Ok bs' /\ length bs' = length bs /\
    forall o, getb bs' o = getb bs o ||
      (Nat.leb d o && match nth_error v (o - d), nth_error thr (o - d) with
                      | Some x, Some t => fgt x t
                      | _, _ => false end).
Proof.
  induction thr as [|t thr IH]; intros [|x v] d bs Hv H; cbn in Hv; try lia; cbn [bq_loop].
  - exists bs. split; auto. split; auto. intros o. destruct (o - d)%nat; cbn; rewrite andb_false_r, orb_false_r; auto.
  - cbn [length] in H.
    assert (exists bs1, (if fgt x t then or_at (Nat.div d 8) (N.shiftl 1 (N.of_nat (Nat.modulo d 8))) bs else Ok bs) = Ok bs1
            /\ length bs1 = length bs /\ forall o, getb bs1 o = (Nat.eqb o d && fgt x t) || getb bs o) as (bs1 & E1 & L1 & G1).
    { destruct (fgt x t).
      - destruct (set_bit_spec bs d) as (bs1 & ? & ? & G); [lia|]. exists bs1. split; auto. split; auto.
        intros o. rewrite G, andb_true_r. reflexivity.
      - exists bs. split; auto. split; auto. intros o. rewrite andb_false_r. reflexivity. }
    rewrite E1. cbn [bind].
    destruct (IH v (S d) bs1) as (bs' & E & L & G); [lia|lia|].
    exists bs'. split; auto. split; [congruence|]. intros o. rewrite G, G1.
    destruct (Nat.eqb_spec o d) as [->|Hne]; cbn [andb].
    + replace (Nat.leb (S d) d) with false by (symmetry; apply Nat.leb_gt; lia). cbn [andb].
      rewrite orb_false_r, Nat.leb_refl, Nat.sub_diag. cbn [andb nth_error]. apply orb_comm.
    + cbn [orb]. f_equal.
      destruct (Nat.leb_spec (S d) o); destruct (Nat.leb_spec d o); try lia; cbn [andb]; auto.
      replace (o - d)%nat with (S (o - S d)) by lia. reflexivity.
Qed.

Lemma bq_encode_spec s v : bq_trained s = true -> length (bq_thr s) = bq_dim s -> length v = bq_dim s ->
  exists bs, bq_encode s v = Ok bs /\ length bs = Nat.div (bq_dim s + 7) 8 /\
    forall d, getb bs d = match nth_error v d, nth_error (bq_thr s) d with
                          | Some x, Some t => fgt x t | _, _ => false end.
Proof.
  intros Ht Hl Hv. unfold bq_encode. rewrite Ht, Hv, Nat.eqb_refl. cbn [negb].
  destruct (bq_loop_spec (bq_thr s) v 0 (repeat 0%N (Nat.div (bq_dim s + 7) 8))) as (bs & E & L & G).
  { lia. } { rewrite repeat_length. lia. }
  rewrite repeat_length in L. exists bs. split; auto. split; auto.
  intros d. rewrite G, getb_zeros, Nat.sub_0_r. reflexivity.
Qed.

Lemma bq_decode_spec s bs : bq_trained s = true -> length (bq_thr s) = bq_dim s ->
  (length bs <> Nat.div (bq_dim s + 7) 8 -> bq_decode s bs = Err EOther) /\
  (length bs = Nat.div (bq_dim s + 7) 8 ->
   exists v, bq_decode s bs = Ok v /\ length v = bq_dim s /\
     forall d t, nth_error (bq_thr s) d = Some t ->
       nth_error v d = Some (if getb bs d then f32_add t f32_half else f32_sub t f32_half)).
Proof.
  intros T L. unfold bq_decode. rewrite T. cbn [negb]. split; intros H.
  - destruct (Nat.eqb_spec (length bs) (Nat.div (bq_dim s + 7) 8)); [congruence|reflexivity].
  - rewrite (proj2 (Nat.eqb_eq _ _) H). cbn [negb]. eexists. split; [reflexivity|]. split.
    + rewrite map_length, combine_length, seq_length. lia.
    + intros d t Ht. assert (Hd : (d < bq_dim s)%nat) by (rewrite <- L; apply nth_error_Some; congruence).
      assert (Hc : nth_error (combine (seq 0 (bq_dim s)) (bq_thr s)) d = Some (d, t)).
      { clear -Ht Hd. revert Ht Hd. generalize (bq_thr s), (bq_dim s). intros l n. revert d l.
        assert (G : forall n d l k, nth_error l d = Some t -> (d < n)%nat -> nth_error (combine (seq k n) l) d = Some ((k + d)%nat, t)).
        { clear. induction n as [|n IH]; intros d l k H Hd; [lia|]. destruct l as [|x l]; [destruct d; discriminate|]. cbn [seq combine].
          destruct d as [|d]; cbn in *; [injection H as ->; rewrite Nat.add_0_r; auto|]. rewrite (IH d l (S k)); auto; [|lia]. f_equal. f_equal. lia. }
        intros d l Ht Hd. rewrite (G n d l 0%nat); auto. }
      rewrite (map_nth_error _ _ _ Hc). unfold getb. destruct (nth_error bs (Nat.div d 8)) eqn:E; auto.
      exfalso. apply nth_error_None in E. rewrite H in E. assert (Nat.div d 8 < Nat.div (bq_dim s + 7) 8)%nat; [|lia].
      apply Nat.div_lt_upper_bound; [lia|]. pose proof (Nat.div_mod (bq_dim s + 7) 8 ltac:(lia)). pose proof (Nat.mod_upper_bound (bq_dim s + 7) 8 ltac:(lia)). lia.
Qed.

(** Population count of a byte, independent definition. *)
Definition popcount8 (x : N) : Z :=
  Z.of_nat (length (filter (fun j => N.testbit x (N.of_nat j)) (seq 0 8))).

Definition opt_is (o : option Z) (z : Z) : bool := match o with Some y => Z.eqb y z | None => false end.

Lemma kern_all : forallb (fun n => opt_is (kern 8 (N.of_nat n)) (popcount8 (N.of_nat n))) (seq 0 256) = true.
Proof. vm_compute. reflexivity. Qed.

Lemma kern_popcount x : (x < 256)%N -> kern 8 x = Some (popcount8 x).
Proof.
  intros H. pose proof kern_all as K. rewrite forallb_forall in K.
  specialize (K (N.to_nat x)). rewrite Nnat.N2Nat.id in K.
  assert (In (N.to_nat x) (seq 0 256)) by (apply in_seq; lia). apply K in H0.
  unfold opt_is in H0. destruct (kern 8 x); [|discriminate]. apply Z.eqb_eq in H0. congruence.
Qed.

Lemma lxor_byte x y : (x < 256)%N -> (y < 256)%N -> (N.lxor x y < 256)%N.
Proof.
  intros Hx Hy. destruct (N.eq_dec (N.lxor x y) 0) as [->|Hn]; [lia|].
  change 256%N with (2 ^ 8)%N. apply N.log2_lt_pow2; [lia|].
  pose proof (N.log2_lxor x y).
  destruct (N.eq_dec x 0) as [->|]; [rewrite N.lxor_0_l in *; destruct (N.eq_dec y 0); [congruence|]; apply N.log2_lt_pow2; lia|].
  destruct (N.eq_dec y 0) as [->|]; [rewrite N.lxor_0_r in *; apply N.log2_lt_pow2; lia|].
  assert (N.log2 x < 8)%N by (apply N.log2_lt_pow2; lia).
  assert (N.log2 y < 8)%N by (apply N.log2_lt_pow2; lia). lia.
Qed.

Lemma getb_cons_lo x a j : (j < 8)%nat -> getb (x :: a) j = N.testbit x (N.of_nat j).
Proof. intros H. unfold getb. rewrite Nat.div_small, Nat.mod_small by lia. reflexivity. Qed.
Lemma getb_cons_hi x a o : getb (x :: a) (8 + o) = getb a o.
Proof.
  unfold getb. replace (8 + o)%nat with (o + 1 * 8)%nat by lia.
  rewrite Nat.div_add, Nat.mod_add by lia. rewrite Nat.add_1_r. reflexivity.
Qed.

Lemma filter_map_len {X Y} (f : X -> Y) p l : length (filter p (map f l)) = length (filter (fun x => p (f x)) l).
Proof. induction l; cbn; auto. destruct (p (f a)); cbn; auto. Qed.

Lemma filter_ext_len {X} (p q : X -> bool) l : (forall x, In x l -> p x = q x) -> length (filter p l) = length (filter q l).
Proof. intros H. f_equal. apply filter_ext_in. exact H. Qed.

Lemma seq_plus n k : forall s, seq (n + s) k = map (fun o => (n + o)%nat) (seq s k).
Proof.
  induction k as [|k IH]; intros s; cbn [seq map]; auto. f_equal.
  rewrite <- IH. f_equal. lia.
Qed.

Lemma ham_loop_spec a : forall b, length a = length b ->
  Forall (fun x => (x < 256)%N) a -> Forall (fun x => (x < 256)%N) b ->
  ham_loop a b = Some (Z.of_nat (length (diff_bits a b))).
Proof.
  induction a as [|x a IH]; intros [|y b] Hl Ha Hb; cbn in Hl; try lia; cbn [ham_loop]; auto.
  inversion Ha; subst. inversion Hb; subst.
  rewrite kern_popcount by (apply lxor_byte; auto). rewrite IH; auto. f_equal.
  unfold diff_bits, popcount8. cbn [length].
  replace (8 * S (length a))%nat with (8 + 8 * length a)%nat by lia.
  rewrite seq_app, filter_app, app_length, Nat2Z.inj_add. f_equal.
  - f_equal. apply filter_ext_len. intros j Hj. apply in_seq in Hj.
    rewrite !getb_cons_lo by lia. apply N.lxor_spec.
  - f_equal. rewrite Nat.add_0_l.
    assert (E : seq 8 (8 * length a) = map (fun o => (8 + o)%nat) (seq 0 (8 * length a))).
    { apply (seq_plus 8 (8 * length a) 0). }
    rewrite E, filter_map_len. apply filter_ext_len. intros o _. rewrite !getb_cons_hi. reflexivity.
Qed.

Lemma hamming_spec a b : is_bytes a -> is_bytes b -> length a = length b ->
  hamming a b = Some (Z.of_nat (length (diff_bits a b))).
Proof. intros Ha Hb H. unfold hamming. rewrite H, Nat.eqb_refl. apply ham_loop_spec; auto. Qed.

Lemma hamming_mismatch a b : length a <> length b -> hamming a b = Some (-1)%Z.
Proof. intros H. unfold hamming. destruct (Nat.eqb_spec (length a) (length b)); [lia|auto]. Qed.

Lemma getb_bytes_inj a : forall b, length a = length b -> is_bytes a -> is_bytes b ->
  (forall o, (o < 8 * length a)%nat -> getb a o = getb b o) -> a = b.
Proof.
  induction a as [|x a IH]; intros [|y b] Hl Ha Hb H; cbn in Hl; try lia; auto.
  inversion Ha; subst. inversion Hb; subst. f_equal.
  - apply N.bits_inj. intros j.
    destruct (N.ltb_spec j 8).
    + specialize (H (N.to_nat j)). rewrite !getb_cons_lo in H by lia. rewrite Nnat.N2Nat.id in H.
      apply H. cbn. lia.
    + assert (Hi : forall z, (z < 256)%N -> N.testbit z j = false).
      { intros z Hz. destruct (N.eq_dec z 0) as [->|]; [apply N.bits_0|]. apply N.bits_above_log2.
        assert (N.log2 z < 8)%N by (apply N.log2_lt_pow2; lia). lia. }
      rewrite !Hi; auto.
  - apply IH; auto. intros o Ho. specialize (H (8 + o)%nat). rewrite !getb_cons_hi in H. apply H. cbn. lia.
Qed.

Lemma hamming_zero a b : is_bytes a -> is_bytes b -> (hamming a b = Some 0%Z <-> a = b).
Proof.
  intros Ha Hb. destruct (Nat.eq_dec (length a) (length b)) as [E|E].
  - rewrite hamming_spec by auto. split.
    + intros [= H]. apply getb_bytes_inj; auto. intros o Ho.
      destruct (getb a o) eqn:Ga, (getb b o) eqn:Gb; auto; exfalso.
      * assert (In o (diff_bits a b)). { apply filter_In. split; [apply in_seq; lia|]. rewrite Ga, Gb. auto. }
        destruct (diff_bits a b); [contradiction|cbn in H; lia].
      * assert (In o (diff_bits a b)). { apply filter_In. split; [apply in_seq; lia|]. rewrite Ga, Gb. auto. }
        destruct (diff_bits a b); [contradiction|cbn in H; lia].
    + intros ->. f_equal. unfold diff_bits. rewrite filter_none; auto. intros o _. destruct (getb b o); auto.
  - rewrite hamming_mismatch by auto. split; [discriminate|]. intros ->. congruence.
Qed.

Lemma hamming_sym a b : hamming a b = hamming b a.
Proof.
  unfold hamming. rewrite Nat.eqb_sym. destruct (Nat.eqb (length b) (length a)); auto.
  revert b. induction a as [|x a IH]; intros [|y b]; cbn [ham_loop]; auto.
  rewrite N.lxor_comm, IH. reflexivity.
Qed.

Lemma hamming_triangle a b c : is_bytes a -> is_bytes b -> is_bytes c ->
  length a = length b -> length b = length c ->
  exists x y z, hamming a c = Some x /\ hamming a b = Some y /\ hamming b c = Some z /\ (x <= y + z)%Z.
Proof.
  intros Ha Hb Hc E1 E2. do 3 eexists.
  rewrite !hamming_spec by (auto; congruence). do 3 (split; [reflexivity|]).
  unfold diff_bits. rewrite <- E1.
  assert (forall l, (length (filter (fun o => xorb (getb a o) (getb c o)) l) <=
    length (filter (fun o => xorb (getb a o) (getb b o)) l) + length (filter (fun o => xorb (getb b o) (getb c o)) l))%nat).
  { induction l as [|o l IH]; cbn; auto.
    destruct (getb a o), (getb b o), (getb c o); cbn; lia. }
  specialize (H (seq 0 (8 * length a))). lia.
Qed.

Lemma combine_seq_fst {X Y} (f : X -> Y) (db : list X) : forall s,
  map fst (map (fun '(i, v) => (i, f v)) (combine (seq s (length db)) db)) = seq s (length db).
Proof. induction db as [|v db IH]; intros s; cbn; auto. f_equal. apply IH. Qed.

(** SearchBinary over codes of the query's length. *)
Lemma search_binary_spec query db k : is_bytes query ->
  Forall (fun v => is_bytes v /\ length v = length query) db -> (0 <= k)%Z ->
  exists rs, search_binary query db k = Ok rs /\
    length rs = Nat.min (Z.to_nat k) (length db) /\
    NoDup (map fst rs) /\
    StronglySorted Z.le (map snd rs) /\
    (forall i d, In (i, d) rs -> exists v, nth_error db i = Some v /\ d = Z.of_nat (length (diff_bits query v))) /\
    (forall i v, nth_error db i = Some v -> ~ In i (map fst rs) ->
       forall j d, In (j, d) rs -> (d <= Z.of_nat (length (diff_bits query v)))%Z).
Proof.
  intros Hq HF Hk. unfold search_binary.
  set (h := fun v => match hamming query v with Some d => d | None => 0%Z end).
  set (res := map (fun '(i, v) => (i, match hamming query v with Some d => d | None => 0%Z end)) (combine (seq 0 (length db)) db)).
  set (cmp := fun y x : nat * Z => Z.ltb (snd y) (snd x)).
  set (srt := ex_sort cmp res).
  assert (P : Permutation res srt) by apply ex_sort_perm.
  assert (W : weak_order_on cmp res). { unfold cmp; split; intros *; rewrite ?Z.ltb_lt, ?Z.ltb_ge; lia. }
  assert (S : sorted_by cmp srt) by (apply ex_sort_sorted; auto).
  assert (Lr : length res = length db). { unfold res. rewrite map_length, combine_length, seq_length. lia. }
  assert (Ls : length srt = length db) by (rewrite <- (Permutation_length P); auto).
  assert (Kf : map fst res = seq 0 (length db)).
  { apply (combine_seq_fst (fun v => match hamming query v with Some d => d | None => 0%Z end)). }
  assert (In_res : forall i d, In (i, d) res <-> exists v, nth_error db i = Some v /\ d = h v).
  { intros i d. unfold res. rewrite in_map_iff. split.
    - intros ([i' v] & [= <- <-] & Hin).
      assert (G : forall (l : list (list N)) n, In (i', v) (combine (seq n (length l)) l) -> nth_error l (i' - n) = Some v /\ (n <= i')%nat).
      { induction l as [|y l IH]; cbn; intros n Hi; [tauto|]. destruct Hi as [[= -> ->]|Hi].
        - rewrite Nat.sub_diag. auto.
        - apply IH in Hi as [Hi ?]. replace (i' - n)%nat with (Datatypes.S (i' - Datatypes.S n)) by lia. split; [auto|lia]. }
      apply G in Hin as [Hin _]. rewrite Nat.sub_0_r in Hin. exists v. auto.
    - intros (v & Hv & ->). exists (i, v). split; auto.
      assert (G : forall (l : list (list N)) n i, nth_error l i = Some v -> In ((n + i)%nat, v) (combine (seq n (length l)) l)).
      { induction l as [|y l IH]; cbn; intros n [|j] Hj; try discriminate.
        - injection Hj as ->. left. f_equal. lia.
        - right. replace (n + Datatypes.S j)%nat with (Datatypes.S n + j)%nat by lia. apply IH. exact Hj. }
      apply (G db 0%nat i). exact Hv. }
  assert (Hh : forall i v, nth_error db i = Some v -> h v = Z.of_nat (length (diff_bits query v))).
  { intros i v Hv. apply nth_error_In in Hv. rewrite Forall_forall in HF. destruct (HF v Hv).
    unfold h. rewrite hamming_spec; auto. }
  set (kk := if (Z.of_nat (length srt) <? k)%Z then Z.of_nat (length srt) else k).
  assert (Hkk : Z.to_nat kk = Nat.min (Z.to_nat k) (length db)).
  { unfold kk. destruct (Z.ltb_spec (Z.of_nat (length srt)) k); lia. }
  assert (Hk0 : (0 <= kk)%Z). { unfold kk. destruct (Z.ltb_spec (Z.of_nat (length srt)) k); lia. }
  destruct (Z.ltb_spec kk 0); [lia|].
  eexists; split; [reflexivity|]. rewrite Hkk. set (n := Nat.min (Z.to_nat k) (length db)).
  split; [rewrite firstn_length; lia|].
  split; [|split; [|split]].
  - rewrite <- firstn_map. apply NoDup_firstn.
    eapply Permutation_NoDup; [apply Permutation_map; exact P|]. rewrite Kf. apply seq_NoDup.
  - apply (sorted_firstn _ n) in S. revert S. generalize (firstn n srt) as l.
    induction l as [|a l IH]; cbn; intros S; [constructor|].
    inversion S; subst. constructor; auto. apply Forall_forall. intros z Hz.
    apply in_map_iff in Hz as (b & <- & Hb). rewrite Forall_forall in H3. specialize (H3 b Hb).
    unfold cmp in H3. apply Z.ltb_ge in H3. lia.
  - intros i d Hin. apply in_firstn in Hin.
    apply (Permutation_in _ (Permutation_sym P)) in Hin. apply In_res in Hin as (v & Hv & ->).
    exists v. split; auto. eapply Hh; eauto.
  - intros i v Hv Hni j d Hjd.
    assert (Hi : In (i, h v) srt). { apply (Permutation_in _ P). apply In_res. eauto. }
    assert (Hs : In (i, h v) (skipn n srt)).
    { rewrite <- (firstn_skipn n srt) in Hi. apply in_app_or in Hi as [Hi|Hi]; auto.
      exfalso. apply Hni. apply in_map_iff. exists (i, h v). auto. }
    pose proof (sorted_top _ n srt S _ _ Hjd Hs) as Hc. unfold cmp in Hc. cbn in Hc. apply Z.ltb_ge in Hc.
    rewrite <- (Hh i v Hv). exact Hc.
Qed.

(** Too short codes are reported, never read out of bounds. *)
Lemma unpack_bits_short bs : forall k b acc off, (8 * length bs < off + k)%nat -> (off <= 8 * length bs)%nat ->
  unpack_bits k b acc off bs = Err EOther.
Proof.
  induction k as [|k IH]; intros b acc off H H2; [lia|]. cbn [unpack_bits].
  destruct (nth_error bs (Nat.div off 8)) eqn:E; auto.
  apply IH; [lia|]. assert (Nat.div off 8 < length bs)%nat by (apply nth_error_Some; congruence). lia.
Qed.

Lemma unpack_levels_short n bs : forall dim off, (8 * length bs < off + n * dim)%nat -> (off <= 8 * length bs)%nat ->
  unpack_levels n dim off bs = Err EOther.
Proof.
  induction dim as [|dim IH]; intros off H H2; [lia|]. cbn [unpack_levels].
  destruct (Nat.le_gt_cases (off + n) (8 * length bs)).
  - destruct (unpack_bits_spec bs n 0%N 0%N off) as (q & E & _); [lia|]. rewrite E. cbn [bind].
    rewrite IH; auto. nia.
  - rewrite unpack_bits_short; auto.
Qed.

Lemma sq_decode_short A s bs : sq_trained A s = true -> (8 * length bs < sq_dim A s * sq_bits A s)%nat ->
  sq_decode A s bs = Err EOther.
Proof.
  intros Ht H. unfold sq_decode. rewrite Ht. cbn [negb]. rewrite unpack_levels_short; auto; lia.
Qed.

Lemma sq_api_round_trip A dim bits vs s0 s v :
  sq_new A dim bits = Ok s0 -> sq_train A s0 vs = Ok s -> length v = dim ->
  exists bs, sq_encode A s v = Ok bs /\
    length bs = Nat.div (dim * Z.to_nat bits + 7) 8 /\
    sq_decode A s bs = Ok (dequants A (max_val A s) (sq_min A s) (sq_max A s)
       (map (fun q => N.modulo q (2 ^ Z.to_N bits))
            (levels A (max_val A s) (sq_min A s) (sq_max A s) v))).
Proof.
  unfold sq_new. destruct ((bits <? 1)%Z || (8 <? bits)%Z) eqn:Eb; [discriminate|].
  intros [= <-] Ht Hv.
  apply orb_false_iff in Eb as [Eb1 Eb2]. apply Z.ltb_ge in Eb1, Eb2.
  pose proof (sq_train_lengths _ _ _ _ Ht) as (D1 & D2 & D3 & D4 & D5 & _). cbn in D1, D2, D4, D5.
  destruct (sq_round_trip A s v) as (bs & E1 & E2 & E3); try lia; auto; try congruence.
  exists bs. rewrite E3. rewrite D2 in *. rewrite D1 in *.
  replace (N.of_nat (Z.to_nat bits)) with (Z.to_N bits) by lia. auto.
Qed.

Lemma pack_small n qs : (0 < n)%nat -> Forall (fun q => q < 2 ^ N.of_nat n)%N qs ->
  exists bs, pack_levels n qs 0 (repeat 0%N (Nat.div (length qs * n + 7) 8)) = Ok bs /\
    length bs = Nat.div (length qs * n + 7) 8 /\
    unpack_levels n (length qs) 0 bs = Ok qs.
Proof.
  intros Hn HF. destruct (pack_round_trip n qs Hn) as (bs & E & L & U).
  exists bs. split; auto. split; auto. rewrite U. f_equal.
  rewrite <- (map_id qs) at 2. apply map_ext_in. intros q Hq.
  apply N.mod_small. rewrite Forall_forall in HF. auto.
Qed.
