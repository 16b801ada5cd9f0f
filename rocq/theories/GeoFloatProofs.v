(** Cells of the grid as numbers. *)
From Coq Require Import ZArith List Bool Lia Reals Lra.
From Coq Require Import Floats.SpecFloat.
From Flocq Require Import Core.Core IEEE754.BinarySingleNaN.
From Verif Require Import Base Floats64 SimilaritySpec FloatReal RangeProofs GeoModel GeoSpec.
Open Scope R_scope.

Lemma float64_fin f : float64 f -> (exists s, f = S754_infinity s) \/ f = S754_nan \/ exists a, fin f a.
Proof.
  unfold float64. destruct f as [s|s| |s m e]; intros H; eauto.
  - right. right. exists 0. exists (B754_zero s). auto.
  - right. right. exists (B2R (B754_finite s m e H : b64)). exists (B754_finite s m e H). auto.
Qed.
(** Integers are float64 numbers. *)
Lemma fin_of_int z : (Z.abs z <= 2 ^ 53)%Z -> fin (f64_of_Z z) (IZR z).
Proof.
  intros Hz. unfold f64_of_Z. change prec64 with 53%Z. change emax64 with 1024%Z. rewrite (bn_equiv 53 1024 Hprec64 Hmax64).
  exists (binary_normalize 53 1024 Hprec64 Hmax64 mode_NE z 0 false). split; [reflexivity|].
  pose proof (binary_normalize_correct 53 1024 Hprec64 Hmax64 mode_NE z 0 false) as C. cbv zeta in C.
  assert (E : F2R (Float radix2 z 0) = IZR z) by (unfold F2R; cbn; ring). rewrite E in C.
  change (round radix2 fexp64 (round_mode mode_NE) (IZR z)) with (rnd (IZR z)) in C.
  assert (Er : rnd (IZR z) = IZR z). { apply round_generic; auto with typeclass_instances. replace (IZR z) with (IZR z * bpow radix2 0) by (cbn; ring). apply format_scaled; lia. }
  rewrite Er, Rlt_bool_true in C; [tauto|].
  apply Rle_lt_trans with (IZR (2 ^ 53)); [rewrite <- abs_IZR; apply IZR_le; exact Hz|].
  change (IZR (2 ^ 53)) with (bpow radix2 53). apply bpow_lt. lia.
Qed.
Lemma between_fin lo hi f : (Z.abs lo <= 2 ^ 53)%Z -> (Z.abs hi <= 2 ^ 53)%Z -> float64 f -> fle (f64_of_Z lo) f = true -> fle f (f64_of_Z hi) = true ->
  exists a, fin f a /\ IZR lo <= a <= IZR hi.
Proof.
  intros Hl Hh F A B. destruct (float64_fin f F) as [[s ->]|[->|[a Ha]]].
  - destruct (fin_of_int lo Hl) as (u & E & Fu & _), (fin_of_int hi Hh) as (v & E' & Fv & _). rewrite <- E in A. rewrite <- E' in B.
    destruct s, u as [[]|[]| |[] ? ? ?], v as [[]|[]| |[] ? ? ?]; discriminate.
  - destruct (fin_of_int lo Hl) as (u & E & Fu & _). rewrite <- E in A. destruct u as [[]|[]| |[] ? ? ?]; discriminate.
  - exists a. split; auto. split; [apply (fin_le _ _ _ _ (fin_of_int lo Hl) Ha); auto|apply (fin_le _ _ _ _ Ha (fin_of_int hi Hh)); auto].
Qed.

Lemma trunc_fin f r : fin f r -> trunc f = Ztrunc r.
Proof.
  intros (u & <- & Fu & <-). destruct u as [s|s| |s m e Hb]; try discriminate; cbn [B2SF B2R trunc].
  - symmetry. apply (Ztrunc_IZR 0).
  - clear Hb Fu. assert (P : (if Z.leb 0 e then Z.pos m * 2 ^ e else Z.pos m / 2 ^ (- e))%Z = Ztrunc (F2R (Float radix2 (Z.pos m) e))).
    { destruct (Z.leb_spec 0 e) as [He|He].
      - unfold F2R. cbn [Fnum Fexp]. rewrite <- IZR_Zpower by auto. rewrite <- mult_IZR, Ztrunc_IZR. reflexivity.
      - unfold F2R. cbn [Fnum Fexp]. replace (bpow radix2 e) with (/ IZR (2 ^ (- e))).
        + rewrite Ztrunc_floor; [symmetry; apply Zfloor_div; apply Z.pow_nonzero; lia|].
          apply Rmult_le_pos; [apply IZR_le; lia|]. left. apply Rinv_0_lt_compat, IZR_lt. apply Z.pow_pos_nonneg; lia.
        + change (2 ^ (- e))%Z with (radix2 ^ (- e))%Z. rewrite IZR_Zpower by lia. rewrite bpow_opp. apply Rinv_inv. }
    destruct s.
    + change (cond_Zopp true (Z.pos m)) with (- Z.pos m)%Z. rewrite F2R_Zopp, Ztrunc_opp, <- P. reflexivity.
    + exact P.
Qed.

Lemma grid_size_fin : exists g, fin grid_size g /\ 23 / 256 <= g <= 1.
Proof.
  assert (D : fin grid_size (rnd (IZR 1 / IZR 10))).
  { apply fin_div; [apply fin_of_int; lia|apply fin_of_int; lia|lra|].
    apply Rle_lt_trans with (IZR 1 * bpow radix2 0).
    - apply rnd_bound; try lia. cbn. rewrite Rabs_pos_eq; lra.
    - rewrite Rmult_1_l. apply bpow_lt. lia. }
  exists (rnd (IZR 1 / IZR 10)). split; auto. split.
  - replace (23 / 256) with (IZR 23 * bpow radix2 (-8)) by (cbn; lra). apply rnd_ge; try lia. cbn. lra.
  - assert (H : Rabs (rnd (IZR 1 / IZR 10)) <= IZR 1 * bpow radix2 0). { apply rnd_bound; try lia. cbn. rewrite Rabs_pos_eq; lra. }
    cbn in H. rewrite Rmult_1_l in H. apply Rabs_le_inv in H. lra.
Qed.

(** Dividing a degree by the size of a cell. *)
Lemma cell_quotient v a : fin v a -> -180 <= a <= 180 -> exists r, fin (f64_div v grid_size) r /\ -2004 <= r <= 2004 /\
  exists g, fin grid_size g /\ 23 / 256 <= g <= 1 /\ r = rnd (a / g).
Proof.
  intros Hv Ha. destruct grid_size_fin as [g [Hg Bg]].
  assert (Bd : Rabs (rnd (a / g)) <= IZR 2004 * bpow radix2 0).
  { apply rnd_bound; try lia. cbn. rewrite Rmult_1_r. unfold Rdiv. rewrite Rabs_mult. rewrite (Rabs_pos_eq (/ g)) by (left; apply Rinv_0_lt_compat; lra).
    apply Rmult_le_reg_r with g; [lra|]. rewrite Rmult_assoc, Rinv_l by lra. assert (Rabs a <= 180) by (apply Rabs_le; lra). nra. }
  exists (rnd (a / g)). split; [|split].
  - apply fin_div; auto; [lra|]. apply Rle_lt_trans with (1 := Bd). change (bpow radix2 0) with 1. rewrite Rmult_1_r. apply Rlt_trans with (bpow radix2 11); [cbn; lra|apply bpow_lt; lia].
  - cbn in Bd. rewrite Rmult_1_r in Bd. apply Rabs_le_inv in Bd. lra.
  - exists g. auto.
Qed.
Lemma int64_fin wild f r : fin f r -> -2004 <= r <= 2004 -> int64_of wild f = Ztrunc r /\ (-2004 <= Ztrunc r <= 2004)%Z.
Proof.
  intros Hf Hr. pose proof (trunc_fin f r Hf) as T.
  assert (B : (-2004 <= Ztrunc r <= 2004)%Z).
  { pose proof (Ztrunc_le (-2004) r ltac:(lra)) as A. pose proof (Ztrunc_le r 2004 ltac:(lra)) as C. rewrite (Ztrunc_IZR (-2004)) in A. rewrite (Ztrunc_IZR 2004) in C. lia. }
  split; auto. destruct Hf as (u & <- & Fu & E). unfold int64_of. destruct u as [s|s| |s m e Hb]; try discriminate; cbn [B2SF] in T |- *;
    rewrite T; replace (_ && _) with true; auto; symmetry; apply andb_true_iff; unfold int64_max; split; apply Z.leb_le; lia.
Qed.
Lemma cell_spec wild v a : fin v a -> -180 <= a <= 180 -> tenths v (cell wild v) /\ (-2004 <= cell wild v <= 2004)%Z.
Proof.
  intros Hv Ha. destruct (cell_quotient v a Hv Ha) as [r [Hr [Br _]]]. destruct (int64_fin wild _ r Hr Br) as [E B]. unfold cell. rewrite E. split; auto. exists r. auto.
Qed.
Lemma cell_mono wild v w a b : fin v a -> fin w b -> -180 <= a -> a <= b -> b <= 180 -> (cell wild v <= cell wild w)%Z.
Proof.
  intros Hv Hw Ha Hab Hb. destruct (cell_quotient v a Hv ltac:(lra)) as [r [Hr [Br [g [Hg [Bg ->]]]]]]. destruct (cell_quotient w b Hw ltac:(lra)) as [q [Hq [Bq [g' [Hg' [Bg' ->]]]]]].
  assert (g' = g). { destruct Hg as (x & Ex & Fx & <-), Hg' as (y & Ey & Fy & <-). rewrite <- Ex in Ey. f_equal. apply B2SF_inj; auto. } subst g'.
  unfold cell. destruct (int64_fin wild _ _ Hr Br) as [-> _], (int64_fin wild _ _ Hq Bq) as [-> _].
  apply Ztrunc_le. apply round_le; auto with typeclass_instances. unfold Rdiv. apply Rmult_le_compat_r; auto. left. apply Rinv_0_lt_compat. lra.
Qed.
Lemma fin_unique f a b : fin f a -> fin f b -> a = b.
Proof. intros (x & Ex & Fx & <-) (y & Ey & Fy & <-). rewrite <- Ex in Ey. f_equal. apply B2SF_inj; auto. Qed.
Lemma tenths_unique v x y : tenths v x -> tenths v y -> x = y.
Proof. intros [a [Ha ->]] [b [Hb ->]]. f_equal. exact (fin_unique _ _ _ Ha Hb). Qed.

(** Ceiling. *)
Lemma ceil_fin wild f r : fin f r -> 0 < r -> (Zceil r <= int64_max)%Z -> ceil64 wild f = Zceil r.
Proof.
  intros (u & <- & Fu & <-) Hp Hm. destruct u as [s|s| |s m e Hb]; try discriminate; cbn [B2SF B2R ceil64] in *.
  - lra.
  - destruct s.
    + exfalso. assert (F2R (Float radix2 (Z.neg m) e) < 0) by (apply F2R_lt_0; reflexivity). change (cond_Zopp true (Z.pos m)) with (Z.neg m) in Hp. lra.
    + cbn [cond_Zopp] in *. replace (if Z.leb 0 e then _ else _) with (Zceil (F2R (Float radix2 (Z.pos m) e))); [rewrite (proj2 (Z.leb_le _ _) Hm); reflexivity|].
      clear Hb Fu Hm Hp. destruct (Z.leb_spec 0 e) as [He|He].
      * unfold F2R. cbn [Fnum Fexp]. rewrite <- IZR_Zpower by auto. rewrite <- mult_IZR, Zceil_IZR. reflexivity.
      * unfold F2R. cbn [Fnum Fexp]. set (d := (2 ^ (- e))%Z). assert (Hd : (0 < d)%Z) by (apply Z.pow_pos_nonneg; lia).
        replace (bpow radix2 e) with (/ IZR d).
        2:{ unfold d. change (2 ^ (- e))%Z with (radix2 ^ (- e))%Z. rewrite IZR_Zpower by lia. rewrite bpow_opp. apply Rinv_inv. }
        apply Zceil_imp. assert (Hd' : 0 < IZR d) by (apply IZR_lt; auto).
        set (q := ((Z.pos m + d - 1) / d)%Z). assert (Q : (q * d <= Z.pos m + d - 1 < q * d + d)%Z).
        { unfold q. pose proof (Z.div_mod (Z.pos m + d - 1) d ltac:(lia)). pose proof (Z.mod_pos_bound (Z.pos m + d - 1) d Hd). nia. }
        split.
        -- apply Rmult_lt_reg_r with (IZR d); auto. rewrite Rmult_assoc, Rinv_l, Rmult_1_r by lra. rewrite <- mult_IZR. apply IZR_lt. nia.
        -- apply Rmult_le_reg_r with (IZR d); auto. rewrite Rmult_assoc, Rinv_l, Rmult_1_r by lra. rewrite <- mult_IZR. apply IZR_le. nia.
Qed.

Lemma ceil_any wild f r : fin f r -> (- int64_max <= Zceil r <= int64_max)%Z -> ceil64 wild f = Zceil r.
Proof.
  intros Hf Hm. destruct (Rlt_or_le 0 r) as [H|H]; [apply ceil_fin; auto; lia|].
  pose proof (trunc_fin f r Hf) as T. rewrite Ztrunc_ceil in T by auto. destruct Hf as (u & <- & Fu & E). unfold ceil64, int64_of.
  assert (Q : (Z.leb (- int64_max - 1) (Zceil r) && Z.leb (Zceil r) int64_max)%bool = true) by (apply andb_true_iff; split; apply Z.leb_le; unfold int64_max in *; lia).
  destruct u as [s|s| |s m e Hb]; try discriminate; cbn [B2SF] in T |- *; rewrite T, Q; auto.
  destruct s; auto. exfalso. cbn in E. assert (0 < F2R (Float radix2 (Z.pos m) e)) by (apply F2R_gt_0; reflexivity). lra.
Qed.

(** A cell size is a little over a tenth. *)
Lemma grid_size_value g : fin grid_size g -> 1 / 10 <= g.
Proof.
  intros H. assert (E : fin grid_size (F2R (Float radix2 7205759403792794 (-56)))).
  { exists (@B754_finite 53 1024 false 7205759403792794 (-56) eq_refl). split; [reflexivity|]. auto. }
  replace g with (F2R (Float radix2 7205759403792794 (-56))).
  - unfold F2R. cbn. lra.
  - destruct H as (x & Ex & Fx & <-), E as (y & Ey & Fy & <-). rewrite <- Ex in Ey. f_equal. apply B2SF_inj; auto.
Qed.
Lemma rnd_le_int x z : (Z.abs z <= 2 ^ 53)%Z -> x <= IZR z -> rnd x <= IZR z.
Proof.
  intros Hz H. apply round_le_generic; auto with typeclass_instances. replace (IZR z) with (IZR z * bpow radix2 0) by (cbn; ring). apply format_scaled; lia.
Qed.
Lemma rnd_ge_int x z : (Z.abs z <= 2 ^ 53)%Z -> IZR z <= x -> IZR z <= rnd x.
Proof.
  intros Hz H. apply round_ge_generic; auto with typeclass_instances. replace (IZR z) with (IZR z * bpow radix2 0) by (cbn; ring). apply format_scaled; lia.
Qed.
Lemma Ztrunc_add r n : (0 <= n)%Z -> (Ztrunc (r + IZR n) <= Ztrunc r + n)%Z.
Proof.
  intros Hn. assert (F : (Zfloor (r + IZR n) = Zfloor r + n)%Z).
  { apply Zfloor_imp. rewrite plus_IZR, plus_IZR, plus_IZR. pose proof (Zfloor_lb r). pose proof (Zfloor_ub r). lra. }
  assert (C : (Zceil (r + IZR n) = Zceil r + n)%Z).
  { apply Zceil_imp. rewrite minus_IZR, plus_IZR. pose proof (Zceil_ub r). pose proof (Zceil_lb r). lra. }
  destruct (Rle_or_lt 0 r) as [H|H].
  - rewrite (Ztrunc_floor r), (Ztrunc_floor (r + IZR n)); [lia| |auto]. apply Rplus_le_le_0_compat; auto. apply IZR_le. auto.
  - rewrite (Ztrunc_ceil r) by lra. destruct (Rle_or_lt 0 (r + IZR n)) as [H'|H'].
    + rewrite Ztrunc_floor by auto. rewrite F. pose proof (Zfloor_lb r). pose proof (Zceil_ub r).
      assert (IZR (Zfloor r) <= IZR (Zceil r)) by lra. apply le_IZR in H2. lia.
    + rewrite Ztrunc_ceil by lra. lia.
Qed.
Lemma cells_near wild v w a b n : fin v a -> fin w b -> -180 <= a <= 180 -> -180 <= b <= 180 -> (1 <= n < 2 ^ 50)%Z -> a <= b + IZR (n - 1) / 10 -> (cell wild v <= cell wild w + n)%Z.
Proof.
  intros Hv Hw Ha Hb Hn H. destruct (cell_quotient v a Hv Ha) as [r [Hr [Br [g [Hg [Bg ->]]]]]]. destruct (cell_quotient w b Hw Hb) as [q [Hq [Bq [g' [Hg' [Bg' ->]]]]]].
  assert (g' = g). { destruct Hg as (x & Ex & Fx & <-), Hg' as (y & Ey & Fy & <-). rewrite <- Ex in Ey. f_equal. apply B2SF_inj; auto. } subst g'.
  unfold cell. destruct (int64_fin wild _ _ Hr Br) as [-> _], (int64_fin wild _ _ Hq Bq) as [-> _].
  apply Z.le_trans with (Ztrunc (rnd (b / g) + IZR n)); [|apply Ztrunc_add; lia]. apply Ztrunc_le.
  pose proof (grid_size_value g Hg) as Vg. assert (Gi : 0 < / g) by (apply Rinv_0_lt_compat; lra).
  assert (H1 : a / g <= b / g + IZR (n - 1)).
  { unfold Rdiv. apply Rmult_le_reg_r with g; [lra|]. rewrite Rmult_plus_distr_r, !Rmult_assoc, Rinv_l by lra. assert (0 <= IZR (n - 1)) by (apply IZR_le; lia). nra. }
  assert (Bb : -2004 <= b / g <= 2004).
  { split; (apply Rmult_le_reg_r with g; [lra|]); unfold Rdiv; rewrite Rmult_assoc, Rinv_l by lra; nra. }
  set (k := Zfloor (b / g)). assert (K : IZR k <= b / g < IZR k + 1) by (split; [apply Zfloor_lb|apply Zfloor_ub]).
  assert (Bk : (-2005 <= k <= 2004)%Z).
  { split; [apply Z.lt_pred_le, lt_IZR; change (Z.pred (-2005)) with (-2006)%Z; lra|apply le_IZR; lra]. }
  assert (L : IZR k <= rnd (b / g)) by (apply rnd_ge_int; [lia|lra]).
  assert (U : rnd (a / g) <= IZR (k + n)). { apply rnd_le_int; [lia|]. rewrite minus_IZR in H1. rewrite plus_IZR. lra. }
  rewrite plus_IZR in U. lra.
Qed.

(** Keys do not collide. *)
Lemma grid_key_inj x y x' y' : (Z.abs x < 2 ^ 30)%Z -> (Z.abs y < 2 ^ 30)%Z -> (Z.abs x' < 2 ^ 30)%Z -> (Z.abs y' < 2 ^ 30)%Z ->
  grid_key x y = grid_key x' y' -> x = x' /\ y = y'.
Proof.
  intros Hx Hy Hx' Hy' E. unfold grid_key, wrap, int64_max in E. change (2 ^ 30)%Z with 1073741824%Z in *.
  pose proof (Z.mod_pos_bound y 4294967296 ltac:(lia)) as By. pose proof (Z.mod_pos_bound y' 4294967296 ltac:(lia)) as By'.
  pose proof (Z.div_mod y 4294967296 ltac:(lia)) as Dy. pose proof (Z.div_mod y' 4294967296 ltac:(lia)) as Dy'.
  set (a := (y mod 4294967296)%Z) in *. set (a' := (y' mod 4294967296)%Z) in *. set (q := (y / 4294967296)%Z) in *. set (q' := (y' / 4294967296)%Z) in *.
  clearbody a a' q q'. rewrite (Z.mod_small (x * 4294967296 + a + _)), (Z.mod_small (x' * 4294967296 + a' + _)) in E by lia. lia.
Qed.
