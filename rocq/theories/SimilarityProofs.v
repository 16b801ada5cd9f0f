From Coq Require Import ZArith NArith List Bool Lia Reals Lra.
From Coq Require Import Floats.SpecFloat.
From Flocq Require Import Core.Core IEEE754.BinarySingleNaN.
From Verif Require Import Base Floats64 SimilarityModel SimilaritySpec FloatReal.
Import ListNotations.
Open Scope R_scope.

(** *** symmetry, for all bit patterns *)
Lemma mul_comm x y : f64_mul x y = f64_mul y x.
Proof.
  unfold f64_mul. destruct x as [sx|sx| |sx mx ex], y as [sy|sy| |sy my ey]; cbn; auto; try (rewrite xorb_comm; reflexivity).
  rewrite xorb_comm, Pos.mul_comm, Z.add_comm. reflexivity.
Qed.
Lemma dot_step_sym acc x y : dot_step acc (x, y) = dot_step acc (y, x).
Proof. unfold dot_step. cbn [fst snd]. rewrite mul_comm. reflexivity. Qed.
Lemma dot_fold_sym a : forall b acc, length a = length b ->
  fold_left dot_step (combine a b) acc = fold_left dot_step (combine b a) acc.
Proof.
  induction a as [|x a IH]; intros [|y b] acc H; cbn in *; auto; try discriminate.
  injection H as H. rewrite IH by auto. f_equal. apply dot_step_sym.
Qed.
Lemma dot_sum_sym a b : length a = length b -> dot_sum a b = dot_sum b a.
Proof. intros. apply dot_fold_sym; auto. Qed.

(** Differences taken in opposite order have opposite signs, except for zeros. *)
Lemma normalize_opp m e s : (m <> 0)%Z -> SpecFloat.binary_normalize prec64 emax64 (- m)%Z e s = SFopp (SpecFloat.binary_normalize prec64 emax64 m e s).
Proof.
  assert (G : forall sx p e', SFopp (SpecFloat.binary_round prec64 emax64 sx p e') = SpecFloat.binary_round prec64 emax64 (negb sx) p e').
  { intros. unfold SpecFloat.binary_round. destruct (shl_align _ _ _) as [mz ez]. unfold SpecFloat.binary_round_aux.
    destruct (shr_fexp _ _ _ _ _) as [mrs e1]. destruct (shr_fexp _ _ _ _ _) as [mrs2 e2].
    destruct (shr_m mrs2); cbn; auto. destruct (Zle_bool _ _); reflexivity. }
  destruct m as [|p|p]; [congruence| |]; intros _; cbn [Z.opp SpecFloat.binary_normalize]; rewrite G; reflexivity.
Qed.
Lemma sq_opp f : f64_mul (SFopp f) (SFopp f) = f64_mul f f.
Proof. unfold f64_mul. destruct f as [s|s| |s m e]; cbn; auto; destruct s; reflexivity. Qed.
Lemma sub_sq_sym x y : f64_mul (f64_sub x y) (f64_sub x y) = f64_mul (f64_sub y x) (f64_sub y x).
Proof.
  unfold f64_sub. destruct x as [sx|sx| |sx mx ex], y as [sy|sy| |sy my ey]; cbn [SFsub]; auto;
    try (destruct sx, sy; reflexivity); try (destruct sx; reflexivity); try (destruct sy; reflexivity).
  rewrite (Z.min_comm ey ex).
  set (A := cond_Zopp sx _). set (B := cond_Zopp sy _). destruct (Z.eq_dec (A - B) 0) as [E|E].
  - assert (E' : (B - A = 0)%Z) by lia. rewrite E, E'. reflexivity.
  - replace (B - A)%Z with (- (A - B))%Z by lia. rewrite normalize_opp by auto. rewrite sq_opp. reflexivity.
Qed.
Lemma dist_fold_sym a : forall b acc, length a = length b ->
  fold_left dist_step (combine a b) acc = fold_left dist_step (combine b a) acc.
Proof.
  induction a as [|x a IH]; intros [|y b] acc H; cbn in *; auto; try discriminate.
  injection H as H. rewrite IH by auto. f_equal. unfold dist_step. cbn [fst snd]. rewrite sub_sq_sym. reflexivity.
Qed.

Lemma eqb_sym_len {A} (a b : list A) : Nat.eqb (length a) (length b) = Nat.eqb (length b) (length a).
Proof. apply Nat.eqb_sym. Qed.
Lemma dot_symmetric_lemma a b : dot_product a b = dot_product b a.
Proof.
  unfold dot_product. rewrite (eqb_sym_len b a). destruct (Nat.eqb_spec (length a) (length b)); auto. apply dot_sum_sym; auto.
Qed.
Lemma cosine_symmetric_lemma a b : cosine a b = cosine b a.
Proof.
  unfold cosine. rewrite (eqb_sym_len b a). destruct (Nat.eqb_spec (length a) (length b)); auto.
  rewrite (dot_sum_sym a b), orb_comm, (mul_comm (f64_sqrt (dot_sum a a))) by auto. reflexivity.
Qed.
Lemma euclidean_symmetric_lemma a b : euclidean a b = euclidean b a.
Proof.
  unfold euclidean. rewrite (eqb_sym_len b a). destruct (Nat.eqb_spec (length a) (length b)); auto.
  unfold dist_sum. rewrite dist_fold_sym by auto. reflexivity.
Qed.

(** *** finite inputs give real results *)
Local Notation pw := (bpow radix2).
Lemma pw_IZR k : (0 <= k)%Z -> pw k = IZR (2 ^ k).
Proof. intros. change 2%Z with (radix_val radix2). symmetry. apply IZR_Zpower. auto. Qed.
Lemma pw_pos k : 0 < pw k.
Proof. apply bpow_gt_0. Qed.

Lemma wide_fin n : finite32 n -> exists a, fin (wide n) a /\ Rabs a <= pw 128 /\ a = IZR (units n) * pw (-149).
Proof.
  intros H. destruct (fin_f32 n H) as [F U]. eexists. split; [exact F|]. split; [|reflexivity].
  rewrite Rabs_mult, <- abs_IZR, (Rabs_pos_eq (pw _)) by apply bpow_ge_0.
  replace 128%Z with (277 + -149)%Z by lia. rewrite bpow_plus. apply Rmult_le_compat_r; [apply bpow_ge_0|].
  rewrite pw_IZR by lia. apply IZR_le. exact U.
Qed.

Lemma sum_step acc p a b n : fin acc a -> fin p b -> Rabs b <= pw 258 -> Rabs a <= IZR n * pw 258 -> (0 <= n < 2 ^ 40)%Z ->
  fin (f64_add acc p) (rnd (a + b)) /\ Rabs (rnd (a + b)) <= IZR (n + 1) * pw 258.
Proof.
  intros Fa Fb Hb Ha Hn.
  assert (B : Rabs (rnd (a + b)) <= IZR (n + 1) * pw 258).
  { apply rnd_bound; [lia|lia|]. rewrite plus_IZR. eapply Rle_trans; [apply Rabs_triang|]. lra. }
  split; auto. apply fin_add; auto. eapply Rle_lt_trans; [exact B|].
  apply Rle_lt_trans with (pw 40 * pw 258).
  - apply Rmult_le_compat_r; [apply bpow_ge_0|]. rewrite pw_IZR by lia. apply IZR_le. lia.
  - rewrite <- bpow_plus. apply bpow_lt. lia.
Qed.

Lemma mul_fin x y a b k : fin x a -> fin y b -> Rabs (a * b) <= pw k -> (-1074 <= k < 1024)%Z ->
  fin (f64_mul x y) (rnd (a * b)) /\ Rabs (rnd (a * b)) <= pw k.
Proof.
  intros Fx Fy H Hk. assert (B : Rabs (rnd (a * b)) <= pw k).
  { rewrite <- (Rmult_1_l (pw k)). apply (rnd_bound _ 1); try lia. lra. }
  split; auto. apply fin_mul; auto. eapply Rle_lt_trans; [exact B|]. apply bpow_lt. lia.
Qed.
Lemma Rabs_mul_le a b k l : Rabs a <= pw k -> Rabs b <= pw l -> Rabs (a * b) <= pw (k + l).
Proof. intros. rewrite Rabs_mult, bpow_plus. apply Rmult_le_compat; auto using Rabs_pos. Qed.

(** Generic fold: each step adds a finite non-huge term. *)
Lemma fold_fin (step : float -> N * N -> float) (term : N * N -> float) (ok : N * N -> Prop) (nonneg : bool) :
  (forall acc p, step acc p = f64_add acc (term p)) ->
  (forall p, ok p -> exists b, fin (term p) b /\ Rabs b <= pw 258 /\ (nonneg = true -> 0 <= b)) ->
  forall l acc a n, Forall ok l -> fin acc a -> (nonneg = true -> 0 <= a) -> Rabs a <= IZR n * pw 258 -> (0 <= n)%Z ->
    (n + Z.of_nat (length l) <= 2 ^ 40)%Z ->
    exists r, fin (fold_left step l acc) r /\ (nonneg = true -> 0 <= r) /\ Rabs r <= IZR (n + Z.of_nat (length l)) * pw 258.
Proof.
  intros Hs Ht. induction l as [|p l IH]; intros acc a n HF Fa Hp Ha Hn Hl.
  - cbn [fold_left length]. exists a. change (Z.of_nat 0) with 0%Z. rewrite Z.add_0_r. auto.
  - cbn [fold_left length] in *. rewrite Hs. inversion HF as [|? ? Hok HF']; subst.
    destruct (Ht p Hok) as (b & Fb & Hb & Hbp).
    destruct (sum_step acc (term p) a b n Fa Fb Hb Ha) as [F' B']; [lia|].
    destruct (IH _ _ (n + 1)%Z HF' F') as (r & Fr & Pr & Br); auto; try lia.
    + intros Hnn. apply rnd_nonneg. specialize (Hp Hnn). specialize (Hbp Hnn). lra.
    + exists r. split; auto. split; auto. replace (n + Z.of_nat (S (length l)))%Z with (n + 1 + Z.of_nat (length l))%Z by lia. exact Br.
Qed.

Definition pair_ok (p : N * N) : Prop := finite32 (fst p) /\ finite32 (snd p).
Lemma combine_ok a b : Forall finite32 a -> Forall finite32 b -> Forall pair_ok (combine a b).
Proof.
  revert b. induction a as [|x a IH]; intros [|y b] Ha Hb; cbn; constructor; inversion Ha; inversion Hb; subst; [split; auto|auto].
Qed.
Lemma combine_same_ok a : Forall finite32 a -> Forall (fun p => finite32 (fst p) /\ fst p = snd p) (combine a a).
Proof. induction a as [|x a IH]; cbn; intros H; constructor; inversion H; subst; auto. Qed.
Lemma combine_len {A} (a b : list A) : (length (combine a b) <= length a)%nat.
Proof. rewrite combine_length. lia. Qed.

Lemma dot_sum_fin a b : Forall finite32 a -> Forall finite32 b -> (Z.of_nat (length a) <= 2 ^ 40)%Z ->
  exists r, fin (dot_sum a b) r /\ Rabs r <= IZR (Z.of_nat (length a)) * pw 258.
Proof.
  intros Ha Hb Hl. unfold dot_sum.
  destruct (fold_fin dot_step (fun p => f64_mul (wide (fst p)) (wide (snd p))) pair_ok false) with (l := combine a b) (acc := f_zero) (a := 0) (n := 0%Z)
    as (r & F & _ & B).
  - reflexivity.
  - intros [x y] [Hx Hy]. cbn [fst snd] in *. destruct (wide_fin x Hx) as (u & Fu & Bu & _). destruct (wide_fin y Hy) as (v & Fv & Bv & _).
    destruct (mul_fin _ _ u v 256 Fu Fv) as [F B]; [exact (Rabs_mul_le u v 128 128 Bu Bv)|lia|].
    eexists. split; [exact F|]. split; [|discriminate]. eapply Rle_trans; [exact B|]. apply bpow_le. lia.
  - apply combine_ok; auto.
  - apply fin_zero.
  - discriminate.
  - rewrite Rabs_R0. lra.
  - lia.
  - pose proof (combine_len a b). lia.
  - exists r. split; auto. eapply Rle_trans; [exact B|]. apply Rmult_le_compat_r; [apply bpow_ge_0|]. apply IZR_le.
    pose proof (combine_len a b). lia.
Qed.

Lemma norm_sum_fin a : Forall finite32 a -> (Z.of_nat (length a) <= 2 ^ 40)%Z ->
  exists r, fin (dot_sum a a) r /\ 0 <= r /\ Rabs r <= pw 298.
Proof.
  intros Ha Hl. unfold dot_sum.
  destruct (fold_fin dot_step (fun p => f64_mul (wide (fst p)) (wide (snd p))) (fun p => finite32 (fst p) /\ fst p = snd p) true)
    with (l := combine a a) (acc := f_zero) (a := 0) (n := 0%Z) as (r & F & P & B).
  - reflexivity.
  - intros [x y] [Hx Hy]. cbn [fst snd] in *. subst y. destruct (wide_fin x Hx) as (u & Fu & Bu & _).
    destruct (mul_fin _ _ u u 256 Fu Fu) as [F B]; [exact (Rabs_mul_le u u 128 128 Bu Bu)|lia|].
    eexists. split; [exact F|]. split; [|intros _; apply rnd_nonneg; pose proof (Rle_0_sqr u); unfold Rsqr in *; lra].
    eapply Rle_trans; [exact B|]. apply bpow_le. lia.
  - apply combine_same_ok; auto.
  - apply fin_zero.
  - intros _. lra.
  - rewrite Rabs_R0. lra.
  - lia.
  - pose proof (combine_len a a). lia.
  - exists r. split; auto. split; auto. eapply Rle_trans; [exact B|]. replace 298%Z with (40 + 258)%Z by lia. rewrite bpow_plus.
    apply Rmult_le_compat_r; [apply bpow_ge_0|]. rewrite pw_IZR by lia. apply IZR_le. pose proof (combine_len a a). lia.
Qed.

Lemma fin_is_real f r : fin f r -> is_real f /\ real_of f = r.
Proof.
  intros (b & <- & Fb & <-). destruct b as [s|s| |s m e H]; try discriminate; cbn; auto.
Qed.

Lemma dot_real_lemma a b : Forall finite32 a -> Forall finite32 b -> (Z.of_nat (length a) <= 2 ^ 31)%Z -> is_real (dot_product a b).
Proof.
  intros Ha Hb Hl. unfold dot_product. destruct (Nat.eqb _ _); [|exact Logic.I].
  destruct (dot_sum_fin a b Ha Hb) as (r & F & _); [lia|]. apply fin_is_real in F. tauto.
Qed.

Lemma sqrt_fin_pos x a : fin x a -> 0 < a -> Rabs a <= pw 298 -> exists r, fin (f64_sqrt x) r /\ pw (-537) <= r /\ Rabs r <= pw 149.
Proof.
  intros F Ha Hb. exists (rnd (sqrt a)). pose proof (fin_min x a F Ha) as Hm. split; [apply fin_sqrt; auto; lra|]. split.
  - rewrite <- (Rmult_1_l (pw _)). apply (rnd_ge _ 1); try lia. rewrite Rmult_1_l.
    rewrite <- (sqrt_Rsqr (pw (-537))) by apply bpow_ge_0. apply sqrt_le_1_alt. unfold Rsqr. rewrite <- bpow_plus. exact Hm.
  - rewrite <- (Rmult_1_l (pw _)). apply (rnd_bound _ 1); try lia. rewrite Rmult_1_l. rewrite Rabs_pos_eq by apply sqrt_pos.
    rewrite <- (sqrt_Rsqr (pw 149)) by apply bpow_ge_0. apply sqrt_le_1_alt. unfold Rsqr. rewrite <- bpow_plus. rewrite Rabs_pos_eq in Hb; [exact Hb|lra].
Qed.

Lemma cosine_not_nan_lemma a b : Forall finite32 a -> Forall finite32 b -> (Z.of_nat (length a) <= 2 ^ 31)%Z -> not_nan (cosine a b).
Proof.
  intros Ha Hb Hl. unfold cosine. destruct (Nat.eqb_spec (length a) (length b)) as [E|]; [|discriminate].
  destruct (dot_sum_fin a b Ha Hb) as (d & Fd & _); [lia|].
  destruct (norm_sum_fin a Ha) as (na & Fa & Pa & Ba); [lia|]. destruct (norm_sum_fin b Hb) as (nb & Fb & Pb & Bb); [lia|].
  pose proof (fin_eq0 _ _ Fa) as Za. pose proof (fin_eq0 _ _ Fb) as Zb.
  destruct (feq (dot_sum a a) f_zero); cbn [orb]; [discriminate|]. destruct (feq (dot_sum b b) f_zero); cbn [orb]; [discriminate|].
  assert (na <> 0) by (intros C; apply Za in C; discriminate). assert (nb <> 0) by (intros C; apply Zb in C; discriminate).
  destruct (sqrt_fin_pos _ _ Fa) as (ra & Ra & La & Ua); [lra|auto|]. destruct (sqrt_fin_pos _ _ Fb) as (rb & Rb & Lb & Ub); [lra|auto|].
  destruct (mul_fin _ _ ra rb 298 Ra Rb) as [Fm _]; [exact (Rabs_mul_le ra rb 149 149 Ua Ub)|lia|].
  eapply fin_div_not_nan; [exact Fd|exact Fm|].
  assert (pw (-1074) <= rnd (ra * rb)).
  { rewrite <- (Rmult_1_l (pw _)). apply (rnd_ge _ 1); try lia. rewrite Rmult_1_l.
    replace (-1074)%Z with (-537 + -537)%Z by lia. rewrite bpow_plus. apply Rmult_le_compat; auto using bpow_ge_0. }
  pose proof (pw_pos (-1074)). lra.
Qed.

(** *** Euclidean distance *)
Lemma diff_fin x y : finite32 x -> finite32 y ->
  exists d, fin (f64_sub (wide x) (wide y)) d /\ Rabs d <= pw 129 /\ (units x = units y -> d = 0) /\ (units x <> units y -> pw (-149) <= Rabs d).
Proof.
  intros Hx Hy. destruct (wide_fin x Hx) as (u & Fu & Bu & Eu). destruct (wide_fin y Hy) as (v & Fv & Bv & Ev).
  assert (B : Rabs (rnd (u - v)) <= pw 129).
  { rewrite <- (Rmult_1_l (pw 129)). apply (rnd_bound _ 1); try lia. rewrite Rmult_1_l. unfold Rminus.
    eapply Rle_trans; [apply Rabs_triang|]. rewrite Rabs_Ropp. replace 129%Z with (128 + 1)%Z by lia. rewrite bpow_plus.
    change (pw 1) with 2. lra. }
  exists (rnd (u - v)). split; [|split; [exact B|split]].
  - apply fin_sub; auto. eapply Rle_lt_trans; [exact B|]. apply bpow_lt. lia.
  - intros E. rewrite Eu, Ev, E. rewrite Rminus_diag_eq by reflexivity. apply rnd_0.
  - intros N. rewrite <- (Rmult_1_l (pw (-149))). apply (rnd_abs_ge _ 1); try lia. rewrite Rmult_1_l, Eu, Ev.
    rewrite <- Rmult_minus_distr_r, <- minus_IZR, Rabs_mult, <- abs_IZR, (Rabs_pos_eq (pw _)) by apply bpow_ge_0.
    rewrite <- (Rmult_1_l (pw (-149))) at 1. apply Rmult_le_compat_r; [apply bpow_ge_0|]. apply IZR_le. lia.
Qed.

Lemma sq_term x y : finite32 x -> finite32 y ->
  exists t, fin (f64_mul (f64_sub (wide x) (wide y)) (f64_sub (wide x) (wide y))) t /\ Rabs t <= pw 258 /\ 0 <= t /\ (t = 0 <-> units x = units y).
Proof.
  intros Hx Hy. destruct (diff_fin x y Hx Hy) as (d & Fd & Bd & E0 & N0).
  destruct (mul_fin _ _ d d 258 Fd Fd) as [F B]; [exact (Rabs_mul_le d d 129 129 Bd Bd)|lia|].
  exists (rnd (d * d)). split; auto. split; auto. split; [apply rnd_nonneg; pose proof (Rle_0_sqr d); unfold Rsqr in *; lra|].
  split.
  - intros Z. destruct (Z.eq_dec (units x) (units y)) as [|N]; auto. exfalso. specialize (N0 N).
    assert (pw (-298) <= rnd (d * d)).
    { rewrite <- (Rmult_1_l (pw _)). apply (rnd_ge _ 1); try lia. rewrite Rmult_1_l.
      rewrite <- (Rabs_pos_eq (d * d)) by (pose proof (Rle_0_sqr d); unfold Rsqr in *; lra). rewrite Rabs_mult.
      replace (-298)%Z with (-149 + -149)%Z by lia. rewrite bpow_plus. apply Rmult_le_compat; auto using bpow_ge_0. }
    pose proof (pw_pos (-298)). lra.
  - intros E. rewrite (E0 E), Rmult_0_l. apply rnd_0.
Qed.

Lemma dist_fold a : forall b acc r n, Forall finite32 a -> Forall finite32 b -> length a = length b ->
  fin acc r -> 0 <= r -> Rabs r <= IZR n * pw 258 -> (0 <= n)%Z -> (n + Z.of_nat (length a) <= 2 ^ 40)%Z ->
  exists t, fin (fold_left dist_step (combine a b) acc) t /\ r <= t /\ Rabs t <= pw 298 /\
    (t = 0 <-> r = 0 /\ Forall2 (fun x y => units x = units y) a b).
Proof.
  induction a as [|x a IH]; intros [|y b] acc r n Ha Hb Hl Fr Pr Br Hn Hs; try discriminate; cbn [combine fold_left length] in *.
  - exists r. split; auto. split; [lra|]. split.
    + eapply Rle_trans; [exact Br|]. replace 298%Z with (40 + 258)%Z by lia. rewrite bpow_plus.
      apply Rmult_le_compat_r; [apply bpow_ge_0|]. rewrite pw_IZR by lia. apply IZR_le. lia.
    + split; [intros; split; auto|tauto].
  - inversion Ha; inversion Hb; subst. injection Hl as Hl. destruct (sq_term x y) as (t & Ft & Bt & Pt & Zt); auto.
    destruct (sum_step acc _ r t n Fr Ft Bt Br) as [F' B']; [lia|].
    assert (Hge : r <= rnd (r + t)).
    { apply round_ge_generic; auto with typeclass_instances; [|lra]. destruct Fr as (bb & _ & _ & <-). apply generic_format_B2R. }
    assert (Hget : t <= rnd (r + t)).
    { apply round_ge_generic; auto with typeclass_instances; [|lra]. destruct Ft as (bb & _ & _ & <-). apply generic_format_B2R. }
    destruct (IH b (dist_step acc (x, y)) (rnd (r + t)) (n + 1)%Z) as (tt & Ftt & Hle & Btt & Ztt); auto; try lia; try lra.
    exists tt. split; auto. split; [lra|]. split; auto. rewrite Ztt. split.
    + intros [E HF]. split; [lra|]. constructor; auto. apply Zt. lra.
    + intros [E HF]. inversion HF; subst. split; auto. rewrite (proj2 Zt) by auto. rewrite Rplus_0_r. apply rnd_0.
Qed.

Lemma euclidean_lemma a b : Forall finite32 a -> Forall finite32 b -> length a = length b -> (Z.of_nat (length a) <= 2 ^ 31)%Z ->
  is_real (euclidean a b) /\ real_of (euclidean a b) <= 0 /\
  (real_of (euclidean a b) = 0 <-> Forall2 (fun x y => units x = units y) a b).
Proof.
  intros Ha Hb Hl Hs. unfold euclidean. rewrite (proj2 (Nat.eqb_eq _ _) Hl).
  destruct (dist_fold a b f_zero 0 0%Z Ha Hb Hl fin_zero) as (t & Ft & Pt & Bt & Zt); try lra; try lia.
  { rewrite Rabs_R0. lra. }
  pose proof (fin_sqrt _ _ Ft Pt) as Fs. pose proof (fin_opp _ _ Fs) as Fo. pose proof (fin_is_real _ _ Fo) as [R1 R2].
  unfold dist_sum. split; auto. rewrite R2. pose proof (rnd_nonneg (sqrt t) (sqrt_pos t)). split; [lra|].
  destruct (Req_dec t 0) as [E|E].
  - rewrite E, sqrt_0, rnd_0. split; [intros _; apply Zt; auto|intros _; lra].
  - split; [|intros HF; exfalso; apply E; apply Zt; auto]. intros Z. exfalso.
    destruct (sqrt_fin_pos _ _ Ft) as (q & Fq & Lq & _); [lra|exact Bt|].
    pose proof (fin_is_real _ _ Fs) as [_ S1]. pose proof (fin_is_real _ _ Fq) as [_ S2]. pose proof (pw_pos (-537)). lra.
Qed.

Lemma units_real n : finite32 n -> real_of (f32_of_bits n) = IZR (units n) * pw (-149).
Proof.
  intros [H1 H2]. unfold units, real_of. destruct (f32_value n) as [(m & e & s & -> & Hm & He)|[(s & ->)|[E|(s & E)]]].
  - destruct s; rewrite mult_IZR; change 2%Z with (radix_val radix2); rewrite (IZR_Zpower radix2) by lia; rewrite Rmult_assoc, <- bpow_plus; do 2 f_equal; lia.
  - lra.
  - congruence.
  - exfalso; eapply H2; eauto.
Qed.
Lemma units_eq x y : finite32 x -> finite32 y -> (units x = units y <-> real_of (f32_of_bits x) = real_of (f32_of_bits y)).
Proof.
  intros Hx Hy. rewrite !units_real by auto. split; [intros ->; auto|]. intros E. apply Rmult_eq_reg_r in E; [|apply Rgt_not_eq, bpow_gt_0].
  apply eq_IZR; auto.
Qed.
Lemma values_eq a b : Forall finite32 a -> Forall finite32 b -> (Forall2 (fun x y => units x = units y) a b <-> values a = values b).
Proof.
  intros Ha. revert b. induction Ha as [|x a Hx Ha IH]; intros b Hb.
  - split; [inversion 1; auto|]. destruct b; [constructor|discriminate].
  - destruct Hb as [|y b Hy Hb]; [split; [inversion 1|discriminate]|]. cbn. split.
    + inversion 1; subst. f_equal; [apply units_eq; auto|apply IH; auto].
    + intros [= E1 E2]. constructor; [apply units_eq; auto|apply IH; auto].
Qed.
Lemma euclidean_zero_lemma a b : Forall finite32 a -> Forall finite32 b -> length a = length b -> (Z.of_nat (length a) <= 2 ^ 31)%Z ->
  is_real (euclidean a b) /\ real_of (euclidean a b) <= 0 /\ (real_of (euclidean a b) = 0 <-> values a = values b).
Proof. intros. rewrite <- values_eq by auto. apply euclidean_lemma; auto. Qed.

(** *** exact arithmetic: Cauchy-Schwarz *)
Lemma inner_sq_nonneg a : 0 <= inner a a.
Proof. induction a as [|x a IH]; cbn; [lra|]. pose proof (Rle_0_sqr x). unfold Rsqr in *. lra. Qed.
Lemma cauchy_schwarz a : forall b, length a = length b -> inner a b * inner a b <= inner a a * inner b b.
Proof.
  induction a as [|x a IH]; intros [|y b] H; try discriminate; cbn; [lra|]. injection H as H. specialize (IH b H).
  pose proof (inner_sq_nonneg a) as PA. pose proof (inner_sq_nonneg b) as PB.
  set (A := inner a a) in *. set (B := inner b b) in *. set (C := inner a b) in *.
  assert (K : 2 * (x * y * C) <= x * x * B + y * y * A).
  { destruct (Rle_or_lt (x * y * C) 0) as [Hn|Hp].
    - pose proof (Rmult_le_pos (x*x) B (Rle_0_sqr x) PB). pose proof (Rmult_le_pos (y*y) A (Rle_0_sqr y) PA). lra.
    - assert (S1 : (x * y * C) * (x * y * C) <= (x * x * B) * (y * y * A)).
      { replace ((x*y*C)*(x*y*C)) with ((x*x*(y*y)) * (C*C)) by ring. replace (x*x*B*(y*y*A)) with ((x*x*(y*y)) * (A*B)) by ring.
        apply Rmult_le_compat_l; auto. apply Rmult_le_pos; apply Rle_0_sqr. }
      pose proof (Rmult_le_pos (x*x) B (Rle_0_sqr x) PB) as P1. pose proof (Rmult_le_pos (y*y) A (Rle_0_sqr y) PA) as P2.
      set (p := x * y * C) in *. set (u := x*x*B) in *. set (v := y*y*A) in *.
      destruct (Rle_or_lt (2 * p) (u + v)); auto. exfalso.
      assert ((u + v) * (u + v) < (2 * p) * (2 * p)) by (apply Rmult_le_0_lt_compat; lra).
      pose proof (Rle_0_sqr (u - v)). unfold Rsqr in *. lra. }
  replace ((x * y + C) * (x * y + C)) with (x*y*(x*y) + 2*(x*y*C) + C*C) by ring.
  replace ((x*x + A) * (y*y + B)) with (x*y*(x*y) + x*x*B + y*y*A + A*B) by ring. lra.
Qed.
Lemma exact_cosine_range a b : length a = length b -> inner a a <> 0 -> inner b b <> 0 -> -1 <= exact_cosine a b <= 1.
Proof.
  intros H Na Nb. unfold exact_cosine. pose proof (inner_sq_nonneg a) as PA. pose proof (inner_sq_nonneg b) as PB.
  assert (P : 0 < sqrt (inner a a) * sqrt (inner b b)) by (apply Rmult_lt_0_compat; apply sqrt_lt_R0; lra).
  set (D := sqrt (inner a a) * sqrt (inner b b)) in *.
  assert (S : inner a b * inner a b <= D * D).
  { unfold D. replace (sqrt (inner a a) * sqrt (inner b b) * (sqrt (inner a a) * sqrt (inner b b)))
      with ((sqrt (inner a a) * sqrt (inner a a)) * (sqrt (inner b b) * sqrt (inner b b))) by ring.
    rewrite !sqrt_sqrt by lra. apply cauchy_schwarz; auto. }
  assert (B : Rabs (inner a b) <= D).
  { rewrite <- (Rabs_pos_eq D) by lra. apply Rsqr_le_abs_0. exact S. }
  apply Rabs_le_inv in B.
  assert (Q : forall k, k = k * D / D) by (intros; field; lra).
  split.
  - rewrite (Q (-1)). apply Rmult_le_compat_r; [apply Rlt_le, Rinv_0_lt_compat; auto|lra].
  - rewrite (Q 1). apply Rmult_le_compat_r; [apply Rlt_le, Rinv_0_lt_compat; auto|lra].
Qed.
