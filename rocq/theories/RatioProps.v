(** Properties of CompressionRatio. *)
From Coq Require Import List Arith ZArith QArith Bool Lia.
From Verif Require Import Base Floats64 QuantModel PQModel PQSpec PQProofs QuantProofs QuantProps PQProps RatioModel.
Import ListNotations.
Open Scope nat_scope.

(** *** C238 *)
(** The ratio is that of the bytes of a vector, four for each component, and of its code. *)
Definition true_ratio (r : Q) (dim : nat) (code : list N) : Prop := (r * inject_Z (Z.of_nat (length code)) == inject_Z (Z.of_nat (4 * dim)))%Q.
(** The code is as long as the ratio promises, or longer by less than a byte. *)
Definition within_a_byte (r : Q) (dim : nat) (code : list N) : Prop :=
  (inject_Z (Z.of_nat (4 * dim)) <= r * inject_Z (Z.of_nat (length code)) /\ r * (inject_Z (Z.of_nat (length code)) - 1) < inject_Z (Z.of_nat (4 * dim)))%Q.

Lemma ratio_mul a b c d : b <> 0 -> a * c = d * b -> (ratio a b * inject_Z (Z.of_nat c) == inject_Z (Z.of_nat d))%Q.
Proof.
  intros B E. unfold ratio. assert (N : ~ (inject_Z (Z.of_nat b) == 0)%Q) by (intros X; apply B; unfold Qeq in X; cbn in X; lia).
  setoid_replace (inject_Z (Z.of_nat a) / inject_Z (Z.of_nat b) * inject_Z (Z.of_nat c))%Q with (inject_Z (Z.of_nat a) * inject_Z (Z.of_nat c) / inject_Z (Z.of_nat b))%Q by (field; exact N).
  rewrite <- inject_Z_mult, <- Nat2Z.inj_mul, E, Nat2Z.inj_mul, inject_Z_mult. field. exact N.
Qed.
Lemma ratio_within a b bytes dim (code : list N) : b <> 0 -> a = dim * 32 -> length code = bytes -> b <= 8 * bytes -> 8 * bytes < b + 8 -> 0 < dim -> within_a_byte (ratio a b) dim code.
Proof.
  intros B -> <- L1 L2 D. unfold within_a_byte. assert (P : (0 < inject_Z (Z.of_nat b))%Q) by (unfold Qlt; cbn; lia).
  split.
  - unfold ratio. setoid_replace (inject_Z (Z.of_nat (dim * 32)) / inject_Z (Z.of_nat b) * inject_Z (Z.of_nat (length code)))%Q
      with (inject_Z (Z.of_nat (dim * 32)) * inject_Z (Z.of_nat (length code)) / inject_Z (Z.of_nat b))%Q by (field; intros X; rewrite X in P; discriminate).
    apply Qle_shift_div_l; [exact P|]. rewrite <- !inject_Z_mult, <- !Nat2Z.inj_mul. rewrite <- Zle_Qle. nia.
  - unfold ratio. setoid_replace (inject_Z (Z.of_nat (dim * 32)) / inject_Z (Z.of_nat b) * (inject_Z (Z.of_nat (length code)) - 1))%Q
      with (inject_Z (Z.of_nat (dim * 32)) * (inject_Z (Z.of_nat (length code)) - 1) / inject_Z (Z.of_nat b))%Q by (field; intros X; rewrite X in P; discriminate).
    apply Qlt_shift_div_r; [exact P|]. change 1%Q with (inject_Z 1). unfold Qminus. rewrite <- inject_Z_opp, <- inject_Z_plus, <- !inject_Z_mult. rewrite <- Zlt_Qlt. nia.
Qed.
(** Product quantisation: exact. *)
Theorem product_ratio : forall dist p v, wf_pq p -> 0 < pq_m p -> length v = pq_d p ->
  exists cs, pq_encode dist p v = Ok cs /\ true_ratio (pq_ratio p) (pq_d p) cs.
Proof.
  intros dist p v W M L. destruct (pq_encode_spec dist p v W L) as (cs & E & Lc & _). exists cs. split; [exact E|]. unfold true_ratio, pq_ratio. apply ratio_mul; [lia|]. rewrite Lc. lia.
Qed.
Lemma bytes_bound n : n <= 8 * Nat.div (n + 7) 8 /\ 8 * Nat.div (n + 7) 8 < n + 8.
Proof. pose proof (Nat.div_mod (n + 7) 8 ltac:(lia)). pose proof (Nat.mod_upper_bound (n + 7) 8 ltac:(lia)). lia. Qed.
(** Scalar and binary quantisation: exact when the bits fill whole bytes, and otherwise the
    ratio overstates by less than a byte. *)
Theorem scalar_ratio : forall (A : arith) dim bits vs s0 s v, sq_new A dim bits = Ok s0 -> sq_train A s0 vs = Ok s -> length v = dim -> 0 < dim ->
  exists bs, sq_encode A s v = Ok bs /\ within_a_byte (sq_ratio A s) dim bs /\ (Nat.modulo (dim * Z.to_nat bits) 8 = 0 -> true_ratio (sq_ratio A s) dim bs).
Proof.
  intros A dim bits vs s0 s v H0 H1 L D. destruct (scalar_encode_decode A dim bits vs s0 s v H0 H1 L) as (bs & E & Lb & _). exists bs. split; [exact E|].
  assert (F : sq_dim A s = dim /\ sq_bits A s = Z.to_nat bits /\ 0 < Z.to_nat bits).
  { revert H0 H1. unfold sq_new. destruct (Z.ltb_spec bits 1) as [G|G]; [discriminate|]. destruct (8 <? bits)%Z; [discriminate|]. cbn [orb]. intros [= <-]. unfold sq_train. destruct vs as [|v0 vs]; [discriminate|].
    cbn [sq_dim sq_bits]. destruct (length v0 <? dim); [discriminate|]. cbv zeta. destruct (train_loop _ _ _ _ _) as [[mn mx]| |]; cbn [bind]; [|discriminate|discriminate]. intros [= <-]. cbn. repeat split. lia. }
  destruct F as (F1 & F2 & F3). unfold sq_ratio. rewrite F1, F2. pose proof (bytes_bound (dim * Z.to_nat bits)) as [B1 B2]. split.
  - eapply ratio_within; [nia|reflexivity|exact Lb|exact B1|exact B2|exact D].
  - intros M. apply ratio_mul; [nia|]. rewrite Lb. set (n := dim * Z.to_nat bits) in *. pose proof (Nat.div_mod n 8 ltac:(lia)). assert (8 * Nat.div (n + 7) 8 = n) by lia. nia.
Qed.
Theorem binary_ratio : forall s v, bq_trained s = true -> length (bq_thr s) = bq_dim s -> length v = bq_dim s -> 0 < bq_dim s ->
  exists bs, bq_encode s v = Ok bs /\ within_a_byte (bq_ratio s) (bq_dim s) bs /\ (Nat.modulo (bq_dim s) 8 = 0 -> true_ratio (bq_ratio s) (bq_dim s) bs).
Proof.
  intros s v T Lt L D. destruct (binary_code_bits s v T Lt L) as (bs & E & Lb & _). exists bs. split; [exact E|]. unfold bq_ratio. pose proof (bytes_bound (bq_dim s)) as [B1 B2]. split.
  - eapply ratio_within; [lia|reflexivity|exact Lb|exact B1|exact B2|exact D].
  - intros M. apply ratio_mul; [lia|]. rewrite Lb. set (n := bq_dim s) in *. pose proof (Nat.div_mod n 8 ltac:(lia)). assert (8 * Nat.div (n + 7) 8 = n) by lia. nia.
Qed.
Definition one_bit : bquant := {| bq_dim := 2; bq_thr := [f32_of_Z 0; f32_of_Z 0]; bq_trained := true |}.
Example binary_ratio_ex : bq_encode one_bit [f32_of_Z 1; f32_of_Z 1] = Ok [3%N] /\ (bq_ratio one_bit == 32)%Q /\ within_a_byte (bq_ratio one_bit) 2 [3%N].
Proof. split; [vm_compute; reflexivity|]. split; [vm_compute; reflexivity|]. split; [vm_compute; discriminate|vm_compute; reflexivity]. Qed.
Example scalar_ratio_ex : exists s0 s bs, sq_new Qarith 2 3 = Ok s0 /\ sq_train Qarith s0 ex_vs = Ok s /\ sq_encode Qarith s [1 # 2; 15]%Q = Ok bs /\ (sq_ratio Qarith s == 32 # 3)%Q /\ length bs = 1.
Proof. do 3 eexists. repeat split; vm_compute; reflexivity. Qed.
Example product_ratio_ex : pq_encode euclid ex_pq [ex_two; 0%N] = Ok [1%N; 1%N] /\ (pq_ratio ex_pq == 4)%Q.
Proof. split; vm_compute; reflexivity. Qed.
Print Assumptions product_ratio.
Print Assumptions scalar_ratio.
Print Assumptions binary_ratio.
(** Refuted as to being exact: a binary code of two dimensions has one byte, a ratio of 8 and
    not of 32. *)
Theorem ratio_refuted : exists s v bs, bq_trained s = true /\ bq_encode s v = Ok bs /\ length v = bq_dim s /\ ~ true_ratio (bq_ratio s) (bq_dim s) bs.
Proof. exists one_bit, [f32_of_Z 1; f32_of_Z 1], [3%N]. split; [reflexivity|]. split; [vm_compute; reflexivity|]. split; [reflexivity|]. vm_compute. discriminate. Qed.
Print Assumptions ratio_refuted.
