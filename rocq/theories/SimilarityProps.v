(** C63: the built-in similarity functions. *)
From Coq Require Import List NArith ZArith Bool Reals Lra.
From Coq Require Import Floats.SpecFloat.
From Verif Require Import Base Floats64 SimilarityModel SimilaritySpec SimilarityProofs.
Import ListNotations.

(** Swapping the arguments gives the same float, for all bit patterns. *)
Theorem similarity_symmetric :
  forall a b, cosine a b = cosine b a /\ dot_product a b = dot_product b a /\ euclidean a b = euclidean b a.
Proof. intros a b. exact (conj (cosine_symmetric_lemma a b) (conj (dot_symmetric_lemma a b) (euclidean_symmetric_lemma a b))). Qed.
Example similarity_symmetric_ex :
  euclidean [0x3f800000%N; 0x40000000%N] [0x40400000%N; 0x3e000000%N] <> f_zero /\
  cosine [0x3f800000%N; 0x40000000%N] [0x40400000%N; 0x3e000000%N] <> f_zero.
Proof. split; vm_compute; discriminate. Qed.

(** Vectors of different length. *)
Theorem similarity_length_mismatch :
  forall a b, length a <> length b -> cosine a b = f_zero /\ dot_product a b = f_zero /\ euclidean a b = f_ninf.
Proof.
  intros a b H. unfold cosine, dot_product, euclidean. apply PeanoNat.Nat.eqb_neq in H. rewrite H. auto.
Qed.

(** Finite vectors of any length a store accepts never score NaN, and dot products
    and distances never overflow. *)
Theorem similarity_finite :
  forall a b, Forall finite32 a -> Forall finite32 b -> length a = length b -> (Z.of_nat (length a) <= 2 ^ 31)%Z ->
  not_nan (cosine a b) /\ is_real (dot_product a b) /\ is_real (euclidean a b).
Proof.
  intros a b Ha Hb Hl Hs. split; [apply cosine_not_nan_lemma; auto|]. split; [apply dot_real_lemma; auto|].
  apply euclidean_zero_lemma; auto.
Qed.
Example similarity_finite_ex : Forall finite32 [0x7f7fffff%N; 0x00000001%N; 0xff7fffff%N].
Proof. repeat constructor; vm_compute; discriminate. Qed.

(** The negated distance is at most 0, and 0 exactly when the vectors hold the same
    numbers: no rounding or underflow makes distinct vectors coincide. *)
Theorem euclidean_zero_iff_equal :
  forall a b, Forall finite32 a -> Forall finite32 b -> length a = length b -> (Z.of_nat (length a) <= 2 ^ 31)%Z ->
  (real_of (euclidean a b) <= 0)%R /\ (real_of (euclidean a b) = 0%R <-> values a = values b).
Proof. intros a b Ha Hb Hl Hs. apply euclidean_zero_lemma; auto. Qed.
Example euclidean_zero_iff_equal_ex :
  feq (euclidean [0%N] [1%N]) f_zero = false /\ feq (euclidean [0%N] [0x80000000%N]) f_zero = true.
Proof. split; vm_compute; reflexivity. Qed.

(** In exact arithmetic the cosine of non-zero vectors lies in [-1, 1]. *)
Theorem exact_cosine_in_range :
  forall a b, length a = length b -> inner a a <> 0%R -> inner b b <> 0%R -> (-1 <= exact_cosine a b <= 1)%R.
Proof. exact exact_cosine_range. Qed.
Example exact_cosine_in_range_ex : inner [3; 4]%R [3; 4]%R <> 0%R.
Proof. cbn. lra. Qed.

Print Assumptions similarity_symmetric.
Print Assumptions similarity_length_mismatch.
Print Assumptions similarity_finite.
Print Assumptions euclidean_zero_iff_equal.
Print Assumptions exact_cosine_in_range.
