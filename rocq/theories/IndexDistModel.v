(** The distance functions of /repo/pkg/index/hnsw.go:592-630, in float32 arithmetic
    rounded to nearest even (no fused multiply-add). Vectors are lists of float32 bit
    patterns. The Go loops index b with the indexes of a and panic when b is shorter;
    these definitions stop at the shorter vector, so they model calls on vectors of
    equal length. *)
From Coq Require Import List NArith ZArith Bool.
From Coq Require Import Floats.SpecFloat.
From Verif Require Import Base Floats64.
Import ListNotations.

(** sum += a[i] * b[i], hnsw.go:607-611, 624-627. *)
Definition dot32_step (acc : float) (p : N * N) : float :=
  f32_add acc (f32_mul (f32_of_bits (fst p)) (f32_of_bits (snd p))).
Definition dot32 (a b : list N) : float := fold_left dot32_step (combine a b) f_zero.
(** float32(math.Sqrt(float64(x))). *)
Definition sqrt32 (x : float) : float := f32_of_f64 (f64_sqrt (f64_of_f32 x)).

(** EuclideanDistance, hnsw.go:595-602. *)
Definition sq32_step (acc : float) (p : N * N) : float :=
  let d := f32_sub (f32_of_bits (fst p)) (f32_of_bits (snd p)) in f32_add acc (f32_mul d d).
Definition euclidean_distance (a b : list N) : float := sqrt32 (fold_left sq32_step (combine a b) f_zero).

(** CosineDistance, hnsw.go:605-619. *)
Definition cosine_distance (a b : list N) : float :=
  let na := dot32 a a in
  let nb := dot32 b b in
  if feq na f_zero || feq nb f_zero then f32_of_Z 1
  else f32_sub (f32_of_Z 1) (f32_div (dot32 a b) (f32_mul (sqrt32 na) (sqrt32 nb))).

(** DotProductDistance, hnsw.go:622-629. *)
Definition dot_distance (a b : list N) : float := SFopp (dot32 a b).
