(** Model of /repo/pkg/core/similarity.go. Vectors are lists of float32 bit
    patterns; every operation is a float64 operation rounded to nearest even
    (compilers that fuse multiply and add, as Go may on some architectures, are not
    modelled). *)
From Coq Require Import List NArith ZArith Bool.
From Coq Require Import Floats.SpecFloat.
From Verif Require Import Base Floats64.
Import ListNotations.

(** float64(a[i]). *)
Definition wide (n : N) : float := f64_of_f32 (f32_of_bits n).

(** dotProduct += float64(a[i]) * float64(b[i]), similarity.go:44-48 and 64-67. *)
Definition dot_step (acc : float) (p : N * N) : float :=
  f64_add acc (f64_mul (wide (fst p)) (wide (snd p))).
Definition dot_sum (a b : list N) : float := fold_left dot_step (combine a b) f_zero.

(** diff := a[i]-b[i]; sum += diff*diff, similarity.go:80-83. *)
Definition dist_step (acc : float) (p : N * N) : float :=
  let d := f64_sub (wide (fst p)) (wide (snd p)) in f64_add acc (f64_mul d d).
Definition dist_sum (a b : list N) : float := fold_left dist_step (combine a b) f_zero.

(** dotProduct, similarity.go:59-70. *)
Definition dot_product (a b : list N) : float :=
  if Nat.eqb (length a) (length b) then dot_sum a b else f_zero.

(** cosineSimilarity, similarity.go:37-56. The three accumulators of its loop are
    independent, so they are three folds. *)
Definition cosine (a b : list N) : float :=
  if Nat.eqb (length a) (length b) then
    let d := dot_sum a b in
    let na := dot_sum a a in
    let nb := dot_sum b b in
    if feq na f_zero || feq nb f_zero then f_zero
    else f64_div d (f64_mul (f64_sqrt na) (f64_sqrt nb))
  else f_zero.

(** euclideanDistance, similarity.go:74-86. *)
Definition euclidean (a b : list N) : float :=
  if Nat.eqb (length a) (length b) then SFopp (f64_sqrt (dist_sum a b)) else f_ninf.
