(** Model of CompressionRatio of the three quantisers, /repo/pkg/quantization: exact
    fractions instead of float32 division; dimension 0 is NaN in Go and 0 here. *)
From Coq Require Import QArith.
From Verif Require Import Base Floats64 QuantModel PQModel.
Open Scope Q_scope.

Definition ratio (a b : nat) : Q := inject_Z (Z.of_nat a) / inject_Z (Z.of_nat b).
(** product_quantization.go:222-226. *)
Definition pq_ratio (p : pquant) : Q := ratio (pq_d p * 4) (pq_m p).
(** scalar_quantization.go:170-174. *)
Definition sq_ratio (A : arith) (s : squant A) : Q := ratio (sq_dim A s * 32) (sq_dim A s * sq_bits A s).
(** scalar_quantization.go:339-343. *)
Definition bq_ratio (s : bquant) : Q := ratio (bq_dim s * 32) (bq_dim s).
