(** What the similarity theorems are stated in terms of. *)
From Coq Require Import List NArith ZArith Reals.
From Coq Require Import Floats.SpecFloat.
From Flocq Require Import Core.Core.
From Verif Require Import Base Floats64.
Import ListNotations.
Open Scope R_scope.

(** A finite float32 bit pattern. *)
Definition finite32 (n : N) : Prop := not_nan (f32_of_bits n) /\ forall s, f32_of_bits n <> S754_infinity s.

(** The real number a float denotes (0 for NaN and infinities). *)
Definition real_of (f : float) : R :=
  match f with
  | S754_finite s m e => IZR (if s then Zneg m else Zpos m) * bpow radix2 e
  | _ => 0
  end.
(** A float that denotes a real number. *)
Definition is_real (f : float) : Prop := match f with S754_finite _ _ _ | S754_zero _ => True | _ => False end.

(** Component values of a vector, exact inner product, and exact squared distance. *)
Definition values (v : list N) : list R := map (fun n => real_of (f32_of_bits n)) v.
Fixpoint inner (a b : list R) : R :=
  match a, b with x :: a', y :: b' => x * y + inner a' b' | _, _ => 0 end.
Fixpoint sqdist (a b : list R) : R :=
  match a, b with x :: a', y :: b' => (x - y) * (x - y) + sqdist a' b' | _, _ => 0 end.
(** Exact cosine. *)
Definition exact_cosine (a b : list R) : R := inner a b / (sqrt (inner a a) * sqrt (inner b b)).
