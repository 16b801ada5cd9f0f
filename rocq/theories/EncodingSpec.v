(** Vocabulary for the encoding properties, independent of the model. *)
From Coq Require Import List NArith.
From Coq Require Import Init.Byte.
From Coq Require Import Strings.Byte.
Import ListNotations.
Local Open Scope N_scope.

(** A component list is a possible []float32. *)
Definition float32_bits (xs : list N) : Prop := Forall (fun x => x < 2^32) xs.

(** Little-endian value of a byte string. *)
Fixpoint le_value (bs : list byte) : N :=
  match bs with [] => 0 | b :: bs' => Byte.to_N b + 256 * le_value bs' end.
