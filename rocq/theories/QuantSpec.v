(** Vocabulary for the quantisation properties, independent of the model. *)
From Coq Require Import List NArith ZArith QArith Bool.
Import ListNotations.

(** A []byte. *)
Definition is_bytes (a : list N) : Prop := Forall (fun x => (x < 256)%N) a.

(** Bit number [o] of a byte string, least significant bit of byte 0 first. *)
Definition getb (bs : list N) (o : nat) : bool :=
  match nth_error bs (Nat.div o 8) with
  | Some x => N.testbit x (N.of_nat (Nat.modulo o 8))
  | None => false
  end.

(** Positions at which two codes differ. *)
Definition diff_bits (a b : list N) : list nat :=
  filter (fun o => xorb (getb a o) (getb b o)) (seq 0 (8 * length a)).

(** [v] clamped to the interval [lo, hi]. *)
Definition clampQ (lo hi v : Q) : Q := if Qle_bool v lo then lo else if Qle_bool hi v then hi else v.

(** Pointwise relation on four lists of equal length. *)
Inductive Forall4 {A B C D} (P : A -> B -> C -> D -> Prop) : list A -> list B -> list C -> list D -> Prop :=
| F4nil : Forall4 P [] [] [] []
| F4cons a b c d la lb lc ld : P a b c d -> Forall4 P la lb lc ld -> Forall4 P (a :: la) (b :: lb) (c :: lc) (d :: ld).
