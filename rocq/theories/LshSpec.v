(** Vocabulary for C43. *)
From Coq Require Import String List NArith ZArith Bool Permutation Sorted.
From Coq Require Import Floats.SpecFloat.
From Verif Require Import Base Floats64 IndexDistModel LshModel.
Import ListNotations.

(** What a history leaves stored under an id. *)
Definition lsh_after (dim : nat) (id : string) (cur : option (list N)) (o : lop) : option (list N) :=
  match o with
  | LInsert i v => if Nat.eqb (length v) dim && String.eqb i id then Some v else cur
  | LDelete i => if String.eqb i id then None else cur
  | LClear => None
  end.
Definition lsh_holds (dim : nat) (ops : list lop) (id : string) : option (list N) := fold_left (lsh_after dim id) ops None.

(** The query and the vector are on the same side of the first 64 hyperplanes of a table. *)
Definition same_sides (ps : list (list N)) (q v : list N) : Prop :=
  forall i p, i < 64 -> nth_error ps i = Some p -> flt f_zero (dot32 q p) = flt f_zero (dot32 v p).
(** No vector is inserted under an id that is still stored. *)
Definition no_reinsertion (dim : nat) (ops : list lop) : Prop :=
  forall before id v later, ops = before ++ LInsert id v :: later -> length v = dim -> lsh_holds dim before id = None.
Definition nearer (a b : float * string) : bool := flt (fst a) (fst b).
Definition visits_all (order : list string -> list string) : Prop := forall l, Permutation l (order l).
