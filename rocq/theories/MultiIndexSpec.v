(** Vocabulary for C44. *)
From Coq Require Import String List NArith Bool.
Import ListNotations.

(** The first vector given for each id, in order; [seen] are ids met before. *)
Fixpoint first_per_id (seen : list string) (l : list (string * list N)) : list (string * list N) :=
  match l with
  | [] => []
  | p :: l' => if existsb (String.eqb (fst p)) seen then first_per_id seen l'
               else p :: first_per_id (seen ++ [fst p]) l'
  end.
