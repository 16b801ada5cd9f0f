(** Vocabulary for C42: what a history of calls leaves stored under an id. *)
From Coq Require Import String List NArith ZArith Bool Permutation Sorted.
From Coq Require Import Floats.SpecFloat.
From Verif Require Import Base Floats64 FlatModel.
Import ListNotations.

(** One accepted or refused insertion, seen from one id. *)
Definition after_insert (dim : nat) (norm : bool) (id : string) (cur : option (list N)) (p : string * list N) : option (list N) :=
  if Nat.eqb (length (snd p)) dim && String.eqb (fst p) id then Some (prepare norm (snd p)) else cur.
(** A batch stores the pairs before the first one of the wrong dimension, and nothing
    when the two lists differ in length. *)
Fixpoint good_prefix (dim : nat) (l : list (string * list N)) : list (string * list N) :=
  match l with
  | [] => []
  | p :: l' => if Nat.eqb (length (snd p)) dim then p :: good_prefix dim l' else []
  end.
Definition after (dim : nat) (norm : bool) (id : string) (cur : option (list N)) (o : fop) : option (list N) :=
  match o with
  | FInsert i v => after_insert dim norm id cur (i, v)
  | FBatch ids vs => if Nat.eqb (length ids) (length vs)
                     then fold_left (after_insert dim norm id) (good_prefix dim (combine ids vs)) cur else cur
  | FDelete i => if String.eqb i id then None else cur
  | FClear => None
  end.
(** What is stored under [id] after the calls [ops] on a new index. *)
Definition holds (dim : nat) (norm : bool) (ops : list fop) (id : string) : option (list N) :=
  fold_left (after dim norm id) ops None.

(** [all] lists every stored id once with the distance of its vector to [q]. *)
Definition lists_distances (dist : list N -> list N -> float) (q : list N) (stored : string -> option (list N)) (all : list (float * string)) : Prop :=
  NoDup (map snd all) /\ forall d id, In (d, id) all <-> exists v, stored id = Some v /\ d = dist q v.
Definition nearer (a b : float * string) : bool := flt (fst a) (fst b).
(** An order in which a map may be visited. *)
Definition visits_all (order : list (string * list N) -> list (string * list N)) : Prop := forall l, Permutation l (order l).
