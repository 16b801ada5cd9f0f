(** Vocabulary for C40 and C41: an index is described by the calls made on it. *)
From Coq Require Import String List NArith ZArith Bool.
From Coq Require Import Floats.SpecFloat.
From Verif Require Import Base Floats64 TopK IvfModel.
Import ListNotations.

(** The stored (id, vector) pairs: accepted additions, in order; a deletion removes the
    first pair with the id. *)
Fixpoint without_first (id : string) (l : list (string * list N)) : list (string * list N) :=
  match l with
  | [] => []
  | p :: l' => if String.eqb (fst p) id then l' else p :: without_first id l'
  end.
Definition stored_step (dim : nat) (l : list (string * list N)) (o : iop) : list (string * list N) :=
  match o with
  | IAdd id v => if Nat.eqb (length v) dim then l ++ [(id, v)] else l
  | IDelete id => without_first id l
  | IClear => []
  | ISetProbe _ => l
  end.
Definition stored (dim : nat) (ops : list iop) : list (string * list N) := fold_left (stored_step dim) ops [].

(** The number of lists probed: the last setting, at first 10, and at most all. *)
Definition probes (nc : nat) (ops : list iop) : Z :=
  fold_left (fun n o => match o with ISetProbe m => Z.min m (Z.of_nat nc) | _ => n end) ops (Z.min (Z.of_nat nc) 10).

Section Spec.
Variable dist : list N -> list N -> float.
Definition nearer (a b : float * string) : bool := flt (fst a) (fst b).
Definition with_distance (q : list N) (l : list (string * list N)) : list (float * string) :=
  map (fun p => (dist q (snd p), fst p)) l.
Definition distances_are_numbers (q : list N) (l : list (list N)) : Prop := forall v, In v l -> not_nan (dist q v).
(** Centroid [c] is a nearest one to [v]. *)
Definition is_nearest (cents : list (list N)) (v : list N) (c : nat) : Prop :=
  exists x, nth_error cents c = Some x /\ forall y, In y cents -> flt (dist v y) (dist v x) = false.
(** Some centroid is closer to [v] than the largest float32. *)
Definition in_reach (cents : list (list N)) (v : list N) : Prop := exists x, In x cents /\ flt (dist v x) max_float32 = true.
End Spec.

(** Histories without deletions. *)
Definition no_deletions (ops : list iop) : Prop := forall id, ~ In (IDelete id) ops.
(** Every deletion hits a pair after which no pair with the same list was stored. *)
Fixpoint split_first (id : string) (l : list (string * list N)) : option (list N * list (string * list N)) :=
  match l with
  | [] => None
  | p :: l' => if String.eqb (fst p) id then Some (snd p, l') else split_first id l'
  end.
Fixpoint deletes_last (dim : nat) (list_of : list N -> nat) (l : list (string * list N)) (ops : list iop) : Prop :=
  match ops with
  | [] => True
  | o :: ops' =>
      match o with
      | IDelete id => match split_first id l with
                      | Some (v, later) => forall p, In p later -> list_of (snd p) <> list_of v
                      | None => True
                      end
      | _ => True
      end /\ deletes_last dim list_of (stored_step dim l o) ops'
  end.
