(** Specification vocabulary for the HNSW index (C37-C39). The graph does not
    appear here: an index is described by the history of calls made on it. *)
From Coq Require Import String List Arith Bool.
From Coq Require Import Floats.SpecFloat.
From Verif Require Import Base Floats64 HnswModel.
Import ListNotations.

Section Spec.
Context {vec : Type}.
Variable dist : vec -> vec -> float.
(** What the index keeps of a vector: the vector itself, or its dequantised form. *)
Variable keep : vec -> vec.

(** The contents of an index: each id with the vector first inserted under it and
    whether it has been deleted since. *)
Definition content := list (string * (vec * bool)).
Definition c_has (c : content) (id : string) : bool := existsb (fun e => String.eqb (fst e) id) c.
Definition c_insert (c : content) (x : string * vec) : content :=
  if c_has c (fst x) then c else c ++ [(fst x, (keep (snd x), false))].
Definition c_delete (c : content) (id : string) : content :=
  map (fun e => if String.eqb (fst e) id then (fst e, (fst (snd e), true)) else e) c.
Definition c_step (c : content) (o : hop vec) : content :=
  match o with
  | HInsert id v _ => c_insert c (id, v)
  | HBatch vs | HParallel vs _ => fold_left c_insert (map fst vs) c
  | HDelete id _ => c_delete c id
  end.
Definition contents (ops : list (hop vec)) : content := fold_left c_step ops [].

(** The stored vectors: inserted and not deleted. *)
Definition live (c : content) : list (string * vec) :=
  map (fun e => (fst e, fst (snd e))) (filter (fun e => negb (snd (snd e))) c).

(** A search answer as (distance, id) pairs; nearest first. *)
Definition nearer (a b : float * string) : bool := flt (fst a) (fst b).
(** All stored vectors with their distance to the query. *)
Definition with_distance (q : vec) (l : list (string * vec)) : list (float * string) :=
  map (fun p => (dist q (snd p), fst p)) l.
Definition distances_are_numbers (q : vec) (l : list (string * vec)) : Prop :=
  forall id v, In (id, v) l -> not_nan (dist q v).

(** The links of a node, layer by layer. *)
Definition links (h : hnsw vec) (x : string) (layer : nat) : list string :=
  match get (h_nodes h) x with
  | Some n => nth layer (n_nbrs n) []
  | None => []
  end.
Definition known (h : hnsw vec) (x : string) : Prop := In x (map fst (h_nodes h)).

(** Histories without bulk-parallel insertion. *)
Definition sequential (ops : list (hop vec)) : Prop :=
  forall vs w, In (HParallel vs w) ops -> w <= 1.
End Spec.
