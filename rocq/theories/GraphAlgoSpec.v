(** Specifications for the graph algorithms. *)
From Coq Require Import String List NArith ZArith QArith Qabs Bool Permutation.
From Coq Require Import Floats.SpecFloat.
From Verif Require Import Base Floats64 StoreModel GraphModel GraphSpec.
Import ListNotations.
Open Scope string_scope.
Open Scope list_scope.
Open Scope nat_scope.

Fixpoint qsum (l : list Q) : Q := match l with [] => 0%Q | x :: r => (x + qsum r)%Q end.
Definition stored (g : gdb) (x : string) : bool := existsb (fun n => String.eqb (n_id n) x) (g_nodes g).
(** The edges that go out of [x], and those that lead to [x], between stored nodes. *)
Definition edges_from (g : gdb) (x : string) : list gedge := filter (fun e => String.eqb (ge_from e) x && stored g (ge_to e)) (g_edges g).
Definition edges_to (g : gdb) (x : string) : list gedge := filter (fun e => String.eqb (ge_to e) x && stored g (ge_from e)) (g_edges g).
(** The textbook iteration: a surfer follows one of the outgoing edges with probability
    [d] and jumps to any node otherwise. *)
Fixpoint surf (g : gdb) (d : Q) (k : nat) (x : string) : Q :=
  let n := inject_Z (Z.of_nat (length (g_nodes g))) in
  match k with
  | O => 1 / n
  | S k => (1 - d) / n + d * qsum (map (fun e => surf g d k (ge_from e) / inject_Z (Z.of_nat (length (edges_from g (ge_from e))))) (edges_to g x))
  end%Q.

(** [x] and [y] are joined by a path of edges, whatever their directions. *)
Definition joined (g : gdb) (x y : string) : Prop := exists k, hops g "both" [] k x y.
(** [k] is the number of connected components of the stored nodes: [k] stored nodes can be
    chosen, no two of them joined, so that every stored node is joined to one of them. *)
Definition component_count (g : gdb) (k : Z) : Prop :=
  exists reps, Z.of_nat (length reps) = k /\ NoDup reps /\ (forall x, In x reps -> has_node g x) /\
    (forall x y, In x reps -> In y reps -> joined g x y -> x = y) /\
    (forall x, has_node g x -> exists y, In y reps /\ joined g x y).

(** An edge joins [x] and [y], in either direction. *)
Definition beside (g : gdb) (x y : string) : Prop :=
  exists e, In e (g_edges g) /\ ((ge_from e = x /\ ge_to e = y) \/ (ge_from e = y /\ ge_to e = x)).
