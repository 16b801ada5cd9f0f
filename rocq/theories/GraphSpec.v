(** What a user of the graph relies on, without the model's helper functions. *)
From Coq Require Import String List NArith ZArith Bool.
From Coq Require Import Floats.SpecFloat.
From Verif Require Import Base Floats64 StoreModel GraphModel.
Import ListNotations.
Open Scope string_scope.
Open Scope list_scope.

(** Graphs reachable from an empty one by any history of calls, each call meeting an
    environment that [P] allows. *)
Inductive greachable (P : env -> Prop) : gdb -> Prop :=
| gr_new : greachable P new_graph
| gr_step d ev o : greachable P d -> P ev -> greachable P (gstep ev d o).

Definition has_node (d : gdb) (id : string) : Prop := exists n, In n (g_nodes d) /\ n_id n = id.
(** Ids are unique and no edge dangles. *)
Definition unique_ids (d : gdb) : Prop := NoDup (map n_id (g_nodes d)) /\ NoDup (map ge_id (g_edges d)).
Definition no_dangling (d : gdb) : Prop := forall e, In e (g_edges d) -> has_node d (ge_from e) /\ has_node d (ge_to e).
(** No edge was given a weight that is not a number. *)
Definition weights_numbers (d : gdb) : Prop := forall e, In e (g_edges d) -> not_nan (ge_weight e).

(** [walk d x p y]: the stored edges [p] lead from [x] to [y], one after the other. *)
Inductive walk (d : gdb) : string -> list gedge -> string -> Prop :=
| walk_here x : walk d x [] x
| walk_edge x e p y : In e (g_edges d) -> ge_from e = x -> walk d (ge_to e) p y -> walk d x (e :: p) y.

(** One hop of a traversal from [x] to [y] over an edge of an allowed type: forwards unless
    the direction is "in", backwards unless it is "out". *)
Definition hop (d : gdb) (dir : string) (types : list string) (x y : string) : Prop :=
  exists e, In e (g_edges d) /\ (types = [] \/ In (ge_type e) types) /\
    ((dir <> "in" /\ ge_from e = x /\ ge_to e = y) \/ (dir <> "out" /\ ge_to e = x /\ ge_from e = y)).
(** [hops d dir types n x y]: [n] such hops lead from [x] to [y]. *)
Inductive hops (d : gdb) (dir : string) (types : list string) : nat -> string -> string -> Prop :=
| hops_0 x : hops d dir types 0 x x
| hops_S n x y z : hop d dir types x y -> hops d dir types n y z -> hops d dir types (S n) x z.
(** [y] is at distance [n] from [x]. *)
Definition distance (d : gdb) (dir : string) (types : list string) (n : nat) (x y : string) : Prop :=
  hops d dir types n x y /\ forall m, hops d dir types m x y -> n <= m.

(** The same set of rows under another order. *)
Definition any_order (ord : string -> list gedge -> list gedge) : Prop := forall x l, Permutation.Permutation (ord x l) l.

(** The entries of a batch that an upsert would accept: [None] is a nil pointer. *)
Definition node_acceptable (n : option gnode) : Prop := exists x, n = Some x /\ n_id x <> "" /\ n_vec x <> [].
Definition edge_acceptable (d : gdb) (e : option gedge) : Prop :=
  exists x, e = Some x /\ ge_id x <> "" /\ ge_from x <> "" /\ ge_to x <> "" /\ has_node d (ge_from x) /\ has_node d (ge_to x).
(** [v] is the last entry of [l] with its id that [acc] accepts. *)
Definition last_accepted {A} (acc : option A -> Prop) (id : A -> string) (l : list (option A)) (v : A) : Prop :=
  exists l1 l2, l = l1 ++ Some v :: l2 /\ acc (Some v) /\ forall w, In (Some w) l2 -> acc (Some w) -> id w <> id v.
Definition none_accepted {A} (acc : option A -> Prop) (id : A -> string) (l : list (option A)) (key : string) : Prop :=
  forall w, In (Some w) l -> acc (Some w) -> id w <> key.
(** [x'] is edge [x] as stored: weight 1 if none was given. *)
Definition stored_edge (x x' : gedge) : Prop :=
  ge_id x' = ge_id x /\ ge_from x' = ge_from x /\ ge_to x' = ge_to x /\ ge_type x' = ge_type x /\ ge_props x' = ge_props x /\ ge_vec x' = ge_vec x /\
  ge_weight x' = if feq (ge_weight x) f_zero then f64_of_Z 1 else ge_weight x.
(** The number of entries for which [p] holds. *)
Inductive counted {A} (p : A -> Prop) : list A -> Z -> Prop :=
| counted_nil : counted p [] 0
| counted_yes x l n : p x -> counted p l n -> counted p (x :: l) (n + 1)%Z
| counted_no x l n : ~ p x -> counted p l n -> counted p (x :: l) n.
(** [l'] is [l] with some entries lost. *)
Definition some_lost {A} (l l' : list (option A)) : Prop := Forall2 (fun x y => y = x \/ y = None) l l'.
