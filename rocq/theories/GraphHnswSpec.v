(** What a user of the graph's searches relies on, without the model's helpers. *)
From Coq Require Import String List NArith ZArith Bool Permutation Sorted.
From Coq Require Import Floats.SpecFloat.
From Verif Require Import Base Floats64 TopK StoreModel GraphModel GraphSpec GraphHnswModel.
Import ListNotations.
Open Scope string_scope.
Open Scope list_scope.
Open Scope nat_scope.

(** Rows and map entries come in any order, each once. *)
Definition fair_env (ev : genv) : Prop := (forall l, Permutation l (gv_rows ev l)) /\ (forall l, Permutation l (gv_ids ev l)).
(** Calls that change nodes in a batch. *)
Definition node_batch (o : xop) : Prop :=
  match o with XCall (GUpsertNodes _) | XCall (GDeleteNodes _) | XCall (GBatch _ _ _ _) => True | _ => False end.
(** The graph store after the index was enabled and then nodes were only changed one at a
    time. *)
Definition singly_after_enabling (cos : list N -> list N -> float) (srt : list (string * float) -> list (string * float)) (s : gstore) : Prop :=
  exists h1 ev h2, s = xrun cos srt new_gstore (h1 ++ (ev, XEnable) :: h2) /\ (forall ev' o, In (ev', o) h2 -> ~ node_batch o) /\
    (forall ev' o, In (ev', o) (h1 ++ (ev, XEnable) :: h2) -> fair_env ev').

Definition closer (a b : string * float) : bool := fgt (snd a) (snd b).
Definition higher (a b : hresult) : bool := fgt (h_score a) (h_score b).
Definition result_id (r : hresult) : string := n_id (h_node r).
Definition all_or {A} (k : Z) (l : list A) : nat := if Z.ltb 0 k then Z.to_nat k else length l.

(** A type passes an empty filter or one that lists it. *)
Definition passes (types : list string) (t : string) : Prop := types = [] \/ In t types.
Definition filter_nodes (f : option gfilter) : list string := match f with Some f => gf_nodes f | None => [] end.
Definition filter_edges (f : option gfilter) : list string := match f with Some f => gf_edges f | None => [] end.
(** MaxDepth, 3 unless positive. *)
Definition filter_depth (f : option gfilter) : Z := match f with Some f => if Z.ltb 0 (gf_depth f) then gf_depth f else 3%Z | None => 3%Z end.
(** A shortest walk along edges of the types [ts]. *)
Definition shortest (d : gdb) (ts : list string) (x : string) (es : list gedge) (y : string) : Prop :=
  walk d x es y /\ Forall (fun e => passes ts (ge_type e)) es /\
  forall es', walk d x es' y -> Forall (fun e => passes ts (ge_type e)) es' -> length es <= length es'.
(** The table of nodes near the start: the distance, and the product of the edge weights
    along a shortest walk. *)
Definition near_table (d : gdb) (start : string) (f : option gfilter) (near : string -> option (Z * float)) : Prop :=
  forall id,
  let visible := filter_nodes f = [] \/ exists n, In n (g_nodes d) /\ n_id n = id /\ In (n_type n) (filter_nodes f) in
  (forall k w, near id = Some (k, w) -> start <> "" /\ visible /\ (k <= filter_depth f)%Z /\
     exists es, shortest d (filter_edges f) start es id /\ Z.of_nat (length es) = k /\ w = fold_left f64_mul (map ge_weight es) (f64_of_Z 1)) /\
  (start <> "" -> visible -> forall es, shortest d (filter_edges f) start es id -> (Z.of_nat (length es) <= filter_depth f)%Z -> near id <> None).

(** The weights used: the defaults when they add up to 0, divided by their sum unless that
    is 1 up to 0.001. *)
Definition settled (w w' : hweights) : Prop :=
  let t := f64_add (f64_add (w_vector w) (w_graph w)) (w_edge w) in
  let lit a b := f64_div (f64_of_Z a) (f64_of_Z b) in
  (feq t f_zero = true /\ w' = {| w_vector := lit 5 10; w_graph := lit 3 10; w_edge := lit 2 10 |})%Z \/
  (feq t f_zero = false /\ fgt (SFabs (f64_sub t (f64_of_Z 1))) (lit 1 1000)%Z = true /\
   w' = {| w_vector := f64_div (w_vector w) t; w_graph := f64_div (w_graph w) t; w_edge := f64_div (w_edge w) t |}) \/
  (feq t f_zero = false /\ fgt (SFabs (f64_sub t (f64_of_Z 1))) (lit 1 1000)%Z = false /\ w' = w).

(** A node found by its vector, among the candidates compared. *)
Definition matched (sim : list N -> list N -> float) (q : hquery) (cands : list gnode) (n : gnode) : Prop :=
  hq_vec q <> [] /\ In n cands /\ (feq (hq_threshold q) f_zero = true \/ fle (hq_threshold q) (sim (hq_vec q) (n_vec n)) = true).
(** The result for a node: vector and graph part, and for nodes found only by the graph the
    edge part. *)
Definition expected (sim : list N -> list N -> float) (q : hquery) (w : hweights) (near : string -> option (Z * float)) (cands : list gnode) (r : hresult) : Prop :=
  let n := h_node r in let v := sim (hq_vec q) (n_vec n) in
  let by_vector := f64_mul (h_vector r) (w_vector w) in let by_graph := f64_mul (h_graph r) (w_graph w) in
  let share k := f64_div (f64_of_Z 1) (f64_of_Z (k + 1)) in
  (matched sim q cands n /\ h_vector r = v /\ h_score r = f64_add by_vector by_graph /\
   ((near (n_id n) = None /\ h_graph r = f_zero /\ h_distance r = (-1)%Z) \/ exists k x, near (n_id n) = Some (k, x) /\ h_graph r = share k /\ h_distance r = k)) \/
  (~ matched sim q cands n /\ h_vector r = (match hq_vec q with [] => f_zero | _ => v end) /\
   exists k x, near (n_id n) = Some (k, x) /\ h_graph r = share k /\ h_distance r = k /\ h_score r = f64_add (f64_add by_vector by_graph) (f64_mul x (w_edge w))).

(** The closeness of a node to the nearest of some stored nodes that reach it: one over the
    number of nodes on a shortest path, 0 when none reaches it. *)
Definition closeness (n : nat) : float := f64_div (f64_of_Z 1) (f64_of_Z (Z.of_nat (n + 1))).
Definition reaches (d : gdb) (centers : list string) (id : string) (n : nat) : Prop :=
  exists c es, In c centers /\ has_node d c /\ shortest d [] c es id /\ length es = n.
Definition best_closeness (d : gdb) (centers : list string) (id : string) (g : float) : Prop :=
  (g = f_zero \/ exists n, reaches d centers id n /\ g = closeness n) /\ forall n, reaches d centers id n -> fle (closeness n) g = true.
