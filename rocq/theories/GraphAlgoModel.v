(** Model of /repo/pkg/graph/graph_algorithms.go: PageRank, CommunityDetection,
    PredictEdges and GetGraphStatistics, over the graph of GraphModel.

    Queries without ORDER BY may return the rows in any order: [ordn] and [orde] are the
    orders of one call.  Go's map iteration order is an arbitrary permutation too. *)
From Coq Require Import String List NArith ZArith QArith Qabs Bool.
From Coq Require Import Floats.SpecFloat.
From Verif Require Import Base Floats64 StoreModel GraphModel.
Import ListNotations.
Open Scope string_scope.
Open Scope list_scope.
Open Scope nat_scope.

(** PageRank is written for any kind of numbers, so that the float64 program and its exact
    counterpart are the same definition. *)
Record numbers := {
  num : Type;
  num_add : num -> num -> num; num_sub : num -> num -> num; num_mul : num -> num -> num; num_div : num -> num -> num;
  num_abs : num -> num; num_lt : num -> num -> bool; num_le : num -> num -> bool;
  num_of : Z -> num;
  num_085 : num;  (* the literal 0.85 *)
  num_1e6 : num   (* the literal 1e-6 *)
}.
Definition float_numbers : numbers := {|
  num := float; num_add := f64_add; num_sub := f64_sub; num_mul := f64_mul; num_div := f64_div;
  num_abs := SFabs; num_lt := flt; num_le := fle; num_of := f64_of_Z;
  num_085 := f64_div (f64_of_Z 85) (f64_of_Z 100); num_1e6 := f64_div (f64_of_Z 1) (f64_of_Z 1000000) |}.
Definition rational_numbers : numbers := {|
  num := Q; num_add := Qplus; num_sub := Qminus; num_mul := Qmult; num_div := Qdiv;
  num_abs := Qabs; num_lt := fun a b => negb (Qle_bool b a); num_le := Qle_bool; num_of := inject_Z;
  num_085 := (85 # 100)%Q; num_1e6 := (1 # 1000000)%Q |}.

(** nodeToIndex, graph_algorithms.go:33-42; ids are a primary key. *)
Fixpoint index_of (x : string) (l : list string) : option nat :=
  match l with
  | [] => None
  | y :: r => if String.eqb y x then Some 0 else option_map S (index_of x r)
  end.
(** The edges with both ends known, as pairs of indices, graph_algorithms.go:65-70. *)
Definition links (ids : list string) (es : list (string * string)) : list (nat * nat) :=
  flat_map (fun e => match index_of (fst e) ids, index_of (snd e) ids with
                     | Some u, Some v => [(u, v)]
                     | _, _ => []
                     end) es.
(** outDegree and inLinks, graph_algorithms.go:55-71. *)
Definition out_degree (ls : list (nat * nat)) (u : nat) : Z := Z.of_nat (length (filter (fun l => Nat.eqb (fst l) u) ls)).
Definition in_links (ls : list (nat * nat)) (v : nat) : list nat := map fst (filter (fun l => Nat.eqb (snd l) v) ls).

Section PageRank.
Variable K : numbers.
Definition damping (d : num K) : num K :=
  if num_le K d (num_of K 0) || num_lt K (num_of K 1) d then num_085 K else d.
(** One new score, graph_algorithms.go:88-98. *)
Definition rank (d : num K) (n : Z) (ls : list (nat * nat)) (scores : list (num K)) (i : nat) : num K :=
  fold_left (fun r u => if Z.ltb 0 (out_degree ls u)
                        then num_add K r (num_div K (num_mul K d (nth u scores (num_of K 0))) (num_of K (out_degree ls u)))
                        else r)
            (in_links ls i) (num_div K (num_sub K (num_of K 1) d) (num_of K n)).
(** maxDiff, graph_algorithms.go:99-102. *)
Definition max_diff (new old : list (num K)) : num K :=
  fold_left (fun m p => let diff := num_abs K (num_sub K (fst p) (snd p)) in if num_lt K m diff then diff else m)
            (List.combine new old) (num_of K 0).
(** graph_algorithms.go:84-109. *)
Fixpoint rank_rounds (k : nat) (d : num K) (ls : list (nat * nat)) (scores : list (num K)) : list (num K) :=
  match k with
  | O => scores
  | S k => let new := map (rank d (Z.of_nat (length scores)) ls scores) (seq 0 (length scores)) in
           if num_lt K (max_diff new scores) (num_1e6 K) then new else rank_rounds k d ls new
  end.
Definition by_score (a b : string * num K) : bool := num_lt K (snd b) (snd a).
Variable srt : list (string * num K) -> list (string * num K).
(** PageRank, graph_algorithms.go:18-125. *)
Definition page_rank (ordn : list gnode -> list gnode) (orde : list gedge -> list gedge) (g : gdb) (iterations : Z) (d : num K) : list (string * num K) :=
  let ids := map n_id (ordn (g_nodes g)) in
  match ids with
  | [] => []
  | _ => let n := Z.of_nat (length ids) in
         let ls := links ids (map (fun e => (ge_from e, ge_to e)) (orde (g_edges g))) in
         let k := Z.to_nat (if Z.leb iterations 0 then 100 else iterations) in
         srt (List.combine ids (rank_rounds k (damping d) ls (repeat (num_div K (num_of K 1) (num_of K n)) (length ids))))
  end.
End PageRank.

(** * Communities *)
(** m[k] += w, graph_algorithms.go:184-185 and 212. *)
Fixpoint bump (k : nat) (w : float) (m : list (nat * float)) : list (nat * float) :=
  match m with
  | [] => [(k, f64_add f_zero w)]
  | (k', w') :: r => if Nat.eqb k' k then (k', f64_add w' w) :: r else (k', w') :: bump k w r
  end.
Definition update_nth {A} (i : nat) (f : A -> A) (l : list A) : list A :=
  map (fun p => if Nat.eqb (fst p) i then f (snd p) else snd p) (List.combine (seq 0 (length l)) l).
(** The adjacency maps, graph_algorithms.go:162-188. *)
Definition add_edge (ids : list string) (adj : list (list (nat * float))) (e : gedge) : list (list (nat * float)) :=
  match index_of (ge_from e) ids, index_of (ge_to e) ids with
  | Some u, Some v => update_nth v (bump u (ge_weight e)) (update_nth u (bump v (ge_weight e)) adj)
  | _, _ => adj
  end.
Record community := { cm_id : Z; cm_nodes : list string; cm_score : float }.
(** append(commGroups[c], id), graph_algorithms.go:234-237. *)
Fixpoint bump_group (c : nat) (id : string) (m : list (nat * list string)) : list (nat * list string) :=
  match m with
  | [] => [(c, [id])]
  | (c', l) :: r => if Nat.eqb c' c then (c', l ++ [id]) :: r else (c', l) :: bump_group c id r
  end.

Section Communities.
(** The orders in which the maps adj[i], commWeights (in a round, for a node) and
    commGroups are iterated. *)
Variable o_adj o_weights : nat -> nat -> list (nat * float) -> list (nat * float).
Variable o_groups : list (nat * list string) -> list (nat * list string).

(** The weight to each neighbouring community, graph_algorithms.go:210-213. *)
Definition comm_weights (round i : nat) (adj : list (list (nat * float))) (comms : list nat) : list (nat * float) :=
  fold_left (fun m p => bump (nth (fst p) comms 0) (snd p) m) (o_adj round i (nth i adj [])) [].
(** The best community of node [i], graph_algorithms.go:205-224. *)
Definition best_comm (round i : nat) (adj : list (list (nat * float))) (comms : list nat) : nat :=
  let cur := nth i comms 0 in
  fst (fold_left (fun b p => if negb (Nat.eqb (fst p) cur) && flt (snd b) (snd p) then p else b)
                 (o_weights round i (comm_weights round i adj comms)) (cur, f_zero)).
(** One pass over the nodes, graph_algorithms.go:204-230. *)
Definition move_nodes (round : nat) (adj : list (list (nat * float))) (comms : list nat) : list nat * bool :=
  fold_left (fun s i => let b := best_comm round i adj (fst s) in
                        if Nat.eqb b (nth i (fst s) 0) then s else (update_nth i (fun _ => b) (fst s), true))
            (seq 0 (length comms)) (comms, false).
(** graph_algorithms.go:196-231; the flag says whether the last pass still moved a node. *)
Fixpoint comm_rounds (k round : nat) (adj : list (list (nat * float))) (comms : list nat) : list nat * bool :=
  match k with
  | O => (comms, true)
  | S k => let s := move_nodes round adj comms in
           if snd s then comm_rounds k (S round) adj (fst s) else s
  end.
Definition by_size (a b : community) : bool := Nat.ltb (length (cm_nodes b)) (length (cm_nodes a)).
Variable srt : list community -> list community.
(** The groups with their numbers, graph_algorithms.go:239-248. *)
Definition number_groups (n : nat) (gs : list (nat * list string)) : list community :=
  map (fun p => {| cm_id := Z.of_nat (fst p); cm_nodes := snd (snd p);
                   cm_score := f64_div (f64_of_Z (Z.of_nat (length (snd (snd p))))) (f64_of_Z (Z.of_nat n)) |})
      (List.combine (seq 0 (length gs)) gs).
(** CommunityDetection, graph_algorithms.go:136-255, with the flag of [comm_rounds]. *)
Definition communities (ordn : list gnode -> list gnode) (orde : list gedge -> list gedge) (g : gdb) : outcome (list community * bool) :=
  let ids := map n_id (ordn (g_nodes g)) in
  match ids with
  | [] => Ok ([], false)
  | _ => if negb (forallb readable (g_edges g)) then Err EOther
         else let adj := fold_left (add_edge ids) (orde (g_edges g)) (repeat [] (length ids)) in
              let s := comm_rounds 100 0 adj (seq 0 (length ids)) in
              let groups := fold_left (fun m p => bump_group (snd p) (fst p) m) (List.combine ids (fst s)) [] in
              Ok (srt (number_groups (length ids) (o_groups groups)), snd s)
  end.
Definition community_detection (ordn : list gnode -> list gnode) (orde : list gedge -> list gedge) (g : gdb) : outcome (list community) :=
  bind (communities ordn orde g) (fun r => Ok (fst r)).
End Communities.

(** * Statistics *)
Record graph_stats := { gs_nodes : Z; gs_edges : Z; gs_degree : float; gs_density : float; gs_components : Z }.
(** adj[x], graph_algorithms.go:404-410. *)
Definition adjacent (es : list gedge) (x : string) : list string :=
  flat_map (fun e => (if String.eqb (ge_from e) x then [ge_to e] else []) ++ (if String.eqb (ge_to e) x then [ge_from e] else [])) es.
(** graph_algorithms.go:440-445. *)
Definition visit (s : list string * list string) (y : string) : list string * list string :=
  if in_ids (fst s) y then s else (y :: fst s, snd s ++ [y]).
(** The breadth-first search of one component, graph_algorithms.go:436-446; [s] holds the
    visited ids and the queue. *)
Fixpoint explore (fuel : nat) (es : list gedge) (s : list string * list string) : list string :=
  match fuel with
  | O => fst s
  | S fuel => match snd s with
              | [] => fst s
              | x :: q => explore fuel es (fold_left visit (adjacent es x) (fst s, q))
              end
  end.
(** graph_algorithms.go:426-448. *)
Definition count_components (es : list gedge) (ids : list string) : Z :=
  snd (fold_left (fun s id => if in_ids (fst s) id then s
                              else (explore (2 + 2 * length es) es (id :: fst s, [id]), (snd s + 1)%Z)) ids ([], 0%Z)).
(** GetGraphStatistics, graph_algorithms.go:373-453. *)
Definition graph_statistics (ordn : list gnode -> list gnode) (orde : list gedge -> list gedge) (g : gdb) : graph_stats :=
  let n := Z.of_nat (length (g_nodes g)) in
  let e := Z.of_nat (length (g_edges g)) in
  if Z.eqb n 0 then {| gs_nodes := 0; gs_edges := 0; gs_degree := f_zero; gs_density := f_zero; gs_components := 0 |}
  else let most := f64_mul (f64_of_Z n) (f64_of_Z (n - 1)) in
       {| gs_nodes := n; gs_edges := e;
          gs_degree := f64_div (f64_mul (f64_of_Z 2) (f64_of_Z e)) (f64_of_Z n);
          gs_density := if flt f_zero most then f64_div (f64_of_Z e) most else f_zero;
          gs_components := count_components (orde (g_edges g)) (map n_id (ordn (g_nodes g))) |}.

(** * Predicted edges *)
Record prediction := { pr_from : string; pr_to : string; pr_score : float; pr_method : string }.
Definition by_prediction (a b : prediction) : bool := flt (pr_score b) (pr_score a).
(** The neighbour set adj[x], graph_algorithms.go:299-308. *)
Definition neighbor_set (es : list gedge) (x : string) : list string := nodup string_dec (adjacent es x).
Definition f_half : float := f64_div (f64_of_Z 1) (f64_of_Z 2).
Section Predict.
Variable sim : list N -> list N -> float.
Variable srt : list prediction -> list prediction.
(** One candidate, graph_algorithms.go:317-350. *)
Definition predict_one (es : list gedge) (x : gnode) (o : gnode) : list prediction :=
  let near := neighbor_set es (n_id x) in
  if String.eqb (n_id o) (n_id x) || in_ids near (n_id o) then []
  else let s := sim (n_vec x) (n_vec o) in
       let common := length (filter (fun y => in_ids (neighbor_set es (n_id o)) y) near) in
       let p := match common with
                | O => {| pr_from := n_id x; pr_to := n_id o; pr_score := s; pr_method := "vector_similarity" |}
                | _ => {| pr_from := n_id x; pr_to := n_id o;
                          pr_score := f64_div (f64_add s (f64_div (f64_of_Z (Z.of_nat common)) (f64_of_Z (Z.of_nat (length near + 1))))) (f64_of_Z 2);
                          pr_method := "combined" |}
                end in
       if flt f_half (pr_score p) then [p] else [].
(** PredictEdges, graph_algorithms.go:266-361. *)
Definition predict_edges (ordn : list gnode -> list gnode) (orde : list gedge -> list gedge) (g : gdb) (id : string) (k : Z) : outcome (list prediction) :=
  bind (get_node g id) (fun x =>
  Ok (firstn (Z.to_nat (if Z.leb k 0 then 10 else k)) (srt (flat_map (predict_one (orde (g_edges g)) x) (ordn (g_nodes g)))))).
End Predict.
