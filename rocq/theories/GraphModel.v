(** Model of /repo/pkg/graph: node and edge storage (graph.go), batches
    (graph_batch.go) and traversal (graph_traversal.go).

    The two SQLite tables are lists in rowid order.  [ev_ok n] says whether the n-th
    statement of a call succeeds and [ev_fk] whether its connection enforces foreign
    keys, as in StoreModel.  Vectors are kept decoded (the codec is the subject of
    EncodingProps), property maps as maps of strings, timestamps are left out.  SQLite
    stores a NaN weight as NULL, and a NULL cannot be scanned into a float64: a NaN
    weight in the table stands for that NULL. *)
From Coq Require Import String List NArith ZArith Bool.
From Coq Require Import Floats.SpecFloat.
From Verif Require Import Base Floats64 StoreModel.
Import ListNotations.
Open Scope string_scope.
Open Scope list_scope.

(** GraphNode, graph.go:15-23, and GraphEdge, graph.go:26-35, without the times. *)
Record gnode := { n_id : string; n_vec : list N; n_content : string; n_type : string; n_props : option smap }.
Record gedge := { ge_id : string; ge_from : string; ge_to : string; ge_type : string; ge_weight : float; ge_props : option smap; ge_vec : list N }.
(** The tables of graph.go:94-119. *)
Record gdb := { g_nodes : list gnode; g_edges : list gedge }.

Definition node_is (id : string) (n : gnode) : bool := String.eqb (n_id n) id.
Definition edge_is (id : string) (e : gedge) : bool := String.eqb (ge_id e) id.
Definition node_stored (d : gdb) (id : string) : bool := existsb (node_is id) (g_nodes d).
(** INSERT … ON CONFLICT(id) DO UPDATE, graph.go:157-166: the row keeps its place. *)
Definition put_node (n : gnode) (l : list gnode) : list gnode :=
  if existsb (node_is (n_id n)) l then map (fun x => if node_is (n_id n) x then n else x) l else l ++ [n].
(** Same for edges, graph.go:296-306. *)
Definition put_edge (e : gedge) (l : list gedge) : list gedge :=
  if existsb (edge_is (ge_id e)) l then map (fun x => if edge_is (ge_id e) x then e else x) l else l ++ [e].
Definition set_nodes (d : gdb) (l : list gnode) : gdb := {| g_nodes := l; g_edges := g_edges d |}.
Definition set_edges (d : gdb) (l : list gedge) : gdb := {| g_nodes := g_nodes d; g_edges := l |}.

(** The refusals of UpsertNode, graph.go:134-140, and of UpsertEdge, graph.go:263-269.
    [None] is a nil pointer. *)
Definition node_valid (n : gnode) : bool :=
  negb (String.eqb (n_id n) "") && match n_vec n with [] => false | _ => true end.
Definition edge_valid (e : gedge) : bool :=
  negb (String.eqb (ge_id e) "") && negb (String.eqb (ge_from e) "" || String.eqb (ge_to e) "").
(** Default weight, graph.go:272-274: Go's == treats both zeros alike. *)
Definition f_one : float := f64_of_Z 1.
Definition default_weight (e : gedge) : gedge :=
  if feq (ge_weight e) f_zero
  then {| ge_id := ge_id e; ge_from := ge_from e; ge_to := ge_to e; ge_type := ge_type e; ge_weight := f_one; ge_props := ge_props e; ge_vec := ge_vec e |}
  else e.
(** The foreign keys of graph.go:116-117. *)
Definition edge_fk (ev : env) (d : gdb) (e : gedge) : bool :=
  negb (ev_fk ev) || (node_stored d (ge_from e) && node_stored d (ge_to e)).

(** UpsertNode, graph.go:133-188, without the vector index (see GraphHnswModel). *)
Definition upsert_node (ev : env) (d : gdb) (n : option gnode) : gdb * outcome unit :=
  match n with
  | None => (d, Err EOther)
  | Some n => if negb (node_valid n) then (d, Err EOther)
              else if ev_ok ev 0 then (set_nodes d (put_node n (g_nodes d)), Ok tt) else (d, Err EOther)
  end.
(** GetNode, graph.go:191-234. *)
Definition get_node (d : gdb) (id : string) : outcome gnode :=
  match find (node_is id) (g_nodes d) with Some n => Ok n | None => Err ENotFound end.
(** DELETE of the rows that [p] selects; ON DELETE CASCADE of graph.go:116-117 takes the
    edges that lose an endpoint. *)
Definition drop_nodes (ev : env) (d : gdb) (p : gnode -> bool) : gdb :=
  {| g_nodes := filter (fun n => negb (p n)) (g_nodes d);
     g_edges := if ev_fk ev
                then filter (fun e => negb (existsb (fun n => p n && (node_is (ge_from e) n || node_is (ge_to e) n)) (g_nodes d))) (g_edges d)
                else g_edges d |}.
(** DeleteNode, graph.go:237-260. *)
Definition delete_node (ev : env) (d : gdb) (id : string) : gdb * outcome unit :=
  if negb (ev_ok ev 0) then (d, Err EOther)
  else if node_stored d id then (drop_nodes ev d (node_is id), Ok tt) else (d, Err ENotFound).
(** UpsertEdge, graph.go:262-319. *)
Definition upsert_edge (ev : env) (d : gdb) (e : option gedge) : gdb * outcome unit :=
  match e with
  | None => (d, Err EOther)
  | Some e => if negb (edge_valid e) then (d, Err EOther)
              else if ev_ok ev 0 && edge_fk ev d e then (set_edges d (put_edge (default_weight e) (g_edges d)), Ok tt)
              else (d, Err EOther)
  end.
(** DeleteEdge, graph.go:395-412. *)
Definition delete_edge (ev : env) (d : gdb) (id : string) : gdb * outcome unit :=
  if negb (ev_ok ev 0) then (d, Err EOther)
  else if existsb (edge_is id) (g_edges d)
       then (set_edges d (filter (fun e => negb (edge_is id e)) (g_edges d)), Ok tt)
       else (d, Err ENotFound).

(** * Batches, graph_batch.go.  A failing statement leaves the transaction open, as SQLite
    does for constraint errors; the commit makes all of it durable or none of it. *)
Record batch_result := { br_ok : Z; br_failed : Z }.
Definition ok_one (b : batch_result) : batch_result := {| br_ok := br_ok b + 1; br_failed := br_failed b |}%Z.
Definition failed_one (b : batch_result) : batch_result := {| br_ok := br_ok b; br_failed := br_failed b + 1 |}%Z.
Definition no_result : batch_result := {| br_ok := 0; br_failed := 0 |}%Z.

(** One round of the loop of UpsertNodesBatch, graph_batch.go:62-107 and 501-521; [i]
    numbers the statements. *)
Fixpoint nodes_loop (ev : env) (i : nat) (d : gdb) (b : batch_result) (l : list (option gnode)) : gdb * batch_result :=
  match l with
  | [] => (d, b)
  | None :: r => nodes_loop ev (S i) d (failed_one b) r
  | Some n :: r =>
      if negb (node_valid n) then nodes_loop ev (S i) d (failed_one b) r
      else if ev_ok ev i then nodes_loop ev (S i) (set_nodes d (put_node n (g_nodes d))) (ok_one b) r
      else nodes_loop ev (S i) d (failed_one b) r
  end.
(** The loop of UpsertEdgesBatch, graph_batch.go:208-263 and 574-601. *)
Fixpoint edges_loop (ev : env) (i : nat) (d : gdb) (b : batch_result) (l : list (option gedge)) : gdb * batch_result :=
  match l with
  | [] => (d, b)
  | None :: r => edges_loop ev (S i) d (failed_one b) r
  | Some e :: r =>
      if negb (edge_valid e) then edges_loop ev (S i) d (failed_one b) r
      else if ev_ok ev i && edge_fk ev d e
           then edges_loop ev (S i) (set_edges d (put_edge (default_weight e) (g_edges d))) (ok_one b) r
           else edges_loop ev (S i) d (failed_one b) r
  end.
Definition in_ids (ids : list string) (x : string) : bool := existsb (String.eqb x) ids.
(** DELETE … WHERE id IN (…), graph_batch.go:142-158 and 528-551, and its counts. *)
Definition delete_ids (ev : env) (d : gdb) (b : batch_result) (ids : list string) : gdb * batch_result :=
  let k := Z.of_nat (length (filter (fun n => in_ids ids (n_id n)) (g_nodes d))) in
  (drop_nodes ev d (fun n => in_ids ids (n_id n)),
   {| br_ok := br_ok b + k; br_failed := br_failed b + (Z.of_nat (length ids) - k) |}%Z).
(** Same for edges, graph_batch.go:289-310 and 608-631. *)
Definition delete_edge_ids (d : gdb) (b : batch_result) (ids : list string) : gdb * batch_result :=
  let k := Z.of_nat (length (filter (fun e => in_ids ids (ge_id e)) (g_edges d))) in
  (set_edges d (filter (fun e => negb (in_ids ids (ge_id e))) (g_edges d)),
   {| br_ok := br_ok b + k; br_failed := br_failed b + (Z.of_nat (length ids) - k) |}%Z).
(** Begin, prepare, body, commit: statements 0, 1, 2.. and the last one. *)
Definition in_transaction (ev : env) (last : nat) (d : gdb) (body : gdb * batch_result) : gdb * outcome batch_result :=
  if negb (ev_ok ev 0 && ev_ok ev 1) then (d, Err EOther)
  else if ev_ok ev last then (fst body, Ok (snd body)) else (d, Err EOther).
(** UpsertNodesBatch, graph_batch.go:31-114. *)
Definition upsert_nodes_batch (ev : env) (d : gdb) (l : list (option gnode)) : gdb * outcome batch_result :=
  match l with
  | [] => (d, Ok no_result)
  | _ => in_transaction ev (2 + length l) d (nodes_loop ev 2 d no_result l)
  end.
(** DeleteNodesBatch, graph_batch.go:117-166: statement 1 is the DELETE. *)
Definition delete_nodes_batch (ev : env) (d : gdb) (ids : list string) : gdb * outcome batch_result :=
  match ids with
  | [] => (d, Ok no_result)
  | _ => in_transaction ev 2 d (delete_ids ev d no_result ids)
  end.
(** UpsertEdgesBatch, graph_batch.go:169-271. *)
Definition upsert_edges_batch (ev : env) (d : gdb) (l : list (option gedge)) : gdb * outcome batch_result :=
  match l with
  | [] => (d, Ok no_result)
  | _ => in_transaction ev (2 + length l) d (edges_loop ev 2 d no_result l)
  end.
(** DeleteEdgesBatch, graph_batch.go:274-317. *)
Definition delete_edges_batch (ev : env) (d : gdb) (ids : list string) : gdb * outcome batch_result :=
  match ids with
  | [] => (d, Ok no_result)
  | _ => in_transaction ev 2 d (delete_edge_ids d no_result ids)
  end.
(** ExecuteBatch, graph_batch.go:436-498: the four parts in this order, one transaction.
    Statement 1 stands for the two prepares and two DELETEs, whose failure ends the call. *)
Definition execute_batch (ev : env) (d : gdb) (ns : list (option gnode)) (nd : list string) (es : list (option gedge)) (ed : list string) : gdb * outcome batch_result :=
  let '(d1, b1) := nodes_loop ev 2 d no_result ns in
  let '(d2, b2) := delete_ids ev d1 b1 nd in
  let '(d3, b3) := edges_loop ev (2 + length ns) d2 b2 es in
  in_transaction ev (2 + length ns + length es) d (delete_edge_ids d3 b3 ed).

(** * Reading. *)
Section Reading.
(** The order in which SQLite returns the edges of a node; the queries have no ORDER BY. *)
Variable ord : string -> list gedge -> list gedge.

Definition readable (e : gedge) : bool := negb (is_nanb (ge_weight e)).
(** GetEdges, graph.go:322-392. *)
Definition touches (dir id : string) (e : gedge) : bool :=
  if String.eqb dir "out" then String.eqb (ge_from e) id
  else if String.eqb dir "in" then String.eqb (ge_to e) id
  else String.eqb (ge_from e) id || String.eqb (ge_to e) id.
Definition known_direction (dir : string) : bool :=
  String.eqb dir "out" || String.eqb dir "in" || String.eqb dir "both" || String.eqb dir "".
Definition get_edges (d : gdb) (id dir : string) : outcome (list gedge) :=
  if negb (known_direction dir) then Err EOther
  else let es := ord id (filter (touches dir id) (g_edges d)) in
       if forallb readable es then Ok es else Err EOther.
(** getEdgeByID, graph_traversal.go:310-356. *)
Definition get_edge (d : gdb) (id : string) : outcome gedge :=
  match find (edge_is id) (g_edges d) with
  | Some e => if readable e then Ok e else Err EOther
  | None => Err ENotFound
  end.

(** TraversalOptions, graph_traversal.go:12-18. *)
Record traversal := { tr_depth : Z; tr_edge_types : list string; tr_node_types : list string; tr_dir : string; tr_limit : Z }.
(** An empty list of types allows all, graph_traversal.go:62, 380. *)
Definition type_allowed (types : list string) (t : string) : bool :=
  match types with [] => true | _ => in_ids types t end.
Definition max_depth (o : traversal) : Z := if Z.leb (tr_depth o) 0 then 1 else tr_depth o.
Definition direction (o : traversal) : string := if String.eqb (tr_dir o) "" then "both" else tr_dir o.
(** The node at the other end, graph_traversal.go:67-72. *)
Definition other_end (x : string) (e : gedge) : string :=
  if String.eqb (ge_from e) x then ge_to e else ge_from e.

(** The state of Neighbors' loop: queue with depths, visited, neighborIDs. *)
Record bfs := { b_queue : list (string * Z); b_seen : list string; b_found : list string }.
(** graph_traversal.go:60-96, one edge of node [x] at depth [k]; [true] ends the search. *)
Definition see_edge (o : traversal) (x : string) (k : Z) (e : gedge) (b : bfs) : bfs * bool :=
  if negb (type_allowed (tr_edge_types o) (ge_type e)) then (b, false)
  else let y := other_end x e in
       if in_ids (b_seen b) y then (b, false)
       else let b' := {| b_queue := if Z.ltb (k + 1) (max_depth o) then b_queue b ++ [(y, k + 1)%Z] else b_queue b;
                         b_seen := y :: b_seen b; b_found := b_found b ++ [y] |} in
            (b', Z.ltb 0 (tr_limit o) && Z.leb (tr_limit o) (Z.of_nat (length (b_found b')))).
Fixpoint see_edges (o : traversal) (x : string) (k : Z) (es : list gedge) (b : bfs) : bfs * bool :=
  match es with
  | [] => (b, false)
  | e :: r => match see_edge o x k e b with
              | (b', true) => (b', true)
              | (b', false) => see_edges o x k r b'
              end
  end.
(** graph_traversal.go:46-97; [Panic] when the fuel runs out, which does not happen. *)
Fixpoint neighbors_loop (fuel : nat) (d : gdb) (o : traversal) (b : bfs) : outcome (list string) :=
  match fuel with
  | O => Panic
  | S fuel =>
      match b_queue b with
      | [] => Ok (b_found b)
      | (x, k) :: q =>
          let b0 := {| b_queue := q; b_seen := b_seen b; b_found := b_found b |} in
          if Z.leb (max_depth o) k then neighbors_loop fuel d o b0
          else match get_edges d x (direction o) with
               | Ok es => match see_edges o x k es b0 with
                          | (b', true) => Ok (b_found b')
                          | (b', false) => neighbors_loop fuel d o b'
                          end
               | Err e => Err e
               | Panic => Panic
               end
      end
  end.
(** loadNeighborNodes, graph_traversal.go:368-387, over getNodesByIDs, graph.go:414-474. *)
Definition load_nodes (d : gdb) (ids types : list string) : list gnode :=
  flat_map (fun id => match find (node_is id) (g_nodes d) with
                      | Some n => if type_allowed types (n_type n) then [n] else []
                      | None => []
                      end) ids.
(** Neighbors, graph_traversal.go:29-100. *)
Definition neighbors (d : gdb) (id : string) (o : traversal) : outcome (list gnode) :=
  bind (neighbors_loop (3 + 2 * length (g_edges d)) d o {| b_queue := [(id, 0%Z)]; b_seen := [id]; b_found := [] |})
       (fun ids => Ok (load_nodes d ids (tr_node_types o))).

(** PathResult, graph_traversal.go:21-26, and queueItem, 117-123. *)
Record path := { p_nodes : list gnode; p_edges : list gedge; p_distance : Z; p_weight : float }.
Record item := { i_node : string; i_path : list string; i_edges : list string; i_distance : Z; i_weight : float }.
(** graph_traversal.go:183-199. *)
Definition extend (it : item) (e : gedge) : item :=
  {| i_node := ge_to e; i_path := i_path it ++ [ge_to e]; i_edges := i_edges it ++ [ge_id e];
     i_distance := (i_distance it + 1)%Z; i_weight := f64_add (i_weight it) (ge_weight e) |}.
(** Reads of a list of ids that fail at the first missing one, graph_traversal.go:152-167. *)
Fixpoint read_all {A} (get : string -> outcome A) (ids : list string) : outcome (list A) :=
  match ids with
  | [] => Ok []
  | x :: r => bind (get x) (fun a => bind (read_all get r) (fun l => Ok (a :: l)))
  end.
Definition path_of (d : gdb) (it : item) : outcome path :=
  bind (read_all (get_node d) (i_path it)) (fun ns =>
  bind (read_all (get_edge d) (i_edges it)) (fun es =>
  Ok {| p_nodes := ns; p_edges := es; p_distance := i_distance it; p_weight := i_weight it |})).
(** graph_traversal.go:134-200. *)
Fixpoint path_loop (fuel : nat) (d : gdb) (target : string) (queue : list item) (seen : list string) : outcome path :=
  match fuel with
  | O => Panic
  | S fuel =>
      match queue with
      | [] => Err ENotFound
      | it :: q =>
          if String.eqb (i_node it) target then path_of d it
          else if in_ids seen (i_node it) then path_loop fuel d target q seen
          else let seen' := i_node it :: seen in
               match get_edges d (i_node it) "out" with
               | Ok es => path_loop fuel d target (q ++ map (extend it) (filter (fun e => negb (in_ids seen' (ge_to e))) es)) seen'
               | Err e => Err e
               | Panic => Panic
               end
      end
  end.
(** ShortestPath, graph_traversal.go:103-203. *)
Definition shortest_path (d : gdb) (from to : string) : outcome path :=
  if String.eqb from to
  then bind (get_node d from) (fun n => Ok {| p_nodes := [n]; p_edges := []; p_distance := 0; p_weight := f_zero |})
  else path_loop (2 + length (g_edges d)) d to
         [{| i_node := from; i_path := [from]; i_edges := []; i_distance := 0; i_weight := f_zero |}] [].

(** Subgraph, graph_traversal.go:206-243; failing reads are skipped. *)
Definition subgraph (d : gdb) (ids : list string) : list gnode * list gedge :=
  (flat_map (fun id => match get_node d id with Ok n => [n] | _ => [] end) ids,
   flat_map (fun id => match get_edges d id "out" with
                       | Ok es => filter (fun e => in_ids ids (ge_to e)) es
                       | _ => []
                       end) ids).

(** Connected, graph_traversal.go:252-307. *)
Fixpoint connected_loop (fuel : nat) (d : gdb) (target : string) (depth : Z) (queue : list (string * Z)) (seen : list string) : outcome bool :=
  match fuel with
  | O => Panic
  | S fuel =>
      match queue with
      | [] => Ok false
      | (x, k) :: q =>
          if String.eqb x target then Ok true
          else if Z.leb depth k then connected_loop fuel d target depth q seen
          else if in_ids seen x then connected_loop fuel d target depth q seen
          else let seen' := x :: seen in
               match get_edges d x "both" with
               | Ok es => connected_loop fuel d target depth
                            (q ++ map (fun y => (y, (k + 1)%Z)) (filter (fun y => negb (in_ids seen' y)) (map (other_end x) es))) seen'
               | Err e => Err e
               | Panic => Panic
               end
      end
  end.
Definition connected (d : gdb) (a b : string) (depth : Z) : outcome bool :=
  if String.eqb a b then Ok true
  else connected_loop (2 + 2 * length (g_edges d)) d b (if Z.leb depth 0 then 6 else depth)%Z [(a, 0%Z)] [].

End Reading.

(** * Histories. *)
Inductive gop :=
| GUpsertNode (n : option gnode) | GDeleteNode (id : string)
| GUpsertEdge (e : option gedge) | GDeleteEdge (id : string)
| GUpsertNodes (l : list (option gnode)) | GDeleteNodes (ids : list string)
| GUpsertEdges (l : list (option gedge)) | GDeleteEdges (ids : list string)
| GBatch (ns : list (option gnode)) (nd : list string) (es : list (option gedge)) (ed : list string).
Definition gstep (ev : env) (d : gdb) (o : gop) : gdb :=
  match o with
  | GUpsertNode n => fst (upsert_node ev d n)
  | GDeleteNode id => fst (delete_node ev d id)
  | GUpsertEdge e => fst (upsert_edge ev d e)
  | GDeleteEdge id => fst (delete_edge ev d id)
  | GUpsertNodes l => fst (upsert_nodes_batch ev d l)
  | GDeleteNodes ids => fst (delete_nodes_batch ev d ids)
  | GUpsertEdges l => fst (upsert_edges_batch ev d l)
  | GDeleteEdges ids => fst (delete_edges_batch ev d ids)
  | GBatch ns nd es ed => fst (execute_batch ev d ns nd es ed)
  end.
(** An empty graph, graph.go:92-131. *)
Definition new_graph : gdb := {| g_nodes := []; g_edges := [] |}.
