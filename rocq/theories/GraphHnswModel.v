(** Model of /repo/pkg/graph/graph_hnsw.go and graph_hybrid.go: the vector index of the
    graph, the searches over it, and hybrid search. The index is kept beside the tables of
    GraphModel. sort.Slice is [srt_c] and [srt_r], random levels, the order of rows and the
    iteration order of maps are parameters. Multiplications of TopK are assumed not to
    overflow. *)
From Coq Require Import String List NArith ZArith Bool.
From Coq Require Import Floats.SpecFloat.
From Verif Require Import Base Floats64 StoreModel RagModel GraphModel.
Import ListNotations.
Open Scope string_scope.
Open Scope list_scope.
Open Scope nat_scope.

(** SimpleHNSW, graph_hnsw.go:15-25: [x_graph level] holds the connections of a level. *)
Record gindex := { x_vecs : list (string * list N); x_graph : nat -> list (string * list string); x_entry : string }.
(** NewSimpleHNSW, graph_hnsw.go:33-43. *)
Definition empty_index : gindex := {| x_vecs := []; x_graph := fun _ => []; x_entry := "" |}.
Definition max_levels : nat := 16.

(** m[k] = v, and delete(m, k). *)
Definition drop_key {A} (k : string) (l : list (string * A)) : list (string * A) := filter (fun p => negb (String.eqb (fst p) k)) l.
Definition put_key {A} (k : string) (v : A) (l : list (string * A)) : list (string * A) := (k, v) :: drop_key k l.
Definition conns (h : gindex) (l : nat) (id : string) : option (list string) := assoc id (x_graph h l).
Definition at_level (h : gindex) (l : nat) (f : list (string * list string) -> list (string * list string)) : gindex :=
  {| x_vecs := x_vecs h; x_graph := fun i => if Nat.eqb i l then f (x_graph h i) else x_graph h i; x_entry := x_entry h |}.
Definition set_conns (h : gindex) (l : nat) (id : string) (cs : list string) : gindex := at_level h l (put_key id cs).
Definition set_entry (h : gindex) (id : string) : gindex := {| x_vecs := x_vecs h; x_graph := x_graph h; x_entry := id |}.

Section Index.
Variable sim : list N -> list N -> float.
Variable max_conns : nat.
Variable srt_c : list (string * float) -> list (string * float).

(** getNodeLevel, graph_hnsw.go:211-218. *)
Definition node_level (h : gindex) (id : string) : nat :=
  match find (fun l => match conns h l id with Some (_ :: _) => true | _ => false end) (rev (seq 0 max_levels)) with Some l => l | None => 0 end.

(** The connections of one candidate, graph_hnsw.go:134-147; [seen] is the map visited,
    whose keys are ids and ids followed by "_expanded". *)
Fixpoint follow (h : gindex) (q : list N) (from : string) (cs : list string) (st : list (string * float) * list string) : list (string * float) * list string :=
  match cs with
  | [] => st
  | y :: cs' =>
      follow h q from cs'
        (if negb (mem y (snd st)) && negb (String.eqb y from)
         then match assoc y (x_vecs h) with Some v => (fst st ++ [(y, sim q v)], y :: snd st) | None => st end
         else st)
  end.
Definition expansion_mark (id : string) : string := (id ++ "_expanded")%string.
(** graph_hnsw.go:128-151: the best candidate not yet expanded. *)
Definition expand_best (h : gindex) (q : list N) (level : nat) (cands : list (string * float)) (seen : list string) : option (list (string * float) * list string) :=
  match find (fun c => negb (mem (expansion_mark (fst c)) seen)) cands with
  | None => None
  | Some c => Some (follow h q (fst c) (match conns h level (fst c) with Some cs => cs | None => [] end) (cands, expansion_mark (fst c) :: seen))
  end.
(** The loop of graph_hnsw.go:118-156; every round expands another vector of the index. *)
Fixpoint beam (fuel : nat) (h : gindex) (q : list N) (ef level : nat) (cands : list (string * float)) (seen : list string) : list (string * float) :=
  match fuel with
  | O => cands
  | S fuel' =>
      if length cands <? 2 * ef
      then match expand_best h q level (srt_c cands) seen with
           | None => srt_c cands
           | Some (cands', seen') => beam fuel' h q ef level cands' seen'
           end
      else cands
  end.
(** searchLevel, graph_hnsw.go:99-168. *)
Definition search_level (h : gindex) (q : list N) (entry : string) (ef level : nat) : list (string * float) :=
  match (if String.eqb entry "" then None else assoc entry (x_vecs h)) with
  | None => []
  | Some v => firstn ef (srt_c (beam (S (length (x_vecs h))) h q ef level [(entry, sim q v)] [entry]))
  end.

(** addConnection, graph_hnsw.go:176-208: one direction; [None] is the early return. *)
Definition connect_one (h : gindex) (l : nat) (a b : string) : gindex * bool :=
  let h1 := match conns h l a with None => set_conns h l a [] | Some _ => h end in
  let cs := match conns h l a with None => [] | Some cs => cs end in
  if length cs <? max_conns then if mem b cs then (h1, true) else (set_conns h1 l a (cs ++ [b]), false) else (h1, false).
Definition add_connection (h : gindex) (a b : string) (l : nat) : gindex :=
  let (h1, stop) := connect_one h l a b in
  if stop then h1 else fst (connect_one h1 l b a).

(** Add, graph_hnsw.go:55-96; [level] is the random level. *)
Definition init_level (id : string) (h : gindex) (l : nat) : gindex := match conns h l id with None => set_conns h l id [] | Some _ => h end.
Definition link_level (id : string) (v : list N) (h : gindex) (l : nat) : gindex :=
  let cands := search_level h v (x_entry h) 1 l in
  let limit := match l with O => max_conns * 2 | _ => max_conns end in
  fold_left (fun h c => add_connection h id (fst c) l) (firstn limit (filter (fun c => negb (String.eqb (fst c) id)) cands)) h.
Definition add (h : gindex) (id : string) (v : list N) (level : nat) : gindex :=
  let h1 := fold_left (init_level id) (seq 0 (S level)) {| x_vecs := put_key id v (x_vecs h); x_graph := x_graph h; x_entry := x_entry h |} in
  let h2 := if String.eqb (x_entry h1) "" || (node_level h1 (x_entry h1) <? level) then set_entry h1 id else h1 in
  fold_left (link_level id v) (rev (seq 0 (S level))) h2.

(** Remove, graph_hnsw.go:262-296; no node is connected to itself, so the lists edited in
    place are never the one iterated over. [ord] is the iteration order of the vectors. *)
Fixpoint remove_first (x : string) (l : list string) : list string :=
  match l with [] => [] | y :: l' => if String.eqb y x then l' else y :: remove_first x l' end.
Definition unlink (id : string) (h : gindex) (l : nat) : gindex :=
  match conns h l id with
  | None => h
  | Some cs => at_level (fold_left (fun h c => match conns h l c with Some o => set_conns h l c (remove_first id o) | None => h end) cs h) l (drop_key id)
  end.
Definition remove (ord : list string -> list string) (h : gindex) (id : string) : gindex :=
  let h1 := fold_left (unlink id) (seq 0 max_levels) {| x_vecs := drop_key id (x_vecs h); x_graph := x_graph h; x_entry := x_entry h |} in
  if String.eqb (x_entry h1) id
  then set_entry h1 (fold_left (fun e x => if String.eqb e "" || (node_level h1 e <? node_level h1 x) then x else e) (ord (map fst (x_vecs h1))) "")
  else h1.

(** Search, graph_hnsw.go:221-259. A negative k slices out of range. *)
Definition ix_find (h : gindex) (q : list N) (k : Z) : outcome (list (string * float)) :=
  if String.eqb (x_entry h) "" then Ok []
  else
    let entry := fold_left (fun e l => match search_level h q (x_entry h) 1 l with c :: _ => fst c | [] => e end) (rev (seq 1 (node_level h (x_entry h)))) (x_entry h) in
    let ef := Z.to_nat (if Z.ltb (k * 2) 50 then 50 else k * 2)%Z in
    let found := search_level h q entry ef 0 in
    if Z.ltb k (Z.of_nat (length found)) then (if Z.ltb k 0 then Panic else Ok (firstn (Z.to_nat k) found)) else Ok found.
End Index.

(** *** The graph store with its index *)
(** [None]: the index is not enabled. *)
Record gstore := { s_db : gdb; s_ix : option gindex }.
(** What one call meets: the statements, the random levels of its insertions, the order of
    rows and the iteration order of maps. *)
Record genv := { gv_env : env; gv_level : nat -> nat; gv_rows : list gnode -> list gnode; gv_ids : list string -> list string }.

Section Store.
Variable cos : list N -> list N -> float.
Variable srt_c : list (string * float) -> list (string * float).

(** UpsertNode, graph.go:133-188, and DeleteNode, graph.go:237-260. *)
Definition upsert_indexed (ev : genv) (s : gstore) (n : option gnode) : gstore * outcome unit :=
  match upsert_node (gv_env ev) (s_db s) n, n with
  | (d, Ok _), Some x => ({| s_db := d; s_ix := match s_ix s with
                                               | Some h => Some (add cos 16 srt_c (remove (gv_ids ev) h (n_id x)) (n_id x) (n_vec x) (gv_level ev 0))
                                               | None => None
                                               end |}, Ok tt)
  | (d, r), _ => ({| s_db := d; s_ix := s_ix s |}, r)
  end.
Definition delete_indexed (ev : genv) (s : gstore) (id : string) : gstore * outcome unit :=
  match delete_node (gv_env ev) (s_db s) id with
  | (d, Ok _) => ({| s_db := d; s_ix := match s_ix s with Some h => Some (remove (gv_ids ev) h id) | None => None end |}, Ok tt)
  | (d, r) => ({| s_db := d; s_ix := s_ix s |}, r)
  end.
(** EnableHNSWIndex, graph_hnsw.go:299-330. *)
Fixpoint index_rows (lv : nat -> nat) (h : gindex) (l : list gnode) : gindex :=
  match l with
  | [] => h
  | n :: l' => index_rows (fun i => lv (S i)) (add cos 16 srt_c h (n_id n) (n_vec n) (lv 0)) l'
  end.
Definition enable (ev : genv) (s : gstore) : gstore :=
  {| s_db := s_db s; s_ix := Some (index_rows (gv_level ev) empty_index (gv_rows ev (g_nodes (s_db s)))) |}.

(** Histories: EnableHNSWIndex or any call of GraphModel. Batches, graph_batch.go, do not
    touch the index, nor do edges. *)
Inductive xop := XEnable | XCall (o : gop).
Definition xstep (ev : genv) (s : gstore) (o : xop) : gstore :=
  match o with
  | XEnable => enable ev s
  | XCall (GUpsertNode n) => fst (upsert_indexed ev s n)
  | XCall (GDeleteNode id) => fst (delete_indexed ev s id)
  | XCall o => {| s_db := gstep (gv_env ev) (s_db s) o; s_ix := s_ix s |}
  end.
Definition xrun (s : gstore) (h : list (genv * xop)) : gstore := fold_left (fun s eo => xstep (fst eo) s (snd eo)) h s.
Definition new_gstore : gstore := {| s_db := new_graph; s_ix := None |}.

(** HybridResult, graph.go:67-75, with the fields the searches set. *)
Record hresult := { h_node : gnode; h_vector : float; h_graph : float; h_score : float; h_distance : Z }.
(** HNSWSearch, graph_hnsw.go:333-359. make with a negative capacity panics. *)
Definition hnsw_search (s : gstore) (q : list N) (k : Z) (threshold : float) : outcome (list hresult) :=
  match s_ix s with
  | None => Err EOther
  | Some h =>
      bind (ix_find cos srt_c h q (k * 2)) (fun found =>
      if Z.ltb k 0 then Panic
      else Ok (firstn (Z.to_nat k)
                 (flat_map (fun c => if fge (snd c) threshold
                                     then match get_node (s_db s) (fst c) with
                                          | Ok n => [{| h_node := n; h_vector := snd c; h_graph := f_zero; h_score := snd c; h_distance := 0 |}]
                                          | _ => []
                                          end
                                     else []) found)))
  end.

(** *** Hybrid search *)
Variable sim : list N -> list N -> float.
Variable srt_r : list hresult -> list hresult.
Variable ord : string -> list gedge -> list gedge.

(** GraphFilter, graph.go:38-42, HybridWeights, graph.go:60-64, and HybridQuery,
    graph.go:45-57. *)
Record gfilter := { gf_nodes : list string; gf_edges : list string; gf_depth : Z }.
Record hweights := { w_vector : float; w_graph : float; w_edge : float }.
Record hquery := { hq_vec : list N; hq_start : string; hq_filter : option gfilter; hq_topk : Z; hq_threshold : float; hq_weights : hweights }.
Definition node_types (f : option gfilter) : list string := match f with Some f => gf_nodes f | None => [] end.
Definition edge_types (f : option gfilter) : list string := match f with Some f => gf_edges f | None => [] end.

(** graph_hybrid.go:20-32. *)
Definition settle_weights (w : hweights) : hweights :=
  let total := f64_add (f64_add (w_vector w) (w_graph w)) (w_edge w) in
  if feq total f_zero then {| w_vector := dec 5 10; w_graph := dec 3 10; w_edge := dec 2 10 |}
  else if fgt (SFabs (f64_sub total f_one)) (dec 1 1000)
       then {| w_vector := f64_div (w_vector w) total; w_graph := f64_div (w_graph w) total; w_edge := f64_div (w_edge w) total |}
       else w.

(** GetAllNodes, graph_hybrid.go:238-297; the rows end up in a map. *)
Definition all_nodes (d : gdb) (types : list string) : list gnode := filter (fun n => type_allowed types (n_type n)) (g_nodes d).
(** vectorCandidates, graph_hybrid.go:304-339. *)
Definition vector_candidates (s : gstore) (q : hquery) : outcome (list gnode) :=
  match s_ix s with
  | Some h =>
      if Z.ltb 0 (hq_topk q)
      then bind (ix_find cos srt_c h (hq_vec q) (if Z.ltb (hq_topk q * 5) 50 then 50 else hq_topk q * 5)%Z) (fun found =>
           match load_nodes (s_db s) (map fst found) (node_types (hq_filter q)) with
           | [] => Ok (all_nodes (s_db s) (node_types (hq_filter q)))
           | l => Ok l
           end)
      else Ok (all_nodes (s_db s) (node_types (hq_filter q)))
  | None => Ok (all_nodes (s_db s) (node_types (hq_filter q)))
  end.

(** collectGraphDistances, graph_hybrid.go:341-414: [res] holds the distances and weights
    of the nodes visited. *)
Fixpoint collect (fuel : nat) (d : gdb) (types : list string) (depth : Z) (queue : list (string * Z * float)) (res : list (string * (Z * float))) : outcome (list (string * (Z * float))) :=
  match fuel with
  | O => Panic
  | S fuel' =>
      match queue with
      | [] => Ok res
      | (x, k, w) :: rest =>
          if Z.ltb depth k then collect fuel' d types depth rest res
          else if match assoc x res with Some (k', _) => Z.leb k' k | None => false end then collect fuel' d types depth rest res
          else match get_edges ord d x "out" with
               | Ok es => collect fuel' d types depth
                            (rest ++ map (fun e => (ge_to e, (k + 1)%Z, f64_mul w (ge_weight e))) (filter (fun e => type_allowed types (ge_type e)) es))
                            (put_key x (k, w) res)
               | Err e => Err e
               | Panic => Panic
               end
      end
  end.
Definition graph_distances (d : gdb) (start : string) (f : option gfilter) : outcome (list (string * (Z * float))) :=
  let depth := match f with Some f => if Z.ltb 0 (gf_depth f) then gf_depth f else 3%Z | None => 3%Z end in
  bind (collect (2 + length (g_edges d)) d (edge_types f) depth [(start, 0%Z, f_one)] []) (fun res =>
  Ok (match node_types f with
      | [] => res
      | types => filter (fun p => match find (node_is (fst p)) (g_nodes d) with Some n => in_ids types (n_type n) | None => false end) res
      end)).

(** HybridSearch, graph_hybrid.go:15-147. The results of the map nodeScores are sorted in
    the order [shuffle] iterates over it. *)
Definition proximity (k : Z) : float := f64_div f_one (f64_of_Z (k + 1)).
Definition vector_hit (q : list N) (w : hweights) (near : list (string * (Z * float))) (n : gnode) : hresult :=
  let v := sim q (n_vec n) in
  let g := match assoc (n_id n) near with Some (k, _) => proximity k | None => f_zero end in
  {| h_node := n; h_vector := v; h_graph := g; h_score := f64_add (f64_mul v (w_vector w)) (f64_mul g (w_graph w));
     h_distance := match assoc (n_id n) near with Some (k, _) => k | None => (-1)%Z end |}.
Definition graph_hit (q : list N) (w : hweights) (k : Z) (ew : float) (n : gnode) : hresult :=
  let v := match q with [] => f_zero | _ => sim q (n_vec n) end in
  {| h_node := n; h_vector := v; h_graph := proximity k;
     h_score := f64_add (f64_add (f64_mul v (w_vector w)) (f64_mul (proximity k) (w_graph w))) (f64_mul ew (w_edge w)); h_distance := k |}.
Variable shuffle : list hresult -> list hresult.
Definition hybrid_graph_search (s : gstore) (q : hquery) : outcome (list hresult) :=
  let w := settle_weights (hq_weights q) in
  bind (match hq_vec q with [] => Ok [] | _ => vector_candidates s q end) (fun nodes =>
  bind (if String.eqb (hq_start q) "" then Ok [] else graph_distances (s_db s) (hq_start q) (hq_filter q)) (fun near =>
  let hits := filter (fun n => feq (hq_threshold q) f_zero || fge (sim (hq_vec q) (n_vec n)) (hq_threshold q)) nodes in
  let others := flat_map (fun p => if in_ids (map n_id hits) (fst p) then []
                                   else match get_node (s_db s) (fst p) with Ok n => [graph_hit (hq_vec q) w (fst (snd p)) (snd (snd p)) n] | _ => [] end) near in
  let sorted := srt_r (shuffle (map (vector_hit (hq_vec q) w near) hits ++ others)) in
  Ok (if Z.ltb 0 (hq_topk q) then firstn (Z.to_nat (hq_topk q)) sorted else sorted))).

(** GraphVectorSearch, graph_hybrid.go:150-188. *)
Definition similar (q : list N) (n : gnode) : hresult := {| h_node := n; h_vector := sim q (n_vec n); h_graph := f_zero; h_score := sim q (n_vec n); h_distance := -1 |}.
Definition graph_vector_search (d : gdb) (start : string) (q : list N) (o : traversal) : outcome (list hresult) :=
  bind (neighbors ord d start o) (fun ns =>
  let ns' := match get_node d start with Ok n => n :: ns | _ => ns end in
  let sorted := srt_r (map (similar q) ns') in
  Ok (if Z.ltb 0 (tr_limit o) then firstn (Z.to_nat (tr_limit o)) sorted else sorted)).
(** SimilarityInGraph, graph_hybrid.go:191-235. *)
Definition similarity_in_graph (rows : list gnode -> list gnode) (d : gdb) (id : string) (topk : Z) (threshold : float) : outcome (list hresult) :=
  bind (get_node d id) (fun x =>
  let found := filter (fun n => negb (String.eqb (n_id n) id) && (feq threshold f_zero || fge (sim (n_vec x) (n_vec n)) threshold)) (rows (g_nodes d)) in
  let sorted := srt_r (map (similar (n_vec x)) found) in
  Ok (if Z.ltb 0 topk then firstn (Z.to_nat topk) sorted else sorted)).

(** HNSWHybridSearch, graph_hnsw.go:362-418, with an index; [centers], [vw], [gw], [vt] and
    [tt_] are CenterNodes, VectorWeight, GraphWeight, VectorThreshold and TotalThreshold. *)
Definition path_score (d : gdb) (id : string) (best : float) (center : string) : float :=
  match shortest_path ord d center id with
  | Ok p => match p_nodes p with [] => best | l => let x := f64_div f_one (f64_of_Z (Z.of_nat (length l))) in if fgt x best then x else best end
  | _ => best
  end.
Definition hnsw_hybrid_search (s : gstore) (q : list N) (centers : list string) (k : Z) (vw gw vt tt_ : float) : outcome (list hresult) :=
  match s_ix s with
  | None => Err EOther
  | Some h =>
      bind (ix_find cos srt_c h q (k * 3)) (fun found =>
      if Z.ltb k 0 then Panic
      else
        let scored := flat_map (fun c => if fge (snd c) vt
                                         then match get_node (s_db s) (fst c) with
                                              | Ok n => let g := fold_left (path_score (s_db s) (fst c)) centers f_zero in
                                                        let t := f64_add (f64_mul vw (snd c)) (f64_mul gw g) in
                                                        if fge t tt_ then [{| h_node := n; h_vector := snd c; h_graph := g; h_score := t; h_distance := 0 |}] else []
                                              | _ => []
                                              end
                                         else []) found in
        Ok (firstn (Z.to_nat k) (srt_r scored)))
  end.
End Store.
