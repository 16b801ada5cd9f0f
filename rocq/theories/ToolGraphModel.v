(** Model of the graph part of /repo/pkg/cortexdb/graphrag_tools.go: writing entities and
    relations, finding chunks by entity, expanding, reading chunks and building a context.
    The graph is GraphModel's; strings.TrimSpace, the slug of an entity name, the vector of
    a text, the text of a list of chunk ids and GetByID of the vector store are parameters. *)
From Coq Require Import String Ascii List NArith ZArith Bool Arith.
From Coq Require Import Floats.SpecFloat.
From Verif Require Import Base Floats64 StoreModel HindModel SearchModel RagModel GraphModel.
Import ListNotations.
Open Scope string_scope.
Open Scope list_scope.

(** ToolEntityInput, graphrag_tools.go:59-66, and ToolRelationInput, 81-88. *)
Record tentity := { te_id : string; te_name : string; te_type : string; te_desc : string; te_chunks : list string; te_meta : smap }.
Record trelation := { tl_from : string; tl_to : string; tl_type : string; tl_weight : float; tl_chunks : list string; tl_meta : smap }.

Section Write.
Variables (trim slug : string -> string) (vec : string -> list N) (id_list : list string -> string).
(** graphEntityNodeID, graphrag.go:669-685. *)
Definition entity_node (name : string) : string := "entity:" ++ slug name.
(** resolveEntityNodeID, graphrag_tools.go:1257-1271. *)
Definition resolve (id name : string) : string :=
  if String.prefix "entity:" id then id
  else if String.prefix "entity:" name then name
  else if negb (String.eqb (trim id) "") then entity_node id
  else if negb (String.eqb (trim name) "") then entity_node name
  else "".
(** firstNonEmpty, graphrag.go:958-965, of two strings. *)
Definition first_non_empty (a b : string) : string :=
  if negb (String.eqb (trim a) "") then a else if negb (String.eqb (trim b) "") then b else "".
(** Entities without name and id are skipped, graphrag_tools.go:665-667. *)
Definition usable (e : tentity) : bool := negb (String.eqb (trim (te_name e)) "" && String.eqb (trim (te_id e)) "").
(** graphrag_tools.go:671-680: metadata is written last. *)
Definition entity_props (e : tentity) : smap :=
  fold_left set_key (te_meta e)
    ((if String.eqb (te_name e) "" then [] else [("name", te_name e)]) ++
     (if String.eqb (te_desc e) "" then [] else [("description", te_desc e)])).
(** graphrag_tools.go:682-688. *)
Definition entity_gnode (e : tentity) : gnode :=
  {| n_id := resolve (te_id e) (te_name e); n_vec := vec (trim (te_name e ++ " " ++ te_desc e)); n_content := first_non_empty (te_name e) (te_id e);
     n_type := first_non_empty (te_type e) "entity"; n_props := Some (entity_props e) |}.
(** graphrag_tools.go:690-701. *)
Definition mention (chunk entity : string) : gedge :=
  {| ge_id := "edge:mention:" ++ chunk ++ ":" ++ entity; ge_from := chunk; ge_to := entity; ge_type := "mentions"; ge_weight := f64_of_Z 1; ge_props := None; ge_vec := [] |}.
Definition mentions_of (e : tentity) : list gedge :=
  flat_map (fun c => if String.eqb c "" then [] else [mention c (resolve (te_id e) (te_name e))]) (te_chunks e).
(** UpsertEntities, graphrag_tools.go:646-718. [ready] says whether the schema and the
    dimension could be read; [evn] and [eve] are met by the two batches. *)
Definition upsert_entities (ready : bool) (evn eve : env) (d : gdb) (es : list tentity) : gdb * outcome (list string * Z) :=
  match es with
  | [] => (d, Ok ([], 0%Z))
  | _ =>
    if negb ready then (d, Err EOther) else
    let us := filter usable es in
    let edges := flat_map mentions_of us in
    match upsert_nodes_batch evn d (map (fun e => Some (entity_gnode e)) us) with
    | (d1, Ok _) =>
        match upsert_edges_batch eve d1 (map Some edges) with
        | (d2, Ok _) => (d2, Ok (map (fun e => resolve (te_id e) (te_name e)) us, Z.of_nat (length edges)))
        | (d2, Err e) => (d2, Err e)
        | (d2, Panic) => (d2, Panic)
        end
    | (d1, Err e) => (d1, Err e)
    | (d1, Panic) => (d1, Panic)
    end
  end.

(** graphrag_tools.go:746-754. *)
Definition relation_props (doc : string) (r : trelation) : smap :=
  fold_left set_key (tl_meta r)
    ((if String.eqb doc "" then [] else [("document_id", doc)]) ++
     (match tl_chunks r with [] => [] | cs => [("chunk_ids", id_list cs)] end)).
(** graphrag_tools.go:733-767, the relation at position [i]. *)
Definition relation_edge (doc : string) (i : nat) (r : trelation) : list gedge :=
  let from := resolve "" (tl_from r) in
  let to := resolve "" (tl_to r) in
  if String.eqb from "" || String.eqb to "" then []
  else let ty := first_non_empty (tl_type r) "related_to" in
       [{| ge_id := "edge:relation:" ++ from ++ ":" ++ to ++ ":" ++ ty ++ ":" ++ fmt_d (Z.of_nat i); ge_from := from; ge_to := to; ge_type := ty;
           ge_weight := if feq (tl_weight r) f_zero then f64_of_Z 1 else tl_weight r; ge_props := Some (relation_props doc r); ge_vec := [] |}].
Fixpoint relation_edges (doc : string) (i : nat) (rs : list trelation) : list gedge :=
  match rs with [] => [] | r :: rs' => relation_edge doc i r ++ relation_edges doc (S i) rs' end.
(** UpsertRelations, graphrag_tools.go:721-773. *)
Definition upsert_relations (ready : bool) (ev : env) (d : gdb) (doc : string) (rs : list trelation) : gdb * outcome (list string) :=
  match rs with
  | [] => (d, Ok [])
  | _ =>
    if negb ready then (d, Err EOther) else
    let edges := relation_edges doc 0 rs in
    match upsert_edges_batch ev d (map Some edges) with
    | (d', Ok _) => (d', Ok (map ge_id edges))
    | (d', Err e) => (d', Err e)
    | (d', Panic) => (d', Panic)
    end
  end.
End Write.

(** *** Reading *)
(** ToolChunk without metadata. *)
Record tchunk := { tc_id : string; tc_doc : string; tc_content : string; tc_score : float; tc_ents : list string }.
Section Read.
Variables (trim slug : string -> string).
(** [ord] the row order of edges; [read] is GetByID of the vector store: document and content. *)
Variables (ord : string -> list gedge -> list gedge) (read : string -> option (string * string)).
Variables (ssort : list string -> list string).
Definition around (depth : Z) (types : list string) (limit : Z) : traversal :=
  {| tr_depth := depth; tr_edge_types := []; tr_node_types := types; tr_dir := "both"; tr_limit := limit |}.
(** getChunkEntityNames, graphrag_tools.go:1240-1255. *)
Definition chunk_entities (d : gdb) (id : string) : outcome (list string) :=
  bind (neighbors ord d id (around 1 ["entity"] 32)) (fun ns => Ok (ssort (map n_content ns))).
(** loadToolChunks, graphrag_tools.go:1210-1238; [score] reads the map, 0 when absent. *)
Fixpoint load_chunks (d : gdb) (score : string -> float) (ids : list string) (ents : bool) : outcome (list tchunk) :=
  match ids with
  | [] => Ok []
  | id :: ids' =>
      match read id with
      | None => load_chunks d score ids' ents
      | Some (doc, content) =>
          bind (if ents then chunk_entities d id else Ok []) (fun es =>
          bind (load_chunks d score ids' ents) (fun l =>
          Ok ({| tc_id := id; tc_doc := doc; tc_content := content; tc_score := score id; tc_ents := es |} :: l)))
      end
  end.
(** scoreMap[node.ID] += 1, graphrag_tools.go:877-879. *)
Fixpoint add_one (id : string) (m : list (string * float)) : list (string * float) :=
  match m with
  | [] => [(id, f64_add f_zero (f64_of_Z 1))]
  | (i, x) :: m' => if String.eqb i id then (i, f64_add x (f64_of_Z 1)) :: m' else (i, x) :: add_one id m'
  end.
(** sortIDsByScore's comparison, graphrag_tools.go:1421-1426. *)
Definition by_count (a b : string * float) : bool :=
  if feq (snd a) (snd b) then String.ltb (fst a) (fst b) else fgt (snd a) (snd b).
(** The loop over names, graphrag_tools.go:866-880: a failing traversal is skipped. *)
Definition count_names (d : gdb) (k hops : Z) (names : list string) : list (string * float) :=
  fold_left (fun m name => match neighbors ord d (resolve trim slug "" name) (around hops ["chunk"] (k * 8)) with
                           | Ok ns => fold_left (fun m n => add_one (n_id n) m) ns m
                           | _ => m
                           end) names [].
(** SearchChunksByEntities, graphrag_tools.go:853-890; [mord] the order of the map, [srt] sort.Slice. *)
Definition chunks_by_entities (mord srt : list (string * float) -> list (string * float)) (d : gdb) (names : list string) (topk hops : Z) : outcome (list tchunk) :=
  match names with
  | [] => Ok []
  | _ =>
    let k := if (topk <=? 0)%Z then 10%Z else topk in
    let h := if (hops <=? 0)%Z then 1%Z else hops in
    let m := count_names d k h names in
    let best := firstn (Z.to_nat k) (srt (mord m)) in
    load_chunks d (fun id => match assoc id m with Some x => x | None => f_zero end) (map fst best) true
  end.

(** The node set of ExpandGraph, graphrag_tools.go:901-920, in the order of insertion. *)
Fixpoint expand_set (d : gdb) (o : traversal) (ids seen : list string) : outcome (list string) :=
  match ids with
  | [] => Ok seen
  | id :: ids' =>
      if String.eqb id "" then expand_set d o ids' seen
      else bind (neighbors ord d id o) (fun ns =>
           expand_set d o ids' (fold_left (fun s x => if in_ids s x then s else s ++ [x]) (id :: map n_id ns) seen))
  end.
(** ExpandGraph, graphrag_tools.go:893-928. *)
Definition expand_graph (d : gdb) (ids : list string) (hops : Z) (etypes ntypes : list string) (limit : Z) : outcome (list gnode * list gedge) :=
  match ids with
  | [] => Ok ([], [])
  | _ =>
    bind (expand_set d {| tr_depth := if (hops <=? 0)%Z then 1%Z else hops; tr_edge_types := etypes; tr_node_types := ntypes; tr_dir := "both"; tr_limit := limit |} ids [])
         (fun s => Ok (subgraph ord d (ssort s)))
  end.

(** shouldLoadChunkEntities, graphrag.go:886-903, for an empty query. *)
Definition load_ents (mode : rmode) (nograph : bool) : bool :=
  negb nograph && match mode with MLexical => false | _ => true end.
(** GetChunks, graphrag_tools.go:940-946. *)
Definition get_chunks (d : gdb) (ids : list string) (mode : rmode) (nograph : bool) : outcome (list tchunk) :=
  load_chunks d (fun _ => f_zero) ids (load_ents mode nograph).
(** graphrag_tools.go:963-974: the scores fall with the position. *)
Definition ranked (cs : list tchunk) : list rchunk :=
  map (fun p => let x := f64_of_Z (Z.of_nat (length cs) - Z.of_nat (fst p)) in
                {| c_id := tc_id (snd p); c_doc := tc_doc (snd p); c_content := tc_content (snd p); c_score := x; c_base := x; c_rerank := x; c_ents := tc_ents (snd p) |})
      (number 0 cs).
(** BuildContext, graphrag_tools.go:949-981. *)
Definition build_tool_context (d : gdb) (ids : list string) (max_chunks max_chars per_doc : Z) (mode : rmode) (nograph : bool) : outcome (list rchunk * string) :=
  bind (get_chunks d ids mode nograph) (fun cs =>
  let o := query_defaults {| q_topk := 0; q_hops := 0; q_related := 0; q_chunks := max_chunks; q_chars := max_chars; q_perdoc := per_doc;
                             q_rerank := false; q_lambda := f_zero; q_nograph := false; q_mode := MAuto |} in
  let packed := pack o (ranked cs) in
  Ok (packed, build_context packed)).
End Read.
