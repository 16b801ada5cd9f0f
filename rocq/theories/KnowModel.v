(** Model of /repo/pkg/cortexdb/knowledge_api.go without an embedder: saving, updating,
    reading and deleting knowledge, and grouping found chunks by document.  The vector store
    is StoreModel's, the graph GraphModel's, entities and relations ToolGraphModel's.
    strings.TrimSpace, the slug of a name, the vector of a text, the splitter (the subject of
    RagProps) and the text of a list of ids are parameters.  Times are left out. *)
From Coq Require Import String Ascii List NArith ZArith Bool Arith.
From Coq Require Import Floats.SpecFloat.
From Verif Require Import Base Floats64 DimensionModel SearchModel HindModel RagModel ToolGraphModel StoreModel GraphModel.
Import ListNotations.
Open Scope string_scope.
Open Scope list_scope.

(** defaultGraphRAGCollection, graphrag.go:16. *)
Definition rag_collection : string := "graphrag_chunks".
(** defaultLexicalVectorDim, graphrag_tools.go:16. *)
Definition lexical_default : Z := 64.

(** KnowledgeSaveRequest and KnowledgeUpdateRequest, knowledge_memory_types.go:40-68. *)
Record ksave := { ks_id : string; ks_title : string; ks_content : string; ks_url : string; ks_author : string; ks_coll : string;
                  ks_size : Z; ks_overlap : Z; ks_meta : option smap; ks_ents : list tentity; ks_rels : list trelation }.
Record kupdate := { ku_id : string; ku_title : option string; ku_content : option string; ku_url : option string; ku_author : option string;
                    ku_coll : option string; ku_size : option Z; ku_overlap : option Z; ku_meta : option smap; ku_ents : list tentity; ku_rels : list trelation }.
(** KnowledgeRecord and KnowledgeSaveResponse, knowledge_memory_types.go, without the times. *)
Record krecord := { kr_id : string; kr_title : string; kr_content : string; kr_url : string; kr_author : string; kr_coll : string;
                    kr_meta : option smap; kr_chunks : list string; kr_ents : list string }.
Record kanswer := { ka_record : krecord; ka_node : string; ka_ents : list string; ka_rels : list string }.

(** Graph properties and chunk metadata, graphrag_tools.go:565-568, 588-595, 614-618. *)
Definition doc_props (id title : string) : smap := [("document_id", id); ("title", title)].
Definition chunk_props (id title : string) (i : nat) : smap := [("document_id", id); ("chunk_index", fmt_d (Z.of_nat i)); ("title", title)].
Definition chunk_meta (id title : string) (meta : option smap) (i : nat) : smap :=
  fold_left set_key (match meta with Some m => m | None => [] end)
    [("graph_kind", "chunk"); ("document_id", id); ("chunk_index", fmt_d (Z.of_nat i)); ("title", title)].
(** Edges of a chunk, graphrag_tools.go:620-635. *)
Definition chunk_edges (id : string) (i : nat) : list gedge :=
  {| ge_id := "edge:doc_chunk:" ++ id ++ ":" ++ fmt_d (Z.of_nat i); ge_from := document_node_id id; ge_to := chunk_node_id id i; ge_type := "has_chunk";
     ge_weight := f64_of_Z 1; ge_props := None; ge_vec := [] |} ::
  match i with
  | O => []
  | S j => [{| ge_id := "edge:chunk_next:" ++ id ++ ":" ++ fmt_d (Z.of_nat i); ge_from := chunk_node_id id j; ge_to := chunk_node_id id i; ge_type := "next";
               ge_weight := f64_of_Z 1; ge_props := None; ge_vec := [] |}]
  end.

Section Know.
Variable I : index_ops.
Variables (trim slug : string -> string) (vec : Z -> string -> list N) (split : string -> Z -> Z -> list string) (id_list : list string -> string).
(** [by_time] orders rows, [ord] edges, [ssort] is sort.Strings. *)
Variables (by_time : list row -> list row) (ord : string -> list gedge -> list gedge) (ssort : list string -> list string).

(** The database: vector store and graph. [kv n] is met by the n-th call of a write. *)
Record kdb := { k_store : store I; k_graph : gdb }.
Definition set_store (k : kdb) (s : store I) : kdb := {| k_store := s; k_graph := k_graph k |}.
Definition set_graph (k : kdb) (g : gdb) : kdb := {| k_store := k_store k; k_graph := g |}.
(** Go's error return between calls. *)
Definition next {A B} (p : kdb * outcome A) (f : kdb -> A -> kdb * outcome B) : kdb * outcome B :=
  match p with
  | (k, Ok a) => f k a
  | (k, Err e) => (k, Err e)
  | (k, Panic) => (k, Panic)
  end.
Definition on_store {A} (k : kdb) (f : store I -> store I * outcome A) : kdb * outcome A :=
  let (s, r) := f (k_store k) in (set_store k s, r).
Definition on_graph {A} (k : kdb) (f : gdb -> gdb * outcome A) : kdb * outcome A :=
  let (g, r) := f (k_graph k) in (set_graph k g, r).
(** [ready]: InitGraphSchema succeeds. *)
Definition when {A} (ready : bool) (k : kdb) (p : kdb * outcome A) : kdb * outcome A := if ready then p else (k, Err EOther).

(** lexicalVectorDim, graphrag_tools.go:1161-1172. *)
Definition lexical_dim (s : store I) (name : string) : Z :=
  let other := if (0 <? st_dim I s)%Z then st_dim I s else lexical_default in
  if String.eqb name "" then other
  else match get_collection I s name with Ok c => if (0 <? c_dims c)%Z then c_dims c else other | _ => other end.
(** ensureLexicalCollection, graphrag_tools.go:1174-1187; the name is not empty here. *)
Definition ensure_collection (ev : env) (s : store I) (name : string) (dim : Z) : store I * outcome unit :=
  match get_collection I s name with
  | Ok _ => (s, Ok tt)
  | _ => let (s', r) := create_collection I ev s name dim in (s', ok_of r)
  end.
(** upsertGraphRAGDocumentRecord, graphrag.go:589-604. *)
Definition record_document (ev : env) (s : store I) (id title content : string) : store I * outcome unit :=
  match get_document I s id with
  | Ok x => update_document I ev s {| d_id := d_id x; d_title := title; d_url := d_url x; d_content := content; d_version := d_version x + 1;
                                      d_author := d_author x; d_meta := d_meta x; d_acl := d_acl x |}
  | _ => create_document I ev s {| d_id := id; d_title := title; d_url := ""; d_content := content; d_version := 1; d_author := ""; d_meta := None; d_acl := [] |}
  end.
(** The chunks of a document as rows, nodes and edges, graphrag_tools.go:576-636. *)
Definition chunk_row (id title name : string) (meta : option smap) (dim : Z) (p : nat * string) : embedding :=
  {| e_id := chunk_node_id id (fst p); e_collid := 0; e_coll := name; e_vec := Some (vec dim (snd p)); e_content := snd p; e_doc := id;
     e_meta := Some (chunk_meta id title meta (fst p)); e_acl := [] |}.
Definition chunk_node (id title : string) (dim : Z) (p : nat * string) : gnode :=
  {| n_id := chunk_node_id id (fst p); n_vec := vec dim (snd p); n_content := snd p; n_type := "chunk"; n_props := Some (chunk_props id title (fst p)) |}.
Definition doc_node (id title content : string) (dim : Z) : gnode :=
  let text := first_non_empty trim title content in
  {| n_id := document_node_id id; n_vec := vec dim text; n_content := text; n_type := "document"; n_props := Some (doc_props id title) |}.
(** IngestDocument, graphrag_tools.go:514-643. *)
Definition ingest_document (ready : bool) (kv : nat -> env) (k : kdb) (id title content coll : string) (size overlap : Z) (meta : option smap) : kdb * outcome unit :=
  if String.eqb id "" then (k, Err EOther) else
  if String.eqb (trim content) "" then (k, Err EOther) else
  let name := if String.eqb coll "" then rag_collection else coll in
  let (n, o) := ingest_defaults size overlap in
  when ready k (
  let dim := lexical_dim (k_store k) name in
  next (on_store k (fun s => ensure_collection (kv 2%nat) s name dim)) (fun k _ =>
  let pieces := number 0 (split content n o) in
  match pieces with [] => (k, Err EOther) | _ =>
  next (on_store k (fun s => record_document (kv 3%nat) s id title content)) (fun k _ =>
  next (on_graph k (fun g => upsert_node (kv 4%nat) g (Some (doc_node id title content dim)))) (fun k _ =>
  next (on_store k (fun s => upsert_batch I (kv 5%nat) s (map (chunk_row id title name meta dim) pieces))) (fun k _ =>
  next (on_graph k (fun g => upsert_nodes_batch (kv 6%nat) g (map (fun p => Some (chunk_node id title dim p)) pieces))) (fun k _ =>
  next (on_graph k (fun g => upsert_edges_batch (kv 7%nat) g (map Some (flat_map (fun p => chunk_edges id (fst p)) pieces)))) (fun k _ =>
  (k, Ok tt))))))
  end)).
(** UpsertEntities and UpsertRelations as knowledge_api.go:345-371 and 133-156 call them. *)
Definition write_graph (ready : bool) (kv : nat -> env) (k : kdb) (id : string) (es : list tentity) (rs : list trelation) : kdb * outcome (list string * list string) :=
  next (on_graph k (fun g => upsert_entities trim slug (vec (lexical_dim (k_store k) rag_collection)) ready (kv 8%nat) (kv 9%nat) g es)) (fun k a =>
  next (on_graph k (fun g => upsert_relations trim slug id_list ready (kv 10%nat) g id rs)) (fun k b =>
  (k, Ok (fst a, b)))).
(** ingestKnowledgeContent, knowledge_api.go:297-376, without an embedder. *)
Definition ingest_knowledge (ready : bool) (kv : nat -> env) (k : kdb) (id title content coll : string) (size overlap : Z) (meta : option smap)
    (es : list tentity) (rs : list trelation) : kdb * outcome (string * (list string * list string)) :=
  next (ingest_document ready kv k id title content coll size overlap meta) (fun k _ =>
  next (write_graph ready kv k id es rs) (fun k ab => (k, Ok (document_node_id id, ab)))).

(** cleanupKnowledgeArtifacts, knowledge_api.go:378-400. *)
Definition cleanup (ready : bool) (kv : nat -> env) (k : kdb) (id : string) : kdb * outcome unit :=
  when ready k (
  match get_by_doc I by_time (k_store k) id with
  | Err e => (k, Err e)
  | Panic => (k, Panic)
  | Ok cs =>
      next (on_graph k (fun g => delete_nodes_batch (kv 0%nat) g (document_node_id id :: map e_id cs))) (fun k _ =>
      on_store k (fun s => delete_document I (kv 1%nat) s id))
  end).
(** upsertKnowledgeDocumentRecord, knowledge_api.go:402-425. *)
Definition put_document (ev : env) (s : store I) (x : document) : store I * outcome unit :=
  match get_document I s (d_id x) with
  | Err ENotFound => create_document I ev s x
  | Err e => (s, Err e)
  | Panic => (s, Panic)
  | Ok y => update_document I ev s {| d_id := d_id y; d_title := d_title x; d_url := d_url x; d_content := d_content x; d_version := d_version x;
                                      d_author := d_author x; d_meta := d_meta x; d_acl := d_acl y |}
  end.

(** uniqueSortedStrings, knowledge_memory_helpers.go:61-73. *)
Definition unique_sorted (l : list string) : list string :=
  ssort (nodup string_dec (filter (fun x => negb (String.eqb (trim x) "")) l)).
(** The entities of chunks, knowledge_api.go:446-455. *)
Fixpoint entities_of (g : gdb) (ids : list string) : outcome (list string) :=
  match ids with
  | [] => Ok []
  | id :: ids' => bind (chunk_entities ord ssort g id) (fun es => bind (entities_of g ids') (fun r => Ok (es ++ r)))
  end.
(** knowledgeCollection, knowledge_api.go:472-487. *)
Definition knowledge_collection (s : store I) (id : string) : outcome string :=
  bind (get_by_doc I by_time s id) (fun cs =>
  match cs with [] => Ok rag_collection | c :: _ => bind (get_by_id I s (e_id c)) (fun e => Ok (e_coll e)) end).
(** loadKnowledgeRecord, knowledge_api.go:427-470, which is GetKnowledge, 189-196. *)
Definition get_knowledge (k : kdb) (id : string) : outcome krecord :=
  if String.eqb id "" then Err EOther else
  bind (get_document I (k_store k) id) (fun x =>
  bind (get_by_doc I by_time (k_store k) id) (fun cs =>
  bind (entities_of (k_graph k) (map e_id cs)) (fun es =>
  bind (knowledge_collection (k_store k) id) (fun name =>
  Ok {| kr_id := d_id x; kr_title := d_title x; kr_content := d_content x; kr_url := d_url x; kr_author := d_author x; kr_coll := name;
        kr_meta := d_meta x; kr_chunks := map e_id cs; kr_ents := unique_sorted es |})))).
Definition answer (k : kdb) (id node : string) (ab : list string * list string) : kdb * outcome kanswer :=
  (k, bind (get_knowledge k id) (fun r => Ok {| ka_record := r; ka_node := node; ka_ents := unique_sorted (fst ab); ka_rels := unique_sorted (snd ab) |})).

(** SaveKnowledge, knowledge_api.go:21-72. *)
Definition save_knowledge (ready : bool) (kv : nat -> env) (k : kdb) (q : ksave) : kdb * outcome kanswer :=
  if String.eqb (ks_id q) "" then (k, Err EOther) else
  if String.eqb (trim (ks_content q)) "" then (k, Err EOther) else
  match get_document I (k_store k) (ks_id q) with
  | Panic => (k, Panic)
  | Err ENotFound | Ok _ =>
      let old := match get_document I (k_store k) (ks_id q) with Ok x => Some x | _ => None end in
      next (match old with Some _ => cleanup ready kv k (ks_id q) | None => (k, Ok tt) end) (fun k _ =>
      next (ingest_knowledge ready kv k (ks_id q) (ks_title q) (ks_content q) (ks_coll q) (ks_size q) (ks_overlap q) (ks_meta q) (ks_ents q) (ks_rels q)) (fun k r =>
      next (on_store k (fun s => put_document (kv 11%nat) s
              {| d_id := ks_id q; d_title := ks_title q; d_url := ks_url q; d_content := ks_content q;
                 d_version := match old with Some x => d_version x + 1 | None => 1 end; d_author := ks_author q; d_meta := ks_meta q; d_acl := [] |})) (fun k _ =>
      answer k (ks_id q) (fst r) (snd r))))
  | Err e => (k, Err e)
  end.
Definition given {A} (o : option A) (x : A) : A := match o with Some y => y | None => x end.
Definition is_some {A} (o : option A) : bool := match o with Some _ => true | None => false end.
(** UpdateKnowledge, knowledge_api.go:75-187. *)
Definition update_knowledge (ready : bool) (kv : nat -> env) (k : kdb) (q : kupdate) : kdb * outcome kanswer :=
  if String.eqb (ku_id q) "" then (k, Err EOther) else
  match get_document I (k_store k) (ku_id q) with
  | Err e => (k, Err e)
  | Panic => (k, Panic)
  | Ok x =>
    if match ku_content q with Some c => String.eqb (trim c) "" | None => false end then (k, Err EOther) else
    let title := given (ku_title q) (d_title x) in
    let content := given (ku_content q) (d_content x) in
    let meta := match ku_meta q with Some m => Some m | None => d_meta x end in
    match knowledge_collection (k_store k) (ku_id q) with
    | Err e => (k, Err e)
    | Panic => (k, Panic)
    | Ok name =>
      let replace := is_some (ku_content q) || is_some (ku_title q) || is_some (ku_coll q) || is_some (ku_meta q) in
      next (if replace
            then next (cleanup ready kv k (ku_id q)) (fun k _ =>
                 ingest_knowledge ready kv k (ku_id q) title content (given (ku_coll q) name) (given (ku_size q) 0%Z) (given (ku_overlap q) 0%Z) meta (ku_ents q) (ku_rels q))
            else next (write_graph ready kv k (ku_id q) (ku_ents q) (ku_rels q)) (fun k ab => (k, Ok ("", ab)))) (fun k r =>
      next (on_store k (fun s => put_document (kv 11%nat) s
              {| d_id := ku_id q; d_title := title; d_url := given (ku_url q) (d_url x); d_content := content; d_version := d_version x + 1;
                 d_author := given (ku_author q) (d_author x); d_meta := meta; d_acl := [] |})) (fun k _ =>
      answer k (ku_id q) (fst r) (snd r)))
    end
  end.
(** DeleteKnowledge, knowledge_api.go:260-271. *)
Definition delete_knowledge (ready : bool) (kv : nat -> env) (k : kdb) (id : string) : kdb * outcome unit :=
  if String.eqb id "" then (k, Err EOther) else
  match get_document I (k_store k) id with
  | Err e => (k, Err e)
  | Panic => (k, Panic)
  | Ok _ => cleanup ready kv k id
  end.

(** *** Grouping found chunks, knowledge_api.go:489-563 *)
(** KnowledgeSearchHit, knowledge_memory_types.go. *)
Record khit := { kh_id : string; kh_title : string; kh_url : string; kh_author : string; kh_meta : option smap; kh_score : float; kh_snippet : string;
                 kh_chunks : list string; kh_ents : list string }.
Variable snippet : string -> string.
(** The document a chunk counts for, 501-504. *)
Definition group_of (c : rchunk) : string := if String.eqb (c_doc c) "" then RagModel.c_id c else c_doc c.
(** One chunk joins its group, 505-533. *)
Definition new_hit (c : rchunk) : khit :=
  {| kh_id := group_of c; kh_title := ""; kh_url := ""; kh_author := ""; kh_meta := None; kh_score := c_score c; kh_snippet := snippet (c_content c); kh_chunks := []; kh_ents := [] |}.
Definition join (c : rchunk) (h : khit) : khit :=
  let better := fgt (c_score c) (kh_score h) in
  {| kh_id := kh_id h; kh_title := kh_title h; kh_url := kh_url h; kh_author := kh_author h; kh_meta := kh_meta h;
     kh_score := if better then c_score c else kh_score h;
     kh_snippet := if better && negb (String.eqb (snippet (c_content c)) "") then snippet (c_content c) else kh_snippet h;
     kh_chunks := if in_ids (kh_chunks h) (RagModel.c_id c) then kh_chunks h else kh_chunks h ++ [RagModel.c_id c];
     kh_ents := kh_ents h ++ c_ents c |}.
(** 546-549. *)
Definition describe (x : document) (h : khit) : khit :=
  {| kh_id := kh_id h; kh_title := d_title x; kh_url := d_url x; kh_author := d_author x; kh_meta := d_meta x; kh_score := kh_score h; kh_snippet := kh_snippet h;
     kh_chunks := kh_chunks h; kh_ents := kh_ents h |}.
(** grouped and order, 498-499: the groups in the order of their first chunks. *)
Fixpoint into_group (c : rchunk) (f : khit -> khit) (l : list khit) : list khit :=
  match l with
  | [] => [f (join c (new_hit c))]
  | h :: l' => if String.eqb (kh_id h) (group_of c) then f (join c h) :: l' else h :: into_group c f l'
  end.
(** The loop, 500-550; docCache only spares reads. *)
Fixpoint group_chunks (s : store I) (cs : list rchunk) (l : list khit) : outcome (list khit) :=
  match cs with
  | [] => Ok l
  | c :: cs' =>
      if String.eqb (c_doc c) "" then group_chunks s cs' (into_group c (fun h => h) l)
      else bind (get_document I s (c_doc c)) (fun x => group_chunks s cs' (into_group c (describe x) l))
  end.
(** 552-562. *)
Definition finish_hit (h : khit) : khit :=
  {| kh_id := kh_id h; kh_title := kh_title h; kh_url := kh_url h; kh_author := kh_author h; kh_meta := kh_meta h; kh_score := kh_score h; kh_snippet := kh_snippet h;
     kh_chunks := kh_chunks h; kh_ents := unique_sorted (kh_ents h) |}.
Definition by_hit (a b : khit) : bool :=
  if feq (kh_score a) (kh_score b) then String.ltb (kh_id a) (kh_id b) else fgt (kh_score a) (kh_score b).
Definition aggregate (srt : list khit -> list khit) (s : store I) (cs : list rchunk) : outcome (list khit) :=
  bind (group_chunks s cs []) (fun l => Ok (srt (map finish_hit l))).
End Know.
(** compactSnippet, knowledge_memory_helpers.go:9-15; [fields] is strings.Fields joined by
    spaces and trimmed. *)
Definition compact (fields : string -> string) (content : string) : string :=
  let c := fields content in if Nat.leb (String.length c) 180 then c else String.substring 0 177 c ++ "...".
