(** Model of the two ways to call the tools: GraphRAGToolbox.Call with a name and JSON,
    /repo/pkg/cortexdb/graphrag_tools.go:386-511, and the tools registered with the MCP
    server, /repo/pkg/cortexdb/mcp.go:24-270. The methods of the toolbox themselves are
    parameters (they are modelled elsewhere), as is decoding. *)
From Coq Require Import List String Bool.
Import ListNotations.
Local Open Scope string_scope.

(** The methods of GraphRAGToolbox, graphrag_tools.go:514-, knowledge_api.go, memory_api.go. *)
Inductive method :=
| IngestDocument | UpsertEntities | UpsertRelations | SearchText | SearchChunksByEntities | ExpandGraph | GetNodes | GetChunks
| BuildContext | SearchGraphRAGLexical | SaveKnowledge | UpdateKnowledge | GetKnowledge | SearchKnowledge | DeleteKnowledge
| SaveMemory | UpdateMemory | GetMemory | SearchMemory | DeleteMemory.

(** Definitions, graphrag_tools.go:212-383 and knowledge_memory_tooldefs.go:3-160: the names. *)
Definition definitions : list string :=
  ["ingest_document"; "upsert_entities"; "upsert_relations"; "search_text"; "search_chunks_by_entities"; "expand_graph"; "get_nodes"; "get_chunks";
   "build_context"; "search_graphrag_lexical"; "knowledge_save"; "knowledge_update"; "knowledge_get"; "knowledge_search"; "knowledge_delete";
   "memory_save"; "memory_update"; "memory_get"; "memory_search"; "memory_delete"].

(** The switch of Call, graphrag_tools.go:387-510. *)
Definition switch (name : string) : option method :=
  if String.eqb name "ingest_document" then Some IngestDocument else
  if String.eqb name "upsert_entities" then Some UpsertEntities else
  if String.eqb name "upsert_relations" then Some UpsertRelations else
  if String.eqb name "search_text" then Some SearchText else
  if String.eqb name "search_chunks_by_entities" then Some SearchChunksByEntities else
  if String.eqb name "expand_graph" then Some ExpandGraph else
  if String.eqb name "get_nodes" then Some GetNodes else
  if String.eqb name "get_chunks" then Some GetChunks else
  if String.eqb name "build_context" then Some BuildContext else
  if String.eqb name "search_graphrag_lexical" then Some SearchGraphRAGLexical else
  if String.eqb name "knowledge_save" then Some SaveKnowledge else
  if String.eqb name "knowledge_update" then Some UpdateKnowledge else
  if String.eqb name "knowledge_get" then Some GetKnowledge else
  if String.eqb name "knowledge_search" then Some SearchKnowledge else
  if String.eqb name "knowledge_delete" then Some DeleteKnowledge else
  if String.eqb name "memory_save" then Some SaveMemory else
  if String.eqb name "memory_update" then Some UpdateMemory else
  if String.eqb name "memory_get" then Some GetMemory else
  if String.eqb name "memory_search" then Some SearchMemory else
  if String.eqb name "memory_delete" then Some DeleteMemory else None.

Section Tools.
Variables (S Req Resp E : Type).
Variable zero : Resp.
(** A method: a pointer to a response, possibly nil, and possibly an error; the new state. *)
Variable run : method -> S -> Req -> S * (option Resp * option E).
(** json.Unmarshal into the request of the method; the decoding error wrapped with the name;
    "unknown tool". *)
Variable decode : method -> string -> Req + E.
Variables (decode_error : string -> E -> E) (unknown : string -> E).

(** The `any` Call returns: the nil interface, or a pointer in an interface, which may itself
    be nil. *)
Inductive any := NilAny | Pointer (p : option Resp).

(** Call, graphrag_tools.go:386-511. *)
Definition call_tool (s : S) (name input : string) : S * (any * option E) :=
  match switch name with
  | None => (s, (NilAny, Some (unknown name)))
  | Some m => match decode m input with
              | inr e => (s, (NilAny, Some (decode_error name e)))
              | inl q => let '(s', (p, e)) := run m s q in (s', (Pointer p, e))
              end
  end.

(** The handler closures, mcp.go:50-249, and addGraphRAGMCPTool, :258-270. *)
Definition handler (m : method) (s : S) (q : Req) : S * (Resp * option E) :=
  let '(s', (p, e)) := run m s q in
  match e with
  | Some x => (s', (zero, Some x))
  | None => (s', (match p with None => zero | Some r => r end, None))
  end.

(** NewMCPServer, mcp.go:44-249: the handler added for each entry of the map of definitions;
    an entry missing from the map has the empty name. *)
Definition mcp_name (name : string) : string := if existsb (String.eqb name) definitions then name else "".
Definition mcp_table : list (string * method) :=
  [(mcp_name "ingest_document", IngestDocument); (mcp_name "upsert_entities", UpsertEntities); (mcp_name "upsert_relations", UpsertRelations);
   (mcp_name "search_text", SearchText); (mcp_name "search_chunks_by_entities", SearchChunksByEntities); (mcp_name "expand_graph", ExpandGraph);
   (mcp_name "get_nodes", GetNodes); (mcp_name "get_chunks", GetChunks); (mcp_name "build_context", BuildContext);
   (mcp_name "search_graphrag_lexical", SearchGraphRAGLexical); (mcp_name "knowledge_save", SaveKnowledge); (mcp_name "knowledge_update", UpdateKnowledge);
   (mcp_name "knowledge_get", GetKnowledge); (mcp_name "knowledge_search", SearchKnowledge); (mcp_name "knowledge_delete", DeleteKnowledge);
   (mcp_name "memory_save", SaveMemory); (mcp_name "memory_update", UpdateMemory); (mcp_name "memory_get", GetMemory);
   (mcp_name "memory_search", SearchMemory); (mcp_name "memory_delete", DeleteMemory)].

(** AddTool replaces a tool of the same name: the last entry counts. The request comes decoded. *)
Definition mcp_find (name : string) : option method :=
  match find (fun e => String.eqb (fst e) name) (rev mcp_table) with Some e => Some (snd e) | None => None end.
Definition mcp_call (s : S) (name : string) (q : Req) : option (S * (Resp * option E)) :=
  match mcp_find name with None => None | Some m => Some (handler m s q) end.
End Tools.
Arguments NilAny {Resp}.
Arguments Pointer {Resp}.
