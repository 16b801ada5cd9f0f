(** Properties of the dispatch of the tools. *)
From Coq Require Import List String Bool.
From Verif Require Import McpModel.
Import ListNotations.
Local Open Scope string_scope.

Lemma find_switch name : mcp_find name = switch name.
Proof.
  unfold mcp_find. let t := eval vm_compute in (rev mcp_table) in change (rev mcp_table) with t. cbn [find fst snd].
  assert (C : forall a b, String.eqb a b = String.eqb b a) by (intros; apply String.eqb_sym).
  unfold switch.
  repeat match goal with
  | |- context [String.eqb name ?s] => destruct (String.eqb_spec name s) as [->|]; [vm_compute; reflexivity|]
  end.
  repeat match goal with |- context [String.eqb ?s name] => rewrite (C s name) end.
  repeat match goal with H : name <> ?s |- context [String.eqb name ?s] => rewrite (proj2 (String.eqb_neq name s) H) end.
  reflexivity.
Qed.
Lemma listed_switch name : In name definitions <-> switch name <> None.
Proof.
  split.
  - intros H. cbn in H. repeat (destruct H as [<-|H]; [vm_compute; discriminate|]). destruct H.
  - unfold switch. repeat match goal with
    | |- context [String.eqb name ?s] => destruct (String.eqb_spec name s) as [->|]; [intros _; cbn; tauto|]
    end. congruence.
Qed.

(** *** C224 *)
(** The tools listed by Definitions, those Call knows and those of the MCP server are the
    same, for every name; no two are listed under the same name. *)
Theorem tools_agree : NoDup definitions /\ forall S Req Resp E zero run decode decode_error unknown (s : S) name input (q : Req),
  (In name definitions <-> mcp_call S Req Resp E zero run s name q <> None) /\
  (~ In name definitions -> call_tool S Req Resp E run decode decode_error unknown s name input = (s, (NilAny, Some (unknown name)))).
Proof.
  split.
  { unfold definitions. repeat constructor; cbn; intuition discriminate. }
  intros S Req Resp E zero run decode de unknown s name input q. rewrite listed_switch. unfold mcp_call. rewrite find_switch. unfold call_tool. destruct (switch name); split; [split; congruence| |split; congruence|reflexivity].
  intros X. exfalso. apply X. discriminate.
Qed.
(** A tool does the same by either way: for every name, state and input that decodes, both
    run the same method on the same request: same new state, same error, and without an
    error the MCP result is the response Call points to. *)
Theorem mcp_same_as_call : forall S Req Resp E zero run decode decode_error unknown (s : S) name input (q : Req) m,
  switch name = Some m -> decode m input = inl q ->
  exists s' out err p, mcp_call S Req Resp E zero run s name q = Some (s', (out, err)) /\
    call_tool S Req Resp E run decode decode_error unknown s name input = (s', (Pointer p, err)) /\
    run m s q = (s', (p, err)) /\ (err = None -> out = match p with Some r => r | None => zero end) /\ (err <> None -> out = zero).
Proof.
  intros S Req Resp E zero run decode de unknown s name input q m Hm Hd. unfold mcp_call, call_tool. rewrite find_switch, Hm, Hd. unfold handler.
  destruct (run m s q) as [s' [p [e|]]]; do 4 eexists; repeat split; congruence.
Qed.
(** What does not decode, or has no name, changes nothing. *)
Theorem bad_call_harmless : forall S Req Resp E run decode decode_error unknown (s : S) name input,
  (forall m, switch name = Some m -> exists e, decode m input = inr e) ->
  exists e, call_tool S Req Resp E run decode decode_error unknown s name input = (s, (NilAny, Some e)).
Proof.
  intros S Req Resp E run decode de unknown s name input H. unfold call_tool. destruct (switch name) as [m|]; [|eauto]. destruct (H m eq_refl) as (e & ->). eauto.
Qed.
(** Every tool runs the method of its name. *)
Theorem tool_methods :
  map switch ["ingest_document"; "upsert_entities"; "upsert_relations"; "search_text"; "search_chunks_by_entities"; "expand_graph"; "get_nodes"; "get_chunks";
    "build_context"; "search_graphrag_lexical"; "knowledge_save"; "knowledge_update"; "knowledge_get"; "knowledge_search"; "knowledge_delete";
    "memory_save"; "memory_update"; "memory_get"; "memory_search"; "memory_delete"] =
  map Some [IngestDocument; UpsertEntities; UpsertRelations; SearchText; SearchChunksByEntities; ExpandGraph; GetNodes; GetChunks;
    BuildContext; SearchGraphRAGLexical; SaveKnowledge; UpdateKnowledge; GetKnowledge; SearchKnowledge; DeleteKnowledge;
    SaveMemory; UpdateMemory; GetMemory; SearchMemory; DeleteMemory] /\
  forall n1 n2 m, switch n1 = Some m -> switch n2 = Some m -> n1 = n2.
Proof.
  split; [reflexivity|]. assert (G : forall n m, switch n = Some m -> n = match m with
    | IngestDocument => "ingest_document" | UpsertEntities => "upsert_entities" | UpsertRelations => "upsert_relations" | SearchText => "search_text"
    | SearchChunksByEntities => "search_chunks_by_entities" | ExpandGraph => "expand_graph" | GetNodes => "get_nodes" | GetChunks => "get_chunks"
    | BuildContext => "build_context" | SearchGraphRAGLexical => "search_graphrag_lexical" | SaveKnowledge => "knowledge_save" | UpdateKnowledge => "knowledge_update"
    | GetKnowledge => "knowledge_get" | SearchKnowledge => "knowledge_search" | DeleteKnowledge => "knowledge_delete" | SaveMemory => "memory_save"
    | UpdateMemory => "memory_update" | GetMemory => "memory_get" | SearchMemory => "memory_search" | DeleteMemory => "memory_delete" end).
  { intros n m. unfold switch. repeat match goal with |- context [String.eqb n ?s] => destruct (String.eqb_spec n s) as [->|]; [now intros [= <-]|] end. discriminate. }
  intros n1 n2 m H1 H2. rewrite (G _ _ H1), (G _ _ H2). reflexivity.
Qed.
Definition demo_run (m : method) (s : nat) (q : string) : nat * (option string * option string) :=
  if String.eqb q "" then (s, (None, Some "content is required")) else (S s, (Some q, None)).
Example mcp_same_as_call_ex :
  mcp_call nat string string string "" demo_run 4 "memory_save" "hi" = Some (5, ("hi", None)) /\
  call_tool nat string string string demo_run (fun _ i => inl i) (fun n e => n ++ e) (fun n => n) 4 "memory_save" "hi" = (5, (Pointer (Some "hi"), None)) /\
  mcp_call nat string string string "" demo_run 4 "memory_save" "" = Some (4, ("", Some "content is required")) /\
  mcp_call nat string string string "" demo_run 4 "drop" "hi" = None.
Proof. repeat split; vm_compute; reflexivity. Qed.
Print Assumptions tools_agree.
Print Assumptions mcp_same_as_call.
Print Assumptions bad_call_harmless.
Print Assumptions tool_methods.
(** Refuted as to the result of a failing call: a method that fails returns a nil pointer,
    which Call returns inside an interface, so that the result is not nil. *)
Theorem failed_call_result_refuted : forall S Req Resp E run decode decode_error unknown (s s' : S) name input (q : Req) m e,
  switch name = Some m -> decode m input = inl q -> run m s q = (s', (None, Some e)) ->
  exists r, call_tool S Req Resp E run decode decode_error unknown s name input = (s', (r, Some e)) /\ r <> NilAny.
Proof.
  intros S Req Resp E run decode de unknown s s' name input q m e H D R. unfold call_tool. rewrite H, D, R. eexists. split; [reflexivity|discriminate].
Qed.
Example failed_call_result_refuted_ex : switch "memory_save" = Some SaveMemory /\ demo_run SaveMemory 4 "" = (4, (None, Some "content is required")).
Proof. split; reflexivity. Qed.
Print Assumptions failed_call_result_refuted.
