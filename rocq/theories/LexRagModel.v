(** Model of SearchGraphRAGLexical, /repo/pkg/cortexdb/graphrag_tools.go:984-1159, the
    GraphRAG search that needs no embedder. The answers of the text search, of the
    search by entity names and of the graph traversals are parameters that receive the
    limits the code passes to them; reranking, packing and defaults are those of
    RagModel.v. Collection names and metadata are left out, and the multiplication of
    TopK by 12 does not overflow. *)
From Coq Require Import String Ascii List NArith ZArith Bool Arith.
From Coq Require Import Floats.SpecFloat.
From Verif Require Import Base Floats64 TopK StoreModel SearchModel DiversityModel RagModel.
Import ListNotations.
Open Scope list_scope.
Open Scope nat_scope.

Section Lex.
Variables (tokens names : string -> list string).
(** strings.TrimSpace of the query is empty. *)
Variable blank : string -> bool.
(** sort.Slice by score, the order of the map chunkResults, sort.Strings. *)
Variables (srt ord : list rchunk -> list rchunk) (ssort : list string -> list string).
(** SearchText for a limit; SearchChunksByEntities for names, limit and hops; Neighbors
    for a node, hops and limit; getChunkEntityNames. *)
Variables (texts : Z -> outcome (list seed)) (named : list string -> Z -> Z -> outcome (list seed))
  (nb : string -> Z -> Z -> option (list gnode)) (ent : string -> option (list string)).

(** A new entry of chunkResults, graphrag_tools.go:1032-1039. *)
Definition lex_entry (s : seed) : rchunk :=
  {| c_id := s_id s; c_doc := s_doc s; c_content := s_content s; c_score := s_score s; c_base := s_score s; c_rerank := f_zero; c_ents := [] |}.
(** addChunk without its seed part, graphrag_tools.go:1029-1043. *)
Definition lex_add (m : list rchunk) (s : seed) : list rchunk :=
  match find_chunk (s_id s) m with
  | None => put_chunk (lex_entry s) m
  | Some r => if fgt (s_score s) (c_score r) then put_chunk (set_base (set_score r (s_score s))) m else m
  end.
(** addChunk's seed part, graphrag_tools.go:1044-1049; the set seedIDs is the list
    seedOrder. *)
Definition lex_seen (order : list string) (id : string) : list string :=
  if in_dec string_dec id order then order else order ++ [id].
(** graphrag_tools.go:1067-1070. *)
Definition lex_raise (s : seed) : seed :=
  if flt (s_score s) (dec 3 4) then {| s_id := s_id s; s_doc := s_doc s; s_content := s_content s; s_score := dec 3 4 |} else s.
(** The chunk nodes among the neighbours of a seed, graphrag_tools.go:1109-1118. *)
Definition lex_met (ns : list gnode) : list seed :=
  flat_map (fun n => if String.eqb (n_type n) "chunk"
                     then [{| s_id := n_id n; s_doc := match n_doc n with Some d => d | None => EmptyString end; s_content := n_content n; s_score := dec 1 2 |}]
                     else []) ns.
(** The entity nodes, graphrag_tools.go:1107-1108. *)
Definition lex_ents (ns : list gnode) : list string :=
  flat_map (fun n => if String.eqb (n_type n) "entity" then [n_content n] else []) ns.
(** The loop over the seeds, graphrag_tools.go:1096-1121. *)
Fixpoint lex_expand (o : qopts) (order : list string) (m : list rchunk) (es : list string) : option (list rchunk * list string) :=
  match order with
  | [] => Some (m, es)
  | id :: order' =>
      match nb id (q_hops o) (q_topk o * 12) with
      | None => None
      | Some ns => lex_expand o order' (fold_left lex_add (lex_met ns) m) (es ++ lex_ents ns)
      end
  end.
(** The entries in the order of seedOrder, graphrag_tools.go:1084-1089, 1134-1139. *)
Definition lex_firsts (order : list string) (m : list rchunk) : list rchunk :=
  flat_map (fun id => match find_chunk id m with Some c => [c] | None => [] end) order.
(** graphrag_tools.go:1141-1151. *)
Definition lex_related (o : qopts) (order : list string) (m : list rchunk) : list rchunk :=
  firstn (Z.to_nat (q_related o)) (srt (filter (fun c => if in_dec string_dec (c_id c) order then false else true) (ord m))).
(** graphrag_tools.go:1090-1091, 1153-1155. *)
Definition lex_finish (o : qopts) (q : string) (cs : list rchunk) : list rchunk := pack o (rerank tokens names o q cs).

(** SearchGraphRAGLexical, graphrag_tools.go:984-1159. *)
Definition search_lexical (opts : qopts) (q : string) (given : list string) : outcome qresult :=
  if blank q then Err EEmptyQuery
  else
    let o := query_defaults opts in
    bind (texts (q_topk o)) (fun found =>
    let use := use_graph names opts q given in
    let wanted := if use && (length given =? 0) then names q else given in
    bind (if use && negb (length wanted =? 0) then named wanted (q_topk o) (q_hops o) else Ok []) (fun more =>
    let seeds := found ++ map lex_raise more in
    let m := fold_left lex_add seeds [] in
    let order := fold_left lex_seen (map s_id seeds) [] in
    match order with
    | [] => Ok {| r_chunks := []; r_entities := []; r_context := EmptyString |}
    | _ =>
        if use then
          match lex_expand o order m [] with
          | None => Err EOther
          | Some (m, es) =>
              match load_entities ent ssort m es with
              | None => Err EOther
              | Some (m, es) =>
                  let cs := lex_finish o q (lex_firsts order m ++ lex_related o order m) in
                  Ok {| r_chunks := cs; r_entities := ssort (nodup string_dec es); r_context := build_context cs |}
              end
          end
        else
          let cs := lex_finish o q (lex_firsts order m) in
          Ok {| r_chunks := cs; r_entities := []; r_context := build_context cs |}
    end)).
End Lex.
