(** Model of /repo/pkg/cortexdb/graphrag.go: chunking of documents, option defaults,
    reranking, context packing, ids of chunks, and GraphRAG search on top of the
    answers of the vector store and of the graph. The embedder, the extraction of
    title-cased names from a text, strings.ToLower, strings.Fields on queries and
    sort.Slice are parameters. Products and sums are rounded one by one (no fused
    multiply-add). Integer overflow of the options is not modelled. *)
From Coq Require Import String Ascii List NArith ZArith Bool Arith.
From Coq Require Import Floats.SpecFloat.
From Verif Require Import Base Floats64 TopK StoreModel SearchModel DiversityModel.
Import ListNotations.
Open Scope list_scope.
Open Scope nat_scope.

(** *** Chunking. A text is its list of runes (invalid UTF-8 is not modelled). *)
Definition text := list N.

(** unicode.IsSpace. *)
Definition is_space (r : N) : bool :=
  ((9 <=? r) && (r <=? 13) || (r =? 32) || (r =? 133) || (r =? 160) || (r =? 5760)
   || (8192 <=? r) && (r <=? 8202) || (r =? 8232) || (r =? 8233) || (r =? 8239) || (r =? 8287) || (r =? 12288))%N.
(** The separator of splitGraphRAGText, graphrag.go:607-609: newline or carriage return. *)
Definition is_break (r : N) : bool := ((r =? 10) || (r =? 13))%N.

(** strings.FieldsFunc: the maximal runs of runes that are not separators; [cur] is the
    run being read. strings.Fields is the case of unicode.IsSpace. *)
Fixpoint fields_func (sep : N -> bool) (cur : text) (t : text) : list text :=
  let flush := match cur with [] => [] | _ => [cur] end in
  match t with
  | [] => flush
  | r :: t' => if sep r then flush ++ fields_func sep [] t' else fields_func sep (cur ++ [r]) t'
  end.
(** strings.TrimSpace. *)
Fixpoint drop_space (t : text) : text :=
  match t with [] => [] | r :: t' => if is_space r then drop_space t' else t end.
Definition trim_space (t : text) : text := rev (drop_space (rev (drop_space t))).
(** strings.Join(words, " "). *)
Fixpoint join_words (ws : list text) : text :=
  match ws with
  | [] => []
  | w :: [] => w
  | w :: ws' => w ++ 32%N :: join_words ws'
  end.

(** The window loop, graphrag.go:631-640; [fuel] bounds its iterations. *)
Fixpoint windows (fuel size step start : nat) (ws : list text) : list (list text) :=
  match fuel with
  | O => []
  | S fuel' =>
      if start <? length ws then
        let e := if length ws <? start + size then length ws else start + size in
        firstn (e - start) (skipn start ws) :: (if e =? length ws then [] else windows fuel' size step (start + step) ws)
      else []
  end.
(** One paragraph, graphrag.go:613-640. *)
Definition split_paragraph (size overlap : nat) (p : text) : list text :=
  let p := trim_space p in
  match p with
  | [] => []
  | _ =>
      let ws := fields_func is_space [] p in
      if length ws =? 0 then []
      else if length ws <=? size then [join_words ws]
      else let step := if size <=? overlap then size else size - overlap in
           map join_words (windows (length ws) size step 0 ws)
  end.
(** splitGraphRAGText, graphrag.go:606-643, for non-negative sizes. *)
Definition split_text (t : text) (size overlap : nat) : list text :=
  flat_map (split_paragraph size overlap) (fields_func is_break [] t).

(** applyGraphRAGIngestDefaults, graphrag.go:527-540, chunk size and overlap. *)
Definition ingest_defaults (size overlap : Z) : Z * Z :=
  let size := if (size <=? 0)%Z then 120%Z else size in
  let overlap := if (overlap <? 0)%Z then 0%Z else overlap in
  let overlap := if (size <=? overlap)%Z then (size / 4)%Z else overlap in
  (size, overlap).
(** The chunks InsertGraphDocument stores for a content, graphrag.go:121, 129. *)
Definition document_chunks (content : text) (size overlap : Z) : list text :=
  let (n, o) := ingest_defaults size overlap in split_text content (Z.to_nat n) (Z.to_nat o).

(** *** Retrieved chunks. *)
(** GraphRAGChunkResult, graphrag.go:90-98. *)
Record rchunk := { c_id : string; c_doc : string; c_content : string; c_score : float; c_base : float; c_rerank : float; c_ents : list string }.

(** The retrieval mode after normalizeRetrievalMode, graphrag.go:855-866. *)
Inductive rmode := MAuto | MLexical | MGraph.
(** GraphRAGQueryOptions without the collection, graphrag.go:75-87. *)
Record qopts := { q_topk : Z; q_hops : Z; q_related : Z; q_chunks : Z; q_chars : Z; q_perdoc : Z; q_rerank : bool; q_lambda : float;
  q_nograph : bool; q_mode : rmode }.

Definition dec (a b : Z) : float := f64_div (f64_of_Z a) (f64_of_Z b).

(** applyGraphRAGQueryDefaults, graphrag.go:542-575. *)
Definition query_defaults (o : qopts) : qopts :=
  let topk := if (q_topk o <=? 0)%Z then 4%Z else q_topk o in
  let hops := if (q_hops o <=? 0)%Z then 2%Z else q_hops o in
  let related := if (q_related o <? 0)%Z then 0%Z else q_related o in
  let related := if (related =? 0)%Z then topk else related in
  {| q_topk := topk; q_hops := hops; q_related := related;
     q_chunks := if (q_chunks o <=? 0)%Z then (topk + related)%Z else q_chunks o;
     q_chars := if (q_chars o <=? 0)%Z then 2400%Z else q_chars o;
     q_perdoc := if (q_perdoc o <=? 0)%Z then 2%Z else q_perdoc o;
     q_rerank := true;
     q_lambda := if fle (q_lambda o) f_zero || fgt (q_lambda o) f_one then dec 3 4 else q_lambda o;
     q_nograph := q_nograph o; q_mode := q_mode o |}.

Definition len (s : string) : Z := Z.of_nat (String.length s).

(** packGraphRAGContext, graphrag.go:747-766: the loop. The map docCounts is the list
    of the documents of the chunks packed so far. *)
Fixpoint pack_loop (o : qopts) (cs packed : list rchunk) (docs : list string) (chars : Z) : list rchunk :=
  match cs with
  | [] => packed
  | c :: cs' =>
      if (q_chunks o <=? Z.of_nat (length packed))%Z then packed
      else if negb (String.eqb (c_doc c) "") && (q_perdoc o <=? Z.of_nat (count_occ string_dec docs (c_doc c)))%Z
      then pack_loop o cs' packed docs chars
      else let line := (len (c_content c) + len (c_id c) + len (c_doc c) + 8)%Z in
           if negb (match packed with [] => true | _ => false end) && (q_chars o <? chars + line)%Z
           then pack_loop o cs' packed docs chars
           else pack_loop o cs' (packed ++ [c]) (if String.eqb (c_doc c) "" then docs else docs ++ [c_doc c]) (chars + line)%Z
  end.
(** packGraphRAGContext, graphrag.go:738-771. A negative MaxContextChunks, which makes
    the allocation panic, does not occur after the defaults. *)
Definition pack (o : qopts) (cs : list rchunk) : list rchunk :=
  match pack_loop o cs [] [] 0 with
  | [] => firstn 1 cs
  | p => p
  end.

(** One line of the context, graphrag.go:693-698. *)
Definition context_line (c : rchunk) : string :=
  let prefix := if String.eqb (c_doc c) "" then c_id c else (c_doc c ++ "/" ++ c_id c)%string in
  ("[" ++ prefix ++ "] " ++ c_content c)%string.
Definition newline : string := String (ascii_of_nat 10) EmptyString.
(** buildGraphRAGContext, graphrag.go:687-701. *)
Definition build_context (cs : list rchunk) : string := String.concat newline (map context_line cs).

(** overlapScore, graphrag.go:814-829, on duplicate-free lists. *)
Definition overlap_score (a b : list string) : float :=
  if (length a =? 0) || (length b =? 0) then f_zero
  else let i := length (filter (fun k => if in_dec string_dec k b then true else false) a) in
       f64_div (f64_of_Z (Z.of_nat i)) (f64_of_Z (Z.of_nat (if length a <? length b then length b else length a))).

(** normalizeChunkScores, graphrag.go:773-794. *)
Definition normalize_scores (scores : list float) : list float :=
  match scores with
  | [] => []
  | s0 :: rest =>
      let mn := fold_left (fun m s => if flt s m then s else m) rest s0 in
      let mx := fold_left (fun m s => if fgt s m then s else m) rest s0 in
      if flt (f64_sub mx mn) (dec 1 1000000000) then map (fun _ => f_one) scores
      else map (fun s => f64_div (f64_sub s mn) (f64_sub mx mn)) scores
  end.

Section Rerank.
(** The tokens of a text before short ones are dropped: words of the lower-cased text
    without leading and trailing runes that are neither letters nor digits. *)
Variable tokens : string -> list string.
(** The names extractTitleEntities finds in a text, graphrag.go:918-935. *)
Variable names : string -> list string.

(** tokenSet, graphrag.go:831-845: the set as a duplicate-free list. *)
Definition token_set (t : string) : list string :=
  nodup string_dec (filter (fun w => negb (String.length w <? 2)) (tokens t)).

(** The combined score, graphrag.go:712-716. *)
Definition rerank_score (q : string) (c : rchunk) (norm : float) : float :=
  let t := overlap_score (token_set q) (token_set (c_content c)) in
  let e := overlap_score (token_set (String.concat " " (names q))) (token_set (String.concat " " (c_ents c))) in
  f64_add (f64_add (f64_mul norm (dec 6 10)) (f64_mul t (dec 1 4))) (f64_mul e (dec 15 100)).
Definition set_rerank (c : rchunk) (x : float) : rchunk :=
  {| c_id := c_id c; c_doc := c_doc c; c_content := c_content c; c_score := c_score c; c_base := c_base c; c_rerank := x; c_ents := c_ents c |}.
Definition rerank_scores (q : string) (cs : list rchunk) : list rchunk :=
  map (fun p => set_rerank (fst p) (rerank_score q (fst p) (snd p))) (List.combine cs (normalize_scores (map c_score cs))).

(** maxRedundancy, graphrag.go:796-812. *)
Definition redundancy (c : rchunk) (selected : list rchunk) : float :=
  max_pos (map (fun x =>
    let s := overlap_score (token_set (c_content c)) (token_set (c_content x)) in
    if negb (String.eqb (c_doc c) "") && String.eqb (c_doc c) (c_doc x)
    then (if fgt s (dec 85 100) then s else dec 85 100) else s) selected).
(** Score of a remaining chunk, graphrag.go:725-726. *)
Definition mmr_value (lambda : float) (selected : list rchunk) (c : rchunk) : float :=
  f64_sub (f64_mul lambda (c_rerank c)) (f64_mul (f64_sub f_one lambda) (redundancy c selected)).
(** The greedy loop, graphrag.go:721-734; [fuel] bounds the remaining chunks. *)
Fixpoint greedy_loop (lambda : float) (k : Z) (fuel : nat) (selected remaining : list rchunk) : list rchunk :=
  match fuel with
  | O => selected
  | S fuel' =>
      match remaining with
      | [] => selected
      | _ =>
          if (Z.of_nat (length selected) <? k)%Z then
            match best_index (mmr_value lambda selected) remaining 0 (SFopp max_float64) (Some 0) with
            | Some i => match nth_error remaining i with
                        | Some c => greedy_loop lambda k fuel' (selected ++ [c]) (remove_at i remaining)
                        | None => selected
                        end
            | None => selected
            end
          else selected
      end
  end.
(** rerankGraphRAGChunks, graphrag.go:703-736. *)
Definition rerank (o : qopts) (q : string) (cs : list rchunk) : list rchunk :=
  greedy_loop (q_lambda o) (q_chunks o) (length cs) [] (rerank_scores q cs).

(** *** GraphRAG search. *)
(** A result of the vector search: id, document, content, score. *)
Record seed := { s_id : string; s_doc : string; s_content : string; s_score : float }.
(** A graph node met by the traversal: id, type, content and the document_id property
    when it is a string. *)
Record gnode := { n_id : string; n_type : string; n_content : string; n_doc : option string }.

(** A new entry of chunkResults. *)
Definition fresh_chunk (id doc content : string) (score : float) : rchunk :=
  {| c_id := id; c_doc := doc; c_content := content; c_score := score; c_base := f_zero; c_rerank := f_zero; c_ents := [] |}.
Definition set_score (c : rchunk) (x : float) : rchunk :=
  {| c_id := c_id c; c_doc := c_doc c; c_content := c_content c; c_score := x; c_base := c_base c; c_rerank := c_rerank c; c_ents := c_ents c |}.
Definition set_ents (c : rchunk) (es : list string) : rchunk :=
  {| c_id := c_id c; c_doc := c_doc c; c_content := c_content c; c_score := c_score c; c_base := c_base c; c_rerank := c_rerank c; c_ents := es |}.
Definition set_base (c : rchunk) : rchunk :=
  {| c_id := c_id c; c_doc := c_doc c; c_content := c_content c; c_score := c_score c; c_base := c_score c; c_rerank := c_rerank c; c_ents := c_ents c |}.
(** chunkResults, a map from ids to entries, as an association list. *)
Definition find_chunk (id : string) (m : list rchunk) : option rchunk := find (fun c => String.eqb (c_id c) id) m.
Fixpoint put_chunk (c : rchunk) (m : list rchunk) : list rchunk :=
  match m with
  | [] => [c]
  | d :: m' => if String.eqb (c_id d) (c_id c) then c :: m' else d :: put_chunk c m'
  end.

(** One neighbour of a seed, graphrag.go:417-440; [seen] are the seeds so far. *)
Definition visit (seen : list string) (score : float) (st : list rchunk * list string) (n : gnode) : list rchunk * list string :=
  let (m, es) := st in
  if String.eqb (n_type n) "entity" then (m, es ++ [n_content n])
  else if String.eqb (n_type n) "chunk" then
    if in_dec string_dec (n_id n) seen then (m, es)
    else match find_chunk (n_id n) m with
         | None => (put_chunk (fresh_chunk (n_id n) (match n_doc n with Some d => d | None => EmptyString end) (n_content n) (f64_mul score (dec 1 2))) m, es)
         | Some r => if fgt (f64_mul score (dec 1 2)) (c_score r) then (put_chunk (set_score r (f64_mul score (dec 1 2))) m, es) else (m, es)
         end
  else (m, es).
(** The loop over the seeds, graphrag.go:393-441. [nb] answers Neighbors for a node, or
    fails. *)
Fixpoint expand (nb : string -> option (list gnode)) (use : bool) (seeds : list seed) (seen : list string) (st : list rchunk * list string)
  : option (list rchunk * list string) :=
  match seeds with
  | [] => Some st
  | s :: seeds' =>
      let st := (put_chunk (fresh_chunk (s_id s) (s_doc s) (s_content s) (s_score s)) (fst st), snd st) in
      let seen := seen ++ [s_id s] in
      if use then
        match nb (s_id s) with
        | None => None
        | Some ns => expand nb use seeds' seen (fold_left (visit seen (s_score s)) ns st)
        end
      else expand nb use seeds' seen st
  end.

(** The names of the entities next to each chunk, graphrag.go:466-482. [ent] answers the
    one-step entity neighbourhood of a chunk, or fails. *)
Fixpoint load_entities (ent : string -> option (list string)) (ssort : list string -> list string) (m : list rchunk) (es : list string)
  : option (list rchunk * list string) :=
  match m with
  | [] => Some ([], es)
  | c :: m' =>
      match ent (c_id c) with
      | None => None
      | Some ns => match load_entities ent ssort m' (es ++ ns) with
                   | None => None
                   | Some (m'', es') => Some (set_ents c (ssort ns) :: m'', es')
                   end
      end
  end.

(** The entries of the seeds, graphrag.go:486-491. *)
Definition seed_chunks (seeds : list seed) (m : list rchunk) : list rchunk :=
  flat_map (fun s => match find_chunk (s_id s) m with Some c => [set_base c] | None => [] end) seeds.
(** Those of the other chunks, in the order [ord] of the map, graphrag.go:492-502. *)
Definition related_chunks (srt ord : list rchunk -> list rchunk) (o : qopts) (seeds : list seed) (m : list rchunk) : list rchunk :=
  let l := map set_base (filter (fun c => if in_dec string_dec (c_id c) (map s_id seeds) then false else true) (ord m)) in
  firstn (Z.to_nat (q_related o)) (srt l).

(** shouldUseGraphRetrieval, graphrag.go:868-884. *)
Definition use_graph (o : qopts) (q : string) (given : list string) : bool :=
  if q_nograph o then false
  else match q_mode o with
       | MLexical => false
       | MGraph => true
       | MAuto => negb (length given =? 0) || negb (length (names q) =? 0)
       end.

(** GraphRAGQueryResult, graphrag.go:101-106. *)
Record qresult := { r_chunks : list rchunk; r_entities : list string; r_context : string }.
(** Reranking and packing, graphrag.go:452-461, 505-516. *)
Definition finish (srt : list rchunk -> list rchunk) (o : qopts) (q : string) (cs : list rchunk) : list rchunk :=
  pack o (if q_rerank o then rerank o q cs
          else map (fun c => set_rerank c (c_score c)) (srt cs)).

(** SearchGraphRAG, graphrag.go:361-518, from the seeds the vector search returned; blank
    queries, embedding and search errors happen before. [key_sort] sorts the keys of the
    entity set (sortedKeys, graphrag.go:937-944). *)
Definition search_graphrag (srt ord : list rchunk -> list rchunk) (ssort : list string -> list string)
  (nb : string -> option (list gnode)) (ent : string -> option (list string)) (opts : qopts) (q : string) (seeds : list seed) : outcome qresult :=
  let o := query_defaults opts in
  match seeds with
  | [] => Ok {| r_chunks := []; r_entities := []; r_context := "" |}
  | _ =>
      let use := use_graph o q [] in
      match expand nb use seeds [] ([], []) with
      | None => Err EOther
      | Some (m, es) =>
          if use then
            match load_entities ent ssort m es with
            | None => Err EOther
            | Some (m, es) =>
                let cs := finish srt o q (seed_chunks seeds m ++ related_chunks srt ord o seeds m) in
                Ok {| r_chunks := cs; r_entities := ssort (nodup string_dec es); r_context := build_context cs |}
            end
          else
            let cs := finish srt o q (seed_chunks seeds m) in
            Ok {| r_chunks := cs; r_entities := []; r_context := build_context cs |}
      end
  end.
End Rerank.

(** *** Stored chunks. *)
(** %03d for a non-negative index. *)
Definition digits (n : nat) : string := fmt_d (Z.of_nat n).
Definition pad3 (s : string) : string :=
  match String.length s with O => ("000" ++ s)%string | 1 => ("00" ++ s)%string | 2 => ("0" ++ s)%string | _ => s end.
(** graphChunkNodeID, graphrag.go:665-667. *)
Definition chunk_node_id (doc : string) (i : nat) : string := ("chunk:" ++ doc ++ ":" ++ pad3 (digits i))%string.
(** graphDocumentNodeID, graphrag.go:661-663. *)
Definition document_node_id (doc : string) : string := ("doc:" ++ doc)%string.

(** The stored chunks: id, document and content, one row per id. InsertGraphDocument
    upserts the new chunks, graphrag.go:179-210, 276-281; nothing removes old ones. *)
Definition chunk_row : Type := string * string * text.
Definition put_row (r : chunk_row) (t : list chunk_row) : list chunk_row :=
  filter (fun x => negb (String.eqb (fst (fst x)) (fst (fst r)))) t ++ [r].
Fixpoint number {A} (i : nat) (l : list A) : list (nat * A) :=
  match l with [] => [] | x :: l' => (i, x) :: number (S i) l' end.
Definition ingest (doc : string) (content : text) (size overlap : Z) (t : list chunk_row) : list chunk_row :=
  fold_left (fun t p => put_row (chunk_node_id doc (fst p), doc, snd p) t) (number 0 (document_chunks content size overlap)) t.

(** *** Entity ids. *)
Section EntityId.
(** unicode.IsLetter or unicode.IsDigit. *)
Variable letter_or_digit : N -> bool.
(** strings.ToLower. *)
Variable lower : text -> text.
Fixpoint drop_us (t : text) : text :=
  match t with [] => [] | r :: t' => if (r =? 95)%N then drop_us t' else t end.
Definition ascii_text (s : string) : text := map N_of_ascii (list_ascii_of_string s).
(** graphEntityNodeID, graphrag.go:669-685. *)
Definition entity_node_id (name : text) : text :=
  let kept := flat_map (fun r => if letter_or_digit r then [r] else if ((r =? 32) || (r =? 45) || (r =? 95))%N then [95%N] else []) (lower (trim_space name)) in
  let id := rev (drop_us (rev (drop_us kept))) in
  ascii_text "entity:" ++ match id with [] => ascii_text "entity" | _ => id end.
End EntityId.
