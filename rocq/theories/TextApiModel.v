(** Model of the text calls of /repo/pkg/cortexdb/cortexdb.go:196-507. Generated ids are a
    parameter; the text map is given in the order in which the loop visits it. *)
From Coq Require Import String Ascii List NArith ZArith Bool.
From Coq Require Import Floats.SpecFloat.
From Verif Require Import Base Floats64 EncodingModel DimensionModel StoreModel SearchModel SqlModel FilterModel AdvSearchModel.
Import ListNotations.
Open Scope string_scope.
Open Scope list_scope.

(** The Embedder interface (embedder.go): one text, and a batch of texts. A nil slice is
    [None]. *)
Record embedder := { em_one : string -> outcome (option (list N)); em_batch : list string -> outcome (list (option (list N))) }.

Definition text_row (id coll text : string) (v : option (list N)) (meta : option smap) : embedding :=
  {| e_id := id; e_collid := 0; e_coll := coll; e_vec := v; e_content := text; e_doc := ""; e_meta := meta; e_acl := [] |}.

Section Text.
Variable I : index_ops.
Variable srt : list scored -> list scored.

(** InsertText, cortexdb.go:285-306. *)
Definition insert_text (em : option embedder) (ev : env) (s : store I) (id text : string) (meta : option smap) : store I * outcome unit :=
  match em with
  | None => (s, Err EOther)
  | Some m =>
      if String.eqb text "" then (s, Err EOther) else
      match em_one m text with
      | Ok v => upsert I ev s (text_row id "" text v meta)
      | Err _ => (s, Err EOther)
      | Panic => (s, Panic)
      end
  end.

(** Quick.AddTextToCollection, cortexdb.go:229-251: the text is not checked. The id is
    returned with the error of the store. *)
Definition quick_add_text (em : option embedder) (ev : env) (s : store I) (fresh coll text : string) (meta : option smap) : store I * outcome unit :=
  match em with
  | None => (s, Err EOther)
  | Some m =>
      match em_one m text with
      | Ok v => upsert I ev s (text_row fresh coll text v meta)
      | Err _ => (s, Err EOther)
      | Panic => (s, Panic)
      end
  end.

(** InsertTextBatch, cortexdb.go:310-345. vectors[i] panics when there are fewer vectors than
    texts. *)
Definition insert_text_batch (em : option embedder) (ev : env) (s : store I) (texts : list (string * string)) (meta : option smap) : store I * outcome unit :=
  match em with
  | None => (s, Err EOther)
  | Some m =>
      match filter (fun p => negb (String.eqb (snd p) "")) texts with
      | [] => (s, Ok tt)
      | kept =>
          match em_batch m (map snd kept) with
          | Ok vs =>
              if Nat.ltb (length vs) (length kept) then (s, Panic)
              else upsert_batch I ev s (map (fun x => text_row (fst (fst x)) "" (snd (fst x)) (snd x) meta) (List.combine kept vs))
          | Err _ => (s, Err EOther)
          | Panic => (s, Panic)
          end
      end
  end.

(** SearchTextInCollection, cortexdb.go:355-376. *)
Definition search_text (em : option embedder) (noise : nat -> float) (m : mode) (sc : scorer) (s : store I) (coll query : string) (k : Z) : outcome (list scored) :=
  match em with
  | None => Err EOther
  | Some e =>
      if String.eqb query "" then Err EOther else
      match em_one e query with
      | Ok v => search I srt noise m sc s v {| o_coll := coll; o_topk := k; o_filter := []; o_threshold := f_zero; o_textw := f_zero; o_qtext := query |}
      | Err _ => Err EOther
      | Panic => Panic
      end
  end.

(** Full-text search with scores: bm25(chunks_fts) of the matching rows, best first; [None]
    when MATCH fails. *)
Definition scored_fts := string -> option (list (option string * float)).
Definition plain_fts (ft : scored_fts) : fts := fun t => match ft t with Some l => Some (map fst l) | None => None end.

(** ftsSearch, cortexdb.go:445-507: the rows joined with the embeddings, in the collection if
    one is given, LIMIT TopK, then the threshold on 1/(1+(-score)). *)
Definition fts_search (ft : scored_fts) (s : store I) (query coll : string) (k : Z) (threshold : float) : outcome (list scored) :=
  if st_closed I s then Err EOther else
  match ft query with
  | None => Err EOther
  | Some l =>
      let rows := flat_map (fun h => match fst h with
                                     | None => []
                                     | Some id => match find (row_is id) (t_rows (st_db I s)) with
                                                  | Some r => [(scan_fts (st_db I s) r, snd h)]
                                                  | None => [] end end) l in
      let rows := filter (fun x => String.eqb coll "" || String.eqb (e_coll (fst x)) coll) rows in
      let hits := map (fun x : scored => ({| e_id := e_id (fst x); e_collid := 0; e_coll := e_coll (fst x); e_vec := None; e_content := e_content (fst x);
                                    e_doc := e_doc (fst x); e_meta := None; e_acl := [] |},
                                 f64_div f_one (f64_add f_one (SFopp (snd x))))) (firstn (Z.to_nat k) rows) in
      Ok (filter (fun x => negb (fgt threshold f_zero && flt (snd x) threshold)) hits)
  end.

(** SearchTextOnly, cortexdb.go:414-442: hybrid search with a nil vector, direct full-text
    search if that fails. *)
Definition search_text_only (shuffle : list scored -> list scored) (noise : nat -> float) (m : mode) (sc : scorer) (ft : scored_fts)
  (s : store I) (query coll : string) (k : Z) (threshold : float) : outcome (list scored) :=
  if String.eqb query "" then Err EOther else
  let k := if Z.leb k 0 then 10%Z else k in
  match hybrid_search I srt shuffle noise m sc (plain_fts ft) s [] query
          {| o_coll := coll; o_topk := k; o_filter := []; o_threshold := threshold; o_textw := f_zero; o_qtext := "" |} f_zero with
  | Ok out => Ok out
  | Panic => Panic
  | Err _ => fts_search ft s query coll k threshold
  end.
End Text.
