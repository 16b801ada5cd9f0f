(** Model of /repo/pkg/core/store_search.go: Search and SearchWithFilter over the
    store of StoreModel.v. Query errors of SQLite during reads and logging are not
    modelled. *)
From Coq Require Import String Ascii List NArith ZArith Bool.
From Coq Require Import Floats.SpecFloat DecimalString.
From Verif Require Import Base Floats64 EncodingModel DimensionModel StoreModel.
Import ListNotations.
Open Scope string_scope.
Open Scope list_scope.

(** SearchOptions, embedding.go. The filter map is an association list; every use is
    a conjunction over its entries, so iteration order does not matter. *)
Record sopts := {
  o_coll : string; o_topk : Z; o_filter : smap; o_threshold : float;
  o_textw : float; o_qtext : string }.

(** Scoring configuration: similarityFn (user supplied), textSimilarity (nil or a
    function), TextSimilarity.Enabled and DefaultWeight. *)
Record scorer := {
  sc_sim : list N -> list N -> float;
  sc_text : option (string -> string -> float);
  sc_enabled : bool; sc_default : float }.

Definition f_one : float := f64_of_Z 1.

(** getTextWeight, store_search.go:481-493. *)
Definition text_weight (sc : scorer) (o : sopts) : float :=
  if fgt (o_textw o) f_zero then (if flt (o_textw o) f_one then o_textw o else f_one)
  else if (match sc_text sc with Some _ => true | None => false end) && sc_enabled sc then sc_default sc
  else f_zero.

(** Score of one candidate, store_search.go:440-457 and 210-223. *)
Definition score (sc : scorer) (o : sopts) (q : list N) (e : embedding) : float :=
  let tw := text_weight sc o in
  let vw := f64_sub f_one tw in
  let vs := sc_sim sc q (vec_of e) in
  let ts := match sc_text sc with
            | Some f => if String.eqb (o_qtext o) "" then f_zero else f (o_qtext o) (e_content e)
            | None => f_zero end in
  if fgt tw f_zero && fgt ts f_zero then f64_add (f64_mul vs vw) (f64_mul ts tw) else vs.

(** scanEmbedding, store_search.go:378-415: no ACL in search results. *)
Definition scan_search (d : db) (r : row) : outcome embedding :=
  bind (decode_vector (r_blob r)) (fun v =>
    Ok {| e_id := r_id r; e_collid := 0; e_coll := coll_name d (r_coll r);
          e_vec := Some v; e_content := r_content r;
          e_doc := match r_doc r with Some x => x | None => "" end;
          e_meta := r_meta r; e_acl := [] |}).

(** matchesFilter, store_search.go:418-428: "doc_id" is skipped, a missing key reads
    as the empty string. *)
Definition meta_get (m : smap) (k : string) : string :=
  match assoc k m with Some x => x | None => "" end.
Definition matches_filter (e : embedding) (f : smap) : bool :=
  forallb (fun kv => String.eqb (fst kv) "doc_id" ||
    match e_meta e with None => false | Some m => String.eqb (meta_get m (fst kv)) (snd kv) end) f.

(** WHERE clause of buildSearchQuery, store_search.go:311-340. *)
Definition where_ok (d : db) (o : sopts) (r : row) : bool :=
  (String.eqb (o_coll o) "" ||
   match find_coll d (o_coll o) with Some c => Z.eqb (r_coll r) (c_id c) | None => false end) &&
  forallb (fun kv => negb (String.eqb (fst kv) "doc_id") || doc_is (snd kv) r) (o_filter o).

(** fetchCandidates, store_search.go:343-375. *)
Definition fetch_candidates (d : db) (o : sopts) : list embedding :=
  filter (fun e => matches_filter e (o_filter o))
    (oks (map (scan_search d) (filter (where_ok d o) (t_rows d)))).

Notation scored := (embedding * float)%type (only parsing).
Definition by_score (a b : scored) : bool := fgt (snd a) (snd b).

Definition topk_of (o : sopts) : nat := Z.to_nat (if Z.leb (o_topk o) 0 then 10 else o_topk o).

(** scoreCandidates, store_search.go:431-478. *)
Definition score_candidates (srt : list scored -> list scored) (sc : scorer) (o : sopts) (q : list N)
           (cs : list embedding) : list scored :=
  let all := map (fun e => (e, score sc o q e)) cs in
  let kept := if fgt (o_threshold o) f_zero then filter (fun x => fge (snd x) (o_threshold o)) all else all in
  firstn (topk_of o) (srt kept).

(** fetchEmbeddingsByIDs, store_search.go:247-289: rows of the IN list, table order. *)
Definition fetch_by_ids (d : db) (ids : list string) : list embedding :=
  oks (map (scan_search d) (filter (fun r => mem (r_id r) ids) (t_rows d))).

(** processCandidates, store_search.go:193-244 (called with TopK already positive). *)
Definition process_candidates (srt : list scored -> list scored) (sc : scorer) (o : sopts) (q : list N)
           (cs : list embedding) : list scored :=
  let ok e := (String.eqb (o_coll o) "" || String.eqb (e_coll e) (o_coll o)) && matches_filter e (o_filter o) in
  let all := map (fun e => (e, score sc o q e)) (filter ok cs) in
  let kept := filter (fun x => negb (fgt (o_threshold o) f_zero && flt (snd x) (o_threshold o))) all in
  firstn (topk_of o) (srt kept).

(** Which index the configuration selects, store_search.go:43-52. *)
Inductive mode := Linear | UseHNSW | UseIVF.

Section Search.
Variable I : index_ops.
Variable srt : list scored -> list scored.

Definition search_linear (sc : scorer) (s : store I) (o : sopts) (q : list N) : list scored :=
  score_candidates srt sc o q (fetch_candidates (st_db I s) o).

(** searchWithHNSW / searchWithIVF, store_search.go:128-179: [factor] is 2 or 4. An
    IVF error also falls back to the linear search: an index that fails is one that
    answers no ids. *)
Definition search_indexed (factor : nat) (sc : scorer) (s : store I) (o : sopts) (q : list N) : list scored :=
  match ix_search I (st_ix I s) q (topk_of o * factor) with
  | [] => search_linear sc s o q
  | ids => process_candidates srt sc o q (fetch_by_ids (st_db I s) ids)
  end.

(** The query after dimension adaptation and validation, store_search.go:16-40,
    292-308. *)
Definition prepare_query (noise : nat -> float) (s : store I) (q : option (list N)) : outcome (list N) :=
  let v := match q with Some v => v | None => [] end in
  let n := Z.of_nat (length v) in
  bind (if Z.ltb 0 (st_dim I s) && negb (Z.eqb n (st_dim I s))
        then bind (adapt_bits noise (st_policy I s) v (st_dim I s)) (fun w => Ok (Some w))
        else Ok q) (fun q1 =>
  bind (validate_vector q1) (fun _ =>
  let w := match q1 with Some w => w | None => [] end in
  if Z.eqb (st_dim I s) 0 then Ok w
  else if Z.eqb (Z.of_nat (length w)) (st_dim I s) then Ok w else Err EOther)).

(** Search, store_search.go:15-61. *)
Definition search_core (m : mode) (sc : scorer) (s : store I) (o : sopts) (q : list N) : list scored :=
  match m with
  | Linear => search_linear sc s o q
  | UseHNSW => search_indexed 2 sc s o q
  | UseIVF => search_indexed 4 sc s o q
  end.
Definition search (noise : nat -> float) (m : mode) (sc : scorer) (s : store I) (q : option (list N)) (o : sopts)
  : outcome (list scored) :=
  if st_closed I s then Err EClosed
  else bind (prepare_query noise s q) (fun w => Ok (search_core m sc s o w)).

(** Expected values of SearchWithFilter's filter map. *)
Inductive fval := FStr (x : string) | FInt (z : Z) | FFloat (f : float) | FBool (b : bool) | FOther.

(** fmt's %d and %t; %g is a parameter. *)
Definition fmt_d (z : Z) : string := NilZero.string_of_int (Z.to_int z).
Definition fmt_t (b : bool) : string := if b then "true" else "false".

(** compareMetadataValues, store_search.go:538-614, for an actual value that is a
    string: metadata maps only hold strings, so the numeric and boolean branches of
    the Go code are unreachable. *)
Definition compare_value (fmt_g : float -> string) (actual : string) (e : fval) : bool :=
  match e with
  | FStr x => String.eqb actual x
  | FInt z => String.eqb actual (fmt_d z)
  | FFloat f => String.eqb actual (fmt_g f)
  | FBool b => String.eqb actual (fmt_t b)
  | FOther => false
  end.

(** filterByMetadata, store_search.go:503-535. *)
Definition filter_by_metadata (fmt_g : float -> string) (fs : list (string * fval)) (cs : list scored) : list scored :=
  match fs with
  | [] => cs
  | _ => filter (fun x => match e_meta (fst x) with
         | None => false
         | Some m => forallb (fun kv => match assoc (fst kv) m with
                                        | None => false
                                        | Some a => compare_value fmt_g a (snd kv) end) fs
         end) cs
  end.

(** SearchWithFilter, store_search.go:64-125: the filter is applied to the TopK
    results. *)
Definition search_with_filter (fmt_g : float -> string) (noise : nat -> float) (m : mode) (sc : scorer) (s : store I)
  (q : option (list N)) (o : sopts) (fs : list (string * fval)) : outcome (list scored) :=
  if st_closed I s then Err EClosed
  else bind (prepare_query noise s q) (fun w => Ok (filter_by_metadata fmt_g fs (search_core m sc s o w))).
End Search.
