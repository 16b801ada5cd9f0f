(** Model of /repo/pkg/core/advanced_search.go: SearchWithACL and HybridSearch, and of
    RangeSearch (faceted_search.go). *)
From Coq Require Import String Ascii List NArith ZArith Bool.
From Coq Require Import Floats.SpecFloat.
From Verif Require Import Base Floats64 EncodingModel DimensionModel StoreModel SearchModel SqlModel FilterModel.
Import ListNotations.
Open Scope string_scope.
Open Scope list_scope.

(** The condition of SearchWithACL, advanced_search.go:36-47. *)
Definition acl_text (acl : list string) : sqltext :=
  match acl with [] => [[ALeaf LPublic]] | _ => join_or [[ALeaf LPublic]] [[ALeaf (LPrincipals acl)]] end.

(** Keyword search: the matching chunks_fts rows, best first, each as the embedding
    its rowid denotes ([None]: no such row any more). [None] is a failed MATCH, whose
    error is ignored. *)
Definition fts := string -> option (list (option string)).

Section Adv.
Variable I : index_ops.
Variable srt : list scored -> list scored.

(** SearchWithACL, advanced_search.go:24-56; the query is used as it is. *)
Definition search_with_acl (Nm : numerals) (sc : scorer) (s : store I) (q : list N) (acl : list string) (o : sopts) : outcome (list scored) :=
  if st_closed I s then Err EClosed
  else bind (fetch_sql Nm (st_db I s) (acl_text acl) o) (fun cs => Ok (score_and_sort srt sc o q cs)).

(** 1.0 / (k + float64(rank)), advanced_search.go:117, 169; ranks count from 1. *)
Definition recip (k : float) (rank : nat) : float := f64_div f_one (f64_add k (f64_of_Z (Z.of_nat rank))).

(** Scan of a row found by keyword, advanced_search.go:151-188: a vector that does
    not decode is left empty. *)
Definition scan_fts (d : db) (r : row) : embedding :=
  {| e_id := r_id r; e_collid := 0; e_coll := coll_name d (r_coll r);
     e_vec := match decode_vector (r_blob r) with Ok v => Some v | _ => None end; e_content := r_content r;
     e_doc := match r_doc r with Some x => x | None => "" end; e_meta := r_meta r; e_acl := [] |}.

(** The limit on keyword hits, advanced_search.go:90-93; overflow of TopK*3 is not
    modelled. *)
Definition fts_limit (o : sopts) : nat := if Z.ltb 0 (o_topk o) then Z.to_nat (o_topk o * 3) else 30.

(** Map from hits to ranks, advanced_search.go:95-106; the ids are distinct. *)
Fixpoint rank_of (hits : list (option string)) (id : string) (n : nat) : option nat :=
  match hits with
  | [] => None
  | Some x :: l => if String.eqb x id then Some n else rank_of l id (S n)
  | None :: l => rank_of l id (S n)
  end.

(** Vector ranks, advanced_search.go:115-120. *)
Fixpoint vector_part (k : float) (n : nat) (l : list scored) : list scored :=
  match l with [] => [] | (e, _) :: l' => (e, recip k n) :: vector_part k (S n) l' end.
(** Adding a keyword hit to the maps, advanced_search.go:166-187. *)
Fixpoint add_hit (e : embedding) (x : float) (l : list scored) : list scored :=
  match l with
  | [] => [(e, f64_add f_zero x)]
  | (e', y) :: l' => if String.eqb (e_id e') (e_id e) then (e', f64_add y x) :: l' else (e', y) :: add_hit e x l'
  end.
Definition fuse (k : float) (d : db) (hits : list (option string)) (vres : list scored) : list scored :=
  fold_left (fun acc r => match rank_of hits (r_id r) 1 with
                          | Some n => add_hit (scan_fts d r) (recip k n) acc
                          | None => acc
                          end) (t_rows d) (vector_part k 1 vres).

(** HybridSearch, advanced_search.go:59-209. [shuffle] is the iteration order of the
    map of scores. *)
Definition hybrid_search (shuffle : list scored -> list scored) (noise : nat -> float) (m : mode) (sc : scorer) (ft : fts)
  (s : store I) (q : list N) (text : string) (o : sopts) (rrfk : float) : outcome (list scored) :=
  if st_closed I s then Err EClosed
  else bind (match q with [] => Ok [] | _ => search I srt noise m sc s (Some q) o end) (fun vres =>
       let hits := if String.eqb text "" then [] else match ft text with Some l => firstn (fts_limit o) l | None => [] end in
       let k := if feq rrfk f_zero then f64_of_Z 60 else rrfk in
       Ok (limit o (srt (shuffle (fuse k (st_db I s) hits vres))))).
End Adv.

(** *** RangeSearch *)
Definition by_distance (a b : scored) : bool := flt (snd a) (snd b).
(** Distance from a score, faceted_search.go:371-378. *)
Definition range_distance (x : float) : float :=
  if fle x f_zero then f32_of_f64 (SFopp x) else f32_of_f64 (f64_sub f_one x).
(** RangeSearch, faceted_search.go:337-399. [radius] is a float32. *)
Definition range_search (I : index_ops) (srt : list scored -> list scored) (sc : scorer) (s : store I) (q : list N) (radius : float) (o : sopts)
  : outcome (list scored) :=
  if st_closed I s then Err EClosed
  else if fle radius f_zero then Err EOther
  else
    let near := flat_map (fun e =>
      match vec_of e with
      | [] => []
      | v => let d := range_distance (sc_sim sc q v) in
             if fle d radius then [(e, f64_of_f32 d)] else []
      end) (fetch_candidates (st_db I s) o) in
    Ok (limit o (srt near)).
(** BatchRangeSearch, faceted_search.go:402-414. *)
Fixpoint batch_range (I : index_ops) (srt : list scored -> list scored) (sc : scorer) (s : store I) (qs : list (list N)) (radius : float) (o : sopts)
  : outcome (list (list scored)) :=
  match qs with
  | [] => Ok []
  | q :: qs' => bind (range_search I srt sc s q radius o) (fun x => bind (batch_range I srt sc s qs' radius o) (fun xs => Ok (x :: xs)))
  end.
