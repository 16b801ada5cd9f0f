(** Model of SearchWithFacets, /repo/pkg/core/faceted_search.go. *)
From Coq Require Import String Ascii List NArith ZArith Bool.
From Verif Require Import Base Floats64 StoreModel SearchModel SqlModel FilterModel.
Import ListNotations.
Open Scope string_scope.
Open Scope list_scope.

Inductive lop := LAnd | LOr | LNot.
(** FacetFilter, faceted_search.go:26-58, by type; [FOther] is an unknown type. *)
Inductive facet :=
| FEquals (vs : list gval) | FIn (vs : list gval) | FRange (mn mx : gval) | FContains (p : string) | FPrefix (p : string)
| FExists | FNested (op : lop) (l : list facet) | FOther.

(** buildFilterCondition and buildNestedCondition, faceted_search.go:135-220. *)
Definition bound (op : cmp) (k : string) (v : gval) : sqltext :=
  match v with GNil => [] | _ => [[ALeaf (LCmp op k v)]] end.
Fixpoint build_facet (k : string) (f : facet) {struct f} : sqltext :=
  let parts := fix parts (l : list facet) : list atom :=
    match l with
    | [] => []
    | x :: l' => match build_facet k x with [] => parts l' | t => AParen t :: parts l' end
    end in
  match f with
  | FEquals [] => []
  | FEquals (v :: _) => [[ALeaf (LCmp CEQ k v)]]
  | FIn [] => []
  | FIn vs => [[ALeaf (LIn k vs)]]
  | FRange mn mx => join_and (bound CGE k mn) (bound CLE k mx)
  | FContains p => if String.eqb p "" then [] else [[ALeaf (LLike k ("%" ++ p ++ "%"))]]
  | FPrefix p => if String.eqb p "" then [] else [[ALeaf (LLike k (p ++ "%"))]]
  | FExists => [[ALeaf (LExists k)]]
  | FNested op l =>
      match parts l with
      | [] => []
      | ts => match op with LOr => map (fun a => [a]) ts | LNot => [[ANot [ts]]] | LAnd => [ts] end
      end
  | FOther => []
  end.
(** buildFacetedWhereClause, faceted_search.go:110-132; the list is the map in its
    iteration order. *)
Definition facet_where (fs : list (string * facet)) : sqltext :=
  fold_left (fun t kf => join_and t (build_facet (fst kf) (snd kf))) fs [].

(** The statement's WHERE clause, faceted_search.go:230-250. *)
Definition facet_clause (fs : list (string * facet)) (o : sopts) : sqltext :=
  fold_left (fun t kv => join_and t [[ALeaf (LCmp CEQ (fst kv) (GStr (snd kv)))]]) (o_filter o)
    (with_collection o (facet_where fs)).
(** fetchCandidatesWithFacets, faceted_search.go:223-281. [scan] is the order in
    which SQLite visits the rows; overflow of TopK*10 is not modelled. *)
Definition facet_limit {A} (o : sopts) (l : list A) : list A :=
  if Z.ltb 0 (o_topk o) then firstn (Z.to_nat (o_topk o * 10)) l else l.
Definition fetch_facets (scan : list row -> list row) (N : numerals) (d : db) (fs : list (string * facet)) (o : sopts) : outcome (list embedding) :=
  let w := facet_clause fs o in
  if reads_metadata w then Err EOther
  else Ok (oks (map (scan_search d) (facet_limit o (scan
         (match w with [] => t_rows d | _ => filter (selects (clause_of N d w)) (t_rows d) end))))).

(** *** counts *)
(** One facet of computeFacetCounts, faceted_search.go:284-331: the rows are grouped
    by value; [gsrt] is the ordering of the groups by count. A row on which
    json_extract fails ends the statement with an error and no group. *)
Definition by_count (a b : string * nat) : bool := Nat.ltb (snd b) (snd a).
Definition max_values (n : Z) : nat := if Z.leb n 0 then 10 else Z.to_nat n.
Definition values (rows : list row) (k : string) : option (list string) :=
  fold_right (fun r acc => match extract k (r_meta r), acc with
                           | Some (Some a), Some l => Some (a :: l)
                           | Some None, Some l => Some l
                           | _, _ => None
                           end) (Some []) rows.
Definition groups (vs : list string) : list (string * nat) :=
  map (fun v => (v, count_occ string_dec vs v)) (nodup string_dec vs).
Record facet_result := { fr_field : string; fr_values : list (string * nat); fr_total : nat }.
Definition facet_counts (gsrt : list (string * nat) -> list (string * nat)) (d : db) (maxv : Z) (k : string) : option facet_result :=
  match values (t_rows d) k with
  | None => None
  | Some vs =>
      match firstn (max_values maxv) (gsrt (groups vs)) with
      | [] => None
      | l => Some {| fr_field := k; fr_values := l; fr_total := list_sum (map snd l) |}
      end
  end.
Definition compute_facets (gsrt : list (string * nat) -> list (string * nat)) (d : db) (maxv : Z) (fs : list (string * facet)) : list facet_result :=
  flat_map (fun kf => match facet_counts gsrt d maxv (fst kf) with Some r => [r] | None => [] end) fs.

(** SearchWithFacets, faceted_search.go:77-107. *)
Definition search_facets (I : index_ops) (srt : list scored -> list scored) (gsrt : list (string * nat) -> list (string * nat))
  (scan : list row -> list row) (Nm : numerals) (sc : scorer) (s : store I) (q : list N) (o : sopts)
  (fs : list (string * facet)) (want : bool) (maxv : Z) : outcome (list scored * list facet_result) :=
  if st_closed I s then Err EClosed
  else bind (fetch_facets scan Nm (st_db I s) fs o) (fun cs =>
       Ok (score_candidates srt sc o q cs, if want then compute_facets gsrt (st_db I s) maxv fs else [])).
