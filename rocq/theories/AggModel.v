(** Model of Aggregate, /repo/pkg/core/aggregations.go, over the store of StoreModel.v.
    Group-by, having and order-by names are assumed to be SQL identifiers that differ from
    each other, from "count" and "agg_value" and from the columns of the table (they are
    pasted into the statement as column names). SQLite's SUM and AVG of a list of numbers are parameters. *)
From Coq Require Import String List NArith ZArith Bool.
From Coq Require Import Floats.SpecFloat.
From Verif Require Import Base Floats64 StoreModel SqlModel.
Import ListNotations.
Open Scope string_scope.
Open Scope list_scope.

(** AggregationType, aggregations.go:12-21; [TUnknownType] is any other word, the empty
    one included. *)
Inductive agg_type := TCount | TSum | TAvg | TMin | TMax | TGroupBy | TUnknownType.
(** Columns a HAVING or ORDER BY can name: the count (also as agg_value), or the i-th
    group field. *)
Inductive agg_col := ColCount | ColKey (i : nat).
(** AggregationRequest, aggregations.go:24-33. *)
Record agg_request := { q_type : agg_type; q_field : string; q_group : list string; q_filters : list (string * gval); q_coll : string;
                        q_having : list (agg_col * gval); q_order : agg_col; q_limit : Z }.
Inductive agg_key := KNull | KNumber (x : float) | KText (x : string).
Inductive agg_value := VCount (n : nat) | VReal (x : float) | VNull.
(** AggregationResult, aggregations.go:36-40. *)
Record agg_result := { a_keys : list (string * agg_key); a_value : agg_value; a_count : nat }.
Record sql_aggs := { sql_sum : list float -> option float; sql_avg : list float -> option float }.

(** Parameters of addMetadataFilters, aggregations.go:411-439: other values become their
    JSON text. *)
Definition agg_param (v : gval) : sval := match v with GNil => SText "null" | _ => bind_param v end.
(** collection_id = (SELECT id FROM collections WHERE name = ?). *)
Definition in_named_coll (d : db) (name : string) (r : row) : tv :=
  match find_coll d name with Some c => of_bool (Z.eqb (r_coll r) (c_id c)) | None => TUnknown end.
(** The WHERE clause, in the order in which it is written; a field that has to be present
    comes first. *)
Definition agg_where (need : option string) (d : db) (q : agg_request) (r : row) : tv :=
  tv_and (match need with
          | None => TTrue
          | Some k => match extract k (r_meta r) with None => TError | Some None => TFalse | Some (Some _) => TTrue end
          end)
  (tv_and (if String.eqb (q_coll q) "" then TTrue else in_named_coll d (q_coll q) r)
          (fold_right (fun kv acc => tv_and (on_text (extract (fst kv) (r_meta r)) (fun a => text_eq a (agg_param (snd kv)))) acc) TTrue (q_filters q))).
(** The rows selected; an error on one row fails the statement. *)
Definition agg_rows (need : option string) (d : db) (q : agg_request) : outcome (list row) :=
  if existsb (fun r => match agg_where need d q r with TError => true | _ => false end) (t_rows d) then Err EOther
  else Ok (filter (fun r => match agg_where need d q r with TTrue => true | _ => false end) (t_rows d)).

(** CAST(json_extract(metadata, '$.field') AS REAL) of the rows, NULLs left out. *)
Definition reals (Nm : numerals) (k : string) (rows : list row) : list float :=
  flat_map (fun r => match extract k (r_meta r) with Some (Some a) => [sql_real Nm a] | _ => [] end) rows.
Definition sql_min (l : list float) : option float :=
  match l with [] => None | x :: l' => Some (fold_left (fun m y => if flt y m then y else m) l' x) end.
Definition sql_max (l : list float) : option float :=
  match l with [] => None | x :: l' => Some (fold_left (fun m y => if fgt y m then y else m) l' x) end.
(** An aggregate of the field, NULL read as 0, aggregations.go:108-250. *)
Definition agg_field (f : list float -> option float) (Nm : numerals) (scan : list row -> list row) (d : db) (q : agg_request) : outcome (list agg_result) :=
  bind (agg_rows (Some (q_field q)) d q) (fun rows =>
    Ok [{| a_keys := []; a_value := VReal (match f (reals Nm (q_field q) (scan rows)) with Some x => x | None => f_zero end); a_count := length rows |}]).

(** *** GROUP BY *)
Notation group := (list (option string) * nat)%type (only parsing).
(** The group keys of a row; [None] when json_extract fails. *)
Fixpoint row_keys (ks : list string) (r : row) : option (list (option string)) :=
  match ks with
  | [] => Some []
  | k :: ks' => match extract k (r_meta r), row_keys ks' r with Some a, Some l => Some (a :: l) | _, _ => None end
  end.
Definition keys_dec (a b : list (option string)) : {a = b} + {a <> b}.
Proof. repeat decide equality. Defined.
Definition group_rows (ks : list (list (option string))) : list group :=
  map (fun k => (k, count_occ keys_dec ks k)) (nodup keys_dec ks).
(** HAVING column = ?; an integer equals a parameter that is that number. *)
Definition having_one (g : group) (h : agg_col * gval) : tv :=
  match fst h with
  | ColCount => match snd h with
                | GInt z => of_bool (Z.eqb (Z.of_nat (snd g)) z)
                | GBool b => of_bool (Z.eqb (Z.of_nat (snd g)) (if b then 1 else 0))
                | GFloat y => of_bool (feq (f64_of_Z (Z.of_nat (snd g))) y)
                | GStr _ => TFalse
                | GNil => TUnknown
                end
  | ColKey i => match nth_error (fst g) i with Some (Some a) => text_eq a (bind_param (snd h)) | _ => TUnknown end
  end.
Definition having (hs : list (agg_col * gval)) (g : group) : bool :=
  forallb (fun h => match having_one g h with TTrue => true | _ => false end) hs.
(** ORDER BY column DESC; NULL is less than every text. *)
Definition key_at (i : nat) (g : group) : option string := match nth_error (fst g) i with Some x => x | None => None end.
Definition group_before (c : agg_col) (a b : group) : bool :=
  match c with
  | ColCount => Nat.ltb (snd b) (snd a)
  | ColKey i => match key_at i a, key_at i b with Some x, Some y => String.ltb y x | Some _, None => true | None, _ => false end
  end.
(** The key as reported, aggregations.go:353-366. *)
Definition report_key (Nm : numerals) (x : option string) : agg_key :=
  match x with None => KNull | Some a => match go_num Nm a with Some f => KNumber f | None => KText a end end.
(** The value of a group is always its count: the type is GROUP BY whenever this code
    runs, so the cases that use the field (aggregations.go:269-283) are never taken. *)
Definition report_group (Nm : numerals) (q : agg_request) (g : group) : agg_result :=
  {| a_keys := combine (q_group q) (map (report_key Nm) (fst g)); a_value := VReal (f64_of_Z (Z.of_nat (snd g))); a_count := snd g |}.
Fixpoint all_keys (ks : list string) (rows : list row) : option (list (list (option string))) :=
  match rows with
  | [] => Some []
  | r :: rows' => match row_keys ks r, all_keys ks rows' with Some a, Some l => Some (a :: l) | _, _ => None end
  end.
(** aggregateGroupBy, aggregations.go:253-386. [gsrt] sorts the groups. *)
Definition agg_group (Nm : numerals) (gsrt : (group -> group -> bool) -> list group -> list group) (d : db) (q : agg_request) : outcome (list agg_result) :=
  bind (agg_rows None d q) (fun rows =>
    match all_keys (q_group q) rows with
    | None => Err EOther
    | Some ks =>
        let gs := gsrt (group_before (q_order q)) (filter (having (q_having q)) (group_rows ks)) in
        Ok (map (report_group Nm q) (if Z.ltb 0 (q_limit q) then firstn (Z.to_nat (q_limit q)) gs else gs))
    end).

(** Aggregate, aggregations.go:50-77, with aggregateCount (80-106) and validateAggregationRequest (389-408). [scan] is
    the order in which SQLite visits the selected rows. *)
Definition aggregate_store (I : index_ops) (Nm : numerals) (A : sql_aggs) (scan : list row -> list row) (gsrt : (group -> group -> bool) -> list group -> list group) (s : store I) (q : agg_request)
  : outcome (list agg_result) :=
  if st_closed I s then Err EClosed
  else
    let needs f := if String.eqb (q_field q) "" then Err EOther else agg_field f Nm scan (st_db I s) q in
    match q_type q with
    | TCount => bind (agg_rows None (st_db I s) q) (fun rows => Ok [{| a_keys := []; a_value := VCount (length rows); a_count := length rows |}])
    | TSum => needs (sql_sum A)
    | TAvg => needs (sql_avg A)
    | TMin => needs sql_min
    | TMax => needs sql_max
    | TGroupBy => match q_group q with [] => Err EOther | _ => agg_group Nm gsrt (st_db I s) q end
    | TUnknownType => Err EOther
    end.
