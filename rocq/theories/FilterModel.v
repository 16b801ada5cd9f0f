(** Model of /repo/pkg/core/advanced_filter.go: BuildSQLFromFilter, evaluateFilter,
    SearchWithAdvancedFilter, and of DeleteByFilter (store_crud.go:465-532). *)
From Coq Require Import String Ascii List NArith ZArith Bool.
From Coq Require Import Floats.SpecFloat.
From Verif Require Import Base Floats64 EncodingModel DimensionModel StoreModel SearchModel SqlModel.
Import ListNotations.
Open Scope string_scope.
Open Scope list_scope.

(** FilterExpression, advanced_filter.go:31-36. [XNil] is a nil pointer; the value
    list of BETWEEN and IN is [None] when Value is not a []interface{}; [XOther] is an
    operator without SQL (REGEX or an unknown word). A LIKE pattern is a string. *)
Inductive fexpr :=
| XNil
| XAnd (l : list fexpr)
| XOr (l : list fexpr)
| XNot (l : list fexpr)
| XCmp (op : cmp) (field : string) (v : gval)
| XBetween (field : string) (vs : option (list gval))
| XIn (field : string) (vs : option (list gval))
| XLike (field : string) (pattern : string)
| XOther.

(** BuildSQLFromFilter, advanced_filter.go:222-307; the empty clause is "". *)
Fixpoint build_sql (f : fexpr) : outcome sqltext :=
  let fix children (l : list fexpr) : outcome (list atom) :=
    match l with
    | [] => Ok []
    | x :: l' => bind (build_sql x) (fun t => bind (children l') (fun ts =>
                   Ok (match t with [] => ts | _ => AParen t :: ts end)))
    end in
  match f with
  | XAnd l => bind (children l) (fun ts => Ok (match ts with [] => [] | _ => [ts] end))
  | XOr l => bind (children l) (fun ts => Ok (map (fun a => [a]) ts))
  | XCmp op k v => Ok [[ALeaf (LCmp op k v)]]
  | XBetween k (Some (a :: b :: _)) => Ok [[ALeaf (LBetween k a b)]]
  | XBetween k _ => Panic
  | XIn k (Some vs) => Ok [[ALeaf (LIn k vs)]]
  | XIn k None => Panic
  | XLike k p => Ok [[ALeaf (LLike k p)]]
  | XNot _ | XNil | XOther => Ok []
  end.

(** *** evaluateFilter *)
(** What fmt's %v and regexp do with other values and patterns. *)
Record formats := { fmt_v : float -> string; regex : string -> string -> bool }.

(** fmt.Sprintf("%v", v), advanced_filter.go:733-734. *)
Definition show (fm : formats) (v : gval) : string :=
  match v with
  | GStr x => x | GInt z => fmt_d z | GFloat f => fmt_v fm f | GBool b => fmt_t b | GNil => "<nil>"
  end.
(** toFloat64, advanced_filter.go:756-772. *)
Definition to_float (N : numerals) (v : gval) : option float :=
  match v with
  | GFloat f => Some f | GInt z => Some (f64_of_Z z) | GStr x => go_num N x | GBool _ | GNil => None
  end.
Definition str_cmp (op : cmp) (a b : string) : bool :=
  match op with
  | CEQ => String.eqb a b | CNE => negb (String.eqb a b)
  | CGT => String.ltb b a | CGE => String.leb b a | CLT => String.ltb a b | CLE => String.leb a b
  end.
(** compareValues, advanced_filter.go:711-753, for a stored value, which is a text. *)
Definition compare_values (N : numerals) (fm : formats) (op : cmp) (a : string) (v : gval) : bool :=
  match go_num N a, to_float N v with
  | Some x, Some y => num_cmp op x y
  | _, _ => str_cmp op a (show fm v)
  end.
(** LIKE through a regular expression, advanced_filter.go:690-702: a pattern without
    regular-expression characters means itself, case matters and . does not match a
    newline; for any other pattern Go's regexp decides. *)
Definition is_meta_char (a : ascii) : bool :=
  existsb (Ascii.eqb a) ["\"; "."; "+"; "*"; "?"; "("; ")"; "|"; "["; "]"; "{"; "}"; "^"; "$"]%char.
Definition not_newline (a : ascii) : bool := negb (Ascii.eqb a (ascii_of_N 10)).
Definition mem_like (fm : formats) (p t : string) : bool :=
  if has_char is_meta_char p then regex fm p t else like Ascii.eqb not_newline p t.

(** evaluateFilter, advanced_filter.go:622-708. *)
Fixpoint mem_eval (N : numerals) (fm : formats) (f : fexpr) (m : smap) {struct f} : outcome bool :=
  let all := fix all (l : list fexpr) : outcome bool :=
    match l with [] => Ok true | x :: l' => bind (mem_eval N fm x m) (fun b => if b then all l' else Ok false) end in
  let any := fix any (l : list fexpr) : outcome bool :=
    match l with [] => Ok false | x :: l' => bind (mem_eval N fm x m) (fun b => if b then Ok true else any l') end in
  match f with
  | XNil => Ok true
  | XAnd l => all l
  | XOr l => any l
  | XNot (x :: _) => bind (mem_eval N fm x m) (fun b => Ok (negb b))
  | XNot [] => Ok false
  | XCmp CNE k v => match assoc k m with None => Ok true | Some a => Ok (compare_values N fm CNE a v) end
  | XCmp op k v => match assoc k m with None => Ok false | Some a => Ok (compare_values N fm op a v) end
  | XBetween k vs => match assoc k m with
                     | None => Ok false
                     | Some a => match vs with
                                 | Some (x :: y :: _) => Ok (compare_values N fm CGE a x && compare_values N fm CLE a y)
                                 | Some [x] => if compare_values N fm CGE a x then Panic else Ok false
                                 | _ => Panic
                                 end
                     end
  | XIn k vs => match assoc k m with
                | None => Ok false
                | Some a => match vs with
                            | Some l => Ok (existsb (compare_values N fm CEQ a) l)
                            | None => Panic
                            end
                end
  | XLike k p => match assoc k m with None => Ok false | Some a => Ok (mem_like fm p a) end
  | XOther => Ok false
  end.

(** The loop of SearchWithAdvancedFilter over its candidates, advanced_filter.go:548-566. *)
Definition meta_map (e : embedding) : smap := match e_meta e with Some m => m | None => [] end.
Fixpoint post_filter (N : numerals) (fm : formats) (post : option fexpr) (cs : list embedding) : outcome (list embedding) :=
  match cs with
  | [] => Ok []
  | e :: cs' =>
      bind (match post with None => Ok true | Some f => mem_eval N fm f (meta_map e) end) (fun b =>
      bind (post_filter N fm post cs') (fun out => Ok (if b then e :: out else out)))
  end.

(** fetchCandidatesWithSQL, advanced_filter.go:581-619. *)
Definition with_collection (o : sopts) (t : sqltext) : sqltext :=
  if String.eqb (o_coll o) "" then t else join_and t [[ALeaf (LCollection (o_coll o))]].
Definition fetch_sql (N : numerals) (d : db) (t : sqltext) (o : sopts) : outcome (list embedding) :=
  let w := with_collection o t in
  if reads_metadata w then Err EOther
  else Ok (oks (map (scan_search d)
        (match w with [] => t_rows d | _ => filter (selects (clause_of N d w)) (t_rows d) end))).

(** Limit of the results: all of them when TopK is not positive. *)
Definition limit (o : sopts) {A} (l : list A) : list A :=
  if Z.ltb 0 (o_topk o) then firstn (Z.to_nat (o_topk o)) l else l.

Section Adv.
Variable I : index_ops.
Variable srt : list scored -> list scored.

(** Scoring by the similarity function alone, advanced_search.go:212-229. *)
Definition score_and_sort (sc : scorer) (o : sopts) (q : list N) (cs : list embedding) : list scored :=
  limit o (srt (map (fun e => (e, sc_sim sc q (vec_of e))) cs)).

(** SearchWithAdvancedFilter, advanced_filter.go:523-578. The query is used as it
    is: neither validated nor adapted. *)
Definition advanced_search (Nm : numerals) (fm : formats) (sc : scorer) (s : store I) (q : list N) (o : sopts)
  (pre post : option fexpr) : outcome (list scored) :=
  if st_closed I s then Err EClosed
  else bind (match pre with None => Ok [] | Some f => build_sql f end) (fun t =>
       bind (fetch_sql Nm (st_db I s) t o) (fun cs =>
       bind (post_filter Nm fm post cs) (fun es => Ok (score_and_sort sc o q es)))).

(** DeleteByFilter, store_crud.go:465-532; a nil filter or one without expression is
    refused first. *)
Definition delete_by_filter (Nm : numerals) (ev : env) (s : store I) (f : option fexpr) : store I * outcome unit :=
  match f with
  | None => (s, Err EOther)
  | Some f =>
      if st_closed I s then (s, Err EClosed)
      else match build_sql f with
           | Panic => (s, Panic)
           | Err x => (s, Err x)
           | Ok [] => (s, Err EOther)
           | Ok t => step I ev s (ODeleteWhere (clause_of Nm (st_db I s) t))
           end
  end.
End Adv.

(** The builder methods, advanced_filter.go:310-501: a builder holds an expression
    or nothing. *)
Definition combine (f : option fexpr) (x : fexpr) : option fexpr :=
  match f with None => Some x | Some e => Some (XAnd [e; x]) end.
Definition f_equal (f : option fexpr) k v := combine f (XCmp CEQ k v).
Definition f_not_equal (f : option fexpr) k v := combine f (XCmp CNE k v).
Definition f_greater (f : option fexpr) k v := combine f (XCmp CGT k v).
Definition f_less (f : option fexpr) k v := combine f (XCmp CLT k v).
Definition f_greater_eq (f : option fexpr) k v := combine f (XCmp CGE k v).
Definition f_less_eq (f : option fexpr) k v := combine f (XCmp CLE k v).
Definition f_in (f : option fexpr) k vs := combine f (XIn k (Some vs)).
Definition f_not_in (f : option fexpr) k vs := combine f (XNot [XIn k (Some vs)]).
Definition f_between (f : option fexpr) k a b := combine f (XBetween k (Some [a; b])).
Definition f_like (f : option fexpr) k p := combine f (XLike k p).
Definition f_and (f g : option fexpr) : option fexpr :=
  match f, g with _, None => f | None, _ => g | Some a, Some b => Some (XAnd [a; b]) end.
Definition f_or (f g : option fexpr) : option fexpr :=
  match f, g with _, None => f | None, _ => g | Some a, Some b => Some (XOr [a; b]) end.
