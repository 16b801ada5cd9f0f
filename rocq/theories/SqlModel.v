(** The SQL WHERE clauses that /repo/pkg/core builds over table embeddings
    (advanced_filter.go, faceted_search.go, advanced_search.go) and what SQLite makes
    of them on a row.

    A clause is kept as the text is read: a disjunction of conjunctions of atoms, AND
    binding tighter than OR, an atom being a condition, a parenthesised clause or a
    negated one. The empty clause is the empty text.  Truth values are SQL's: true,
    false, unknown, and a run-time error.  A nil metadata map is stored as the empty
    text (encoding.go:85-88), on which json_extract raises "malformed JSON". *)
From Coq Require Import String Ascii List NArith ZArith Bool.
From Coq Require Import Floats.SpecFloat DecimalString.
From Verif Require Import Base Floats64 StoreModel.
Import ListNotations.
Open Scope string_scope.
Open Scope list_scope.

(** Go values that reach a statement as parameters. *)
Inductive gval := GStr (x : string) | GInt (z : Z) | GFloat (f : float) | GBool (b : bool) | GNil.

(** How numbers are read from text: strconv.ParseFloat, SQLite's reading of a whole
    text as a number, and CAST(text AS REAL) (longest numeric prefix, else 0). *)
Record numerals := { go_num : string -> option float; sql_num : string -> option float; sql_real : string -> float }.

(** Comparison operators, advanced_filter.go:19-24. *)
Inductive cmp := CEQ | CNE | CGT | CGE | CLT | CLE.

(** One condition of a clause. *)
Inductive leaf :=
| LCmp (op : cmp) (field : string) (v : gval)         (* advanced_filter.go:256-283 *)
| LBetween (field : string) (a b : gval)              (* 285-289 *)
| LIn (field : string) (vs : list gval)               (* 291-300 *)
| LLike (field : string) (pattern : string)           (* 302-305 *)
| LExists (field : string)                            (* faceted_search.go:178-179 *)
| LPublic                                             (* advanced_search.go:35 *)
| LPrincipals (ids : list string)                     (* advanced_search.go:45 *)
| LCollection (name : string).                        (* advanced_filter.go:595 *)
Inductive atom := ALeaf (l : leaf) | AParen (t : list (list atom)) | ANot (t : list (list atom)).
Notation sqltext := (list (list atom)).

(** strings.Join of two clauses with " AND ": the last alternative of the left text
    and the first of the right one become one conjunction. *)
Fixpoint join_and (a b : sqltext) : sqltext :=
  match a, b with
  | [], _ => b
  | _, [] => a
  | [x], y :: b' => (x ++ y) :: b'
  | x :: a', _ => x :: join_and a' b
  end.
Definition join_or (a b : sqltext) : sqltext := a ++ b.
Definition is_empty (t : sqltext) : bool := match t with [] => true | _ => false end.

(** *** truth values *)
Inductive tv := TTrue | TFalse | TUnknown | TError.
Definition tv_and (a b : tv) : tv :=
  match a with TFalse => TFalse | TError => TError | TTrue => b | TUnknown => match b with TFalse => TFalse | TError => TError | _ => TUnknown end end.
Definition tv_or (a b : tv) : tv :=
  match a with TTrue => TTrue | TError => TError | TFalse => b | TUnknown => match b with TTrue => TTrue | TError => TError | _ => TUnknown end end.
Definition tv_not (a : tv) : tv := match a with TTrue => TFalse | TFalse => TTrue | x => x end.
Definition of_bool (b : bool) : tv := if b then TTrue else TFalse.

(** *** values of the two sides *)
(** The path '$.field' in a flat object: a member, nothing (the path goes below a
    text), or not a path that can be written like this (quotes, brackets, empty:
    treated as an error). *)
Inductive jpath := JKey (k : string) | JBelow | JBad.
Fixpoint has_char (p : ascii -> bool) (s : string) : bool :=
  match s with "" => false | String a s' => p a || has_char p s' end.
Definition is_quote (a : ascii) : bool :=
  orb (Ascii.eqb a "'") (orb (Ascii.eqb a """") (Ascii.eqb a "[")).
Definition json_path (field : string) : jpath :=
  if String.eqb field "" || has_char is_quote field then JBad
  else if has_char (Ascii.eqb ".") field then JBelow else JKey field.

(** json_extract(metadata, '$.field'): [None] is an error, [Some None] is NULL. *)
Definition extract (field : string) (meta : option smap) : option (option string) :=
  match json_path field with
  | JBad => None
  | JBelow => match meta with None => None | Some _ => Some None end
  | JKey k => match meta with None => None | Some m => Some (assoc k m) end
  end.

(** Parameters as SQLite sees them: booleans are the integers 0 and 1, NaN is NULL;
    integers are compared as float64 (exact below 2^53). *)
Inductive sval := SNull | SText (x : string) | SNum (f : float).
Definition bind_param (v : gval) : sval :=
  match v with
  | GStr x => SText x
  | GInt z => SNum (f64_of_Z z)
  | GFloat f => if is_nanb f then SNull else SNum f
  | GBool b => SNum (f64_of_Z (if b then 1 else 0))
  | GNil => SNull
  end.

(** text = parameter: no conversion takes place, a number never equals a text. *)
Definition text_eq (a : string) (v : sval) : tv :=
  match v with SNull => TUnknown | SText x => of_bool (String.eqb a x) | SNum _ => TFalse end.
Fixpoint text_in (a : string) (vs : list sval) : tv :=
  match vs with [] => TFalse | v :: vs' => tv_or (text_eq a v) (text_in a vs') end.

Definition num_cmp (op : cmp) (x y : float) : bool :=
  match op with
  | CEQ => feq x y | CNE => negb (feq x y) | CGT => fgt x y | CGE => fge x y | CLT => flt x y | CLE => fle x y
  end.
(** CAST(.. AS REAL) op parameter: a parameter that is a numeric text is converted,
    any other text is greater than every number. *)
Definition real_cmp (N : numerals) (op : cmp) (x : float) (v : sval) : tv :=
  match v with
  | SNull => TUnknown
  | SNum y => of_bool (num_cmp op x y)
  | SText s => match sql_num N s with
               | Some y => of_bool (num_cmp op x y)
               | None => of_bool (match op with CLT | CLE | CNE => true | _ => false end)
               end
  end.

(** LIKE: % any text, _ any character; [same] compares two characters. *)
Definition ascii_lower (a : ascii) : ascii :=
  let n := N_of_ascii a in if N.leb 65 n && N.leb n 90 then ascii_of_N (n + 32) else a.
Fixpoint like (same : ascii -> ascii -> bool) (wild : ascii -> bool) (p : string) : string -> bool :=
  match p with
  | "" => fun t => String.eqb t ""
  | String c p' =>
      if Ascii.eqb c "%" then
        fix star (t : string) : bool :=
          like same wild p' t || match t with "" => false | String d t' => wild d && star t' end
      else if Ascii.eqb c "_" then
        fun t => match t with "" => false | String d t' => wild d && like same wild p' t' end
      else fun t => match t with "" => false | String d t' => same c d && like same wild p' t' end
  end.
(** SQLite's LIKE ignores the case of ASCII letters. *)
Definition sql_like (p t : string) : bool :=
  like (fun c d => Ascii.eqb (ascii_lower c) (ascii_lower d)) (fun _ => true) p t.

Section Eval.
Variable N : numerals.

Definition on_text (x : option (option string)) (f : string -> tv) : tv :=
  match x with None => TError | Some None => TUnknown | Some (Some a) => f a end.

(** Value of a condition on a row whose collection is called [coll]; "x IN ()" is
    false without looking at x. *)
Definition eval_leaf (coll : string) (r : row) (l : leaf) : tv :=
  match l with
  | LCmp CEQ k v => on_text (extract k (r_meta r)) (fun a => text_eq a (bind_param v))
  | LCmp CNE k v => on_text (extract k (r_meta r)) (fun a => tv_not (text_eq a (bind_param v)))
  | LCmp op k v => on_text (extract k (r_meta r)) (fun a => real_cmp N op (sql_real N a) (bind_param v))
  | LBetween k a b => on_text (extract k (r_meta r)) (fun x =>
      tv_and (real_cmp N CGE (sql_real N x) (bind_param a)) (real_cmp N CLE (sql_real N x) (bind_param b)))
  | LIn k [] => TFalse
  | LIn k vs => on_text (extract k (r_meta r)) (fun a => text_in a (map bind_param vs))
  | LLike k p => on_text (extract k (r_meta r)) (fun a => of_bool (sql_like p a))
  | LExists k => match extract k (r_meta r) with None => TError | Some None => TFalse | Some (Some _) => TTrue end
  | LPublic => of_bool (match r_acl r with None => true | Some _ => false end)
  | LPrincipals ids => match r_acl r with
                       | None => TFalse
                       | Some a => of_bool (existsb (fun x => mem x ids) a)
                       end
  | LCollection name => of_bool (String.eqb coll name)
  end.

Fixpoint eval_atom (coll : string) (r : row) (a : atom) {struct a} : tv :=
  let conj := fix conj (l : list atom) : tv :=
    match l with [] => TTrue | [x] => eval_atom coll r x | x :: l' => tv_and (eval_atom coll r x) (conj l') end in
  let disj := fix disj (t : list (list atom)) : tv :=
    match t with [] => TFalse | [l] => conj l | l :: t' => tv_or (conj l) (disj t') end in
  match a with
  | ALeaf l => eval_leaf coll r l
  | AParen t => disj t
  | ANot t => tv_not (disj t)
  end.
Fixpoint eval_conj (coll : string) (r : row) (l : list atom) : tv :=
  match l with [] => TTrue | [x] => eval_atom coll r x | x :: l' => tv_and (eval_atom coll r x) (eval_conj coll r l') end.
Fixpoint eval_text (coll : string) (r : row) (t : sqltext) : tv :=
  match t with [] => TFalse | [l] => eval_conj coll r l | l :: t' => tv_or (eval_conj coll r l) (eval_text coll r t') end.

(** The rows of a table a non-empty clause selects. *)
Definition clause_of (d : db) (t : sqltext) : clause := fun r =>
  match eval_text (coll_name d (r_coll r)) r t with TTrue => Some true | TError => None | _ => Some false end.
End Eval.

(** Does a condition read the column metadata? In a query over embeddings joined
    with collections the bare name is ambiguous (both tables have that column,
    store_init.go:79, 104) and the statement is refused. *)
Definition leaf_reads_metadata (l : leaf) : bool :=
  match l with LPublic | LPrincipals _ | LCollection _ => false | _ => true end.
Fixpoint reads_metadata_atom (a : atom) : bool :=
  let fix any (l : list atom) : bool := match l with [] => false | x :: l' => reads_metadata_atom x || any l' end in
  let fix anys (t : list (list atom)) : bool := match t with [] => false | l :: t' => any l || anys t' end in
  match a with ALeaf l => leaf_reads_metadata l | AParen t | ANot t => anys t end.
Definition reads_metadata (t : sqltext) : bool := existsb (existsb reads_metadata_atom) t.
