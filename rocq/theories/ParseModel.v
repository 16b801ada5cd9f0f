(** Model of /repo/pkg/core/advanced_filter.go:48-219: ParseFilterString.  strings.Index
    followed by slicing is [cut].  strings.TrimSpace is modelled for ASCII white space;
    strconv.ParseFloat is a parameter. *)
From Coq Require Import String Ascii List ZArith Bool Arith.
From Coq Require Import Floats.SpecFloat.
From Verif Require Import Base Floats64 StoreModel SqlModel FilterModel.
Import ListNotations.
Open Scope string_scope.
Open Scope list_scope.

(** unicode.IsSpace on ASCII: tab, newline, vertical tab, form feed, return, space. *)
Definition is_space (a : ascii) : bool := existsb (Nat.eqb (nat_of_ascii a)) [9; 10; 11; 12; 13; 32].
Fixpoint drop_left (s : string) : string :=
  match s with String a s' => if is_space a then drop_left s' else s | EmptyString => "" end.
Fixpoint drop_right (s : string) : string :=
  match s with
  | EmptyString => ""
  | String a s' => match drop_right s' with EmptyString => if is_space a then "" else String a "" | t => String a t end
  end.
(** strings.TrimSpace. *)
Definition trim_space (s : string) : string := drop_right (drop_left s).
(** s[len(p):] when [p] is a prefix. *)
Fixpoint after (p s : string) : option string :=
  match p, s with
  | EmptyString, _ => Some s
  | String a p', String b s' => if Ascii.eqb a b then after p' s' else None
  | String _ _, EmptyString => None
  end.
(** i := strings.Index(s, sub): s[:i] and s[i+len(sub):]; [None] is -1. *)
Fixpoint cut (sub s : string) : option (string * string) :=
  match after sub s with
  | Some r => Some ("", r)
  | None => match s with
            | EmptyString => None
            | String a s' => match cut sub s' with Some (l, r) => Some (String a l, r) | None => None end
            end
  end.
(** strings.Split for a separator that is not empty. *)
Fixpoint split_on (fuel : nat) (sep s : string) : list string :=
  match fuel with
  | O => [s]
  | S n => match cut sep s with Some (l, r) => l :: split_on n sep r | None => [s] end
  end.
(** strings.HasPrefix and HasSuffix for one character, and s[1:len(s)-1], which panics for a
    single character. *)
Definition starts (a : ascii) (s : string) : bool := match s with String b _ => Ascii.eqb a b | EmptyString => false end.
Fixpoint ends (a : ascii) (s : string) : bool :=
  match s with EmptyString => false | String b EmptyString => Ascii.eqb a b | String _ s' => ends a s' end.
Fixpoint but_last (s : string) : string :=
  match s with EmptyString => "" | String _ EmptyString => "" | String b s' => String b (but_last s') end.
Definition inside (s : string) : outcome string :=
  match s with String _ EmptyString => Panic | String _ s' => Ok (but_last s') | EmptyString => Panic end.
Definition quote : ascii := "'"%char.
Definition dquote : ascii := ascii_of_nat 34.

Section Parse.
Variable num : string -> option float.
(** parseValue, advanced_filter.go:193-219. *)
Definition parse_value (s : string) : outcome gval :=
  let s := trim_space s in
  if starts quote s && ends quote s then bind (inside s) (fun t => Ok (GStr t)) else
  if starts dquote s && ends dquote s then bind (inside s) (fun t => Ok (GStr t)) else
  if String.eqb s "true" || String.eqb s "TRUE" then Ok (GBool true) else
  if String.eqb s "false" || String.eqb s "FALSE" then Ok (GBool false) else
  match num s with Some x => Ok (GFloat x) | None => Ok (GStr s) end.
Fixpoint parse_values (l : list string) : outcome (list gval) :=
  match l with
  | [] => Ok []
  | s :: l' => bind (parse_value (trim_space s)) (fun v => bind (parse_values l') (fun vs => Ok (v :: vs)))
  end.
(** The operators, advanced_filter.go:156-168, and the loop over them, 170-186. *)
Definition operators : list (string * cmp) :=
  [(">=", CGE); ("<=", CLE); ("!=", CNE); (">", CGT); ("<", CLT); ("=", CEQ); (":=", CEQ); (":", CEQ)].
Fixpoint parse_op (ops : list (string * cmp)) (s : string) : outcome fexpr :=
  match ops with
  | [] => Err EOther
  | (t, o) :: ops' =>
      match cut t s with
      | Some (String a l, r) => bind (parse_value (trim_space r)) (fun v => Ok (XCmp o (trim_space (String a l)) v))
      | _ => parse_op ops' s
      end
  end.
Definition contains (sub s : string) : bool := match cut sub s with Some _ => true | None => false end.
(** parseComparison, advanced_filter.go:95-191. *)
Definition parse_comparison (s : string) : outcome fexpr :=
  if contains " BETWEEN " s then
    match split_on (String.length s) " BETWEEN " s with
    | [k; r] =>
        match split_on (String.length r) " AND " r with
        | [a; b] => bind (parse_value (trim_space a)) (fun x => bind (parse_value (trim_space b)) (fun y => Ok (XBetween (trim_space k) (Some [x; y]))))
        | _ => Err EOther
        end
    | _ => Err EOther
    end
  else if contains " IN " s then
    match split_on (String.length s) " IN " s with
    | [k; r] =>
        let r := trim_space r in
        if negb (starts "("%char r) || negb (ends ")"%char r) then Err EOther else
        bind (inside r) (fun t => bind (parse_values (split_on (String.length t) "," t)) (fun vs => Ok (XIn (trim_space k) (Some vs))))
    | _ => Err EOther
    end
  else parse_op operators s.
(** ParseFilterString, advanced_filter.go:50-93. The calls are on shorter texts. *)
Fixpoint parse (fuel : nat) (s : string) : outcome fexpr :=
  match fuel with
  | O => Err EOther
  | S n =>
      let s := trim_space s in
      if starts "("%char s && ends ")"%char s then bind (inside s) (parse n) else
      match cut " AND " s with
      | Some (String a l, r) => bind (parse n (String a l)) (fun x => bind (parse n r) (fun y => Ok (XAnd [x; y])))
      | _ =>
        match cut " OR " s with
        | Some (String a l, r) => bind (parse n (String a l)) (fun x => bind (parse n r) (fun y => Ok (XOr [x; y])))
        | _ => parse_comparison s
        end
      end
  end.
Definition parse_filter (s : string) : outcome fexpr := parse (S (String.length s)) s.
End Parse.
