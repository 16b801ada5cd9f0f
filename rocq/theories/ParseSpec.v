(** What the theorems on ParseFilterString are stated in terms of. *)
From Coq Require Import String Ascii List ZArith Bool Arith.
From Coq Require Import Floats.SpecFloat.
From Verif Require Import Base Floats64 StoreModel SqlModel FilterModel ParseModel.
Import ListNotations.
Open Scope string_scope.
Open Scope list_scope.

(** A text without white space, parentheses, quotes, commas and operator characters. *)
Fixpoint all_chars (P : ascii -> Prop) (s : string) : Prop := match s with EmptyString => True | String a s' => P a /\ all_chars P s' end.
Definition special : list ascii := ["("; ")"; "<"; ">"; "="; "!"; ":"; ","; "'"; ascii_of_nat 34; " "; ascii_of_nat 9; ascii_of_nat 10; ascii_of_nat 11; ascii_of_nat 12; ascii_of_nat 13]%char.
Definition plain (s : string) : Prop := all_chars (fun a => ~ In a special) s.
(** What a value means: quoted text, a truth value, a number, or else itself. *)
Inductive means (num : string -> option float) : string -> gval -> Prop :=
| m_quoted q t : q = "'"%char \/ q = ascii_of_nat 34 -> plain t -> means num (String q (t ++ String q "")) (GStr t)
| m_true v : v = "true" \/ v = "TRUE" -> means num v (GBool true)
| m_false v : v = "false" \/ v = "FALSE" -> means num v (GBool false)
| m_number v x : plain v -> ~ In v ["true"; "TRUE"; "false"; "FALSE"] -> num v = Some x -> means num v (GFloat x)
| m_text v : plain v -> ~ In v ["true"; "TRUE"; "false"; "FALSE"] -> num v = None -> means num v (GStr v).
(** The signs of the comparisons. *)
Inductive sign : string -> cmp -> Prop :=
| s_ge : sign ">=" CGE | s_le : sign "<=" CLE | s_ne : sign "!=" CNE | s_gt : sign ">" CGT | s_lt : sign "<" CLT | s_eq : sign "=" CEQ | s_colon : sign ":" CEQ.
(** [t] is a comparison written without spaces, [x] the expression. *)
Inductive written (num : string -> option float) : string -> fexpr -> Prop :=
| w_cmp k t o v g : k <> "" -> plain k -> sign t o -> means num v g -> written num (k ++ t ++ v) (XCmp o k g).
(** Alternatives "a OR b OR c"; the expression nests to the right. *)
Inductive any_of (num : string -> option float) : string -> fexpr -> Prop :=
| any_one t x : written num t x -> any_of num t x
| any_more t x r y : written num t x -> any_of num r y -> any_of num (t ++ " OR " ++ r) (XOr [x; y]).
(** The same, in parentheses or not. *)
Definition group (num : string -> option float) (p : bool) (t : string) (x : fexpr) : Prop :=
  exists u, any_of num u x /\ t = if p then ("(" ++ u ++ ")")%string else u.
(** "g AND g AND ...": no group but the last may be in parentheses if the last is; [last] says
    whether it is. *)
Inductive all_of (num : string -> option float) (last : bool) : string -> fexpr -> Prop :=
| all_one t x : group num last t x -> all_of num last t x
| all_more p t x r y : (last = true -> p = false) -> group num p t x -> all_of num last r y -> all_of num last (t ++ " AND " ++ r) (XAnd [x; y]).

(** An expression without BETWEEN. *)
Fixpoint no_between (f : fexpr) : Prop :=
  match f with
  | XAnd l | XOr l | XNot l => (fix all (l : list fexpr) : Prop := match l with [] => True | x :: l' => no_between x /\ all l' end) l
  | XBetween _ _ => False
  | _ => True
  end.
(** The list of values of "k IN (v,v,v)". *)
Inductive listed (num : string -> option float) : string -> list gval -> Prop :=
| l_one v g : means num v g -> listed num v [g]
| l_more v g r gs : means num v g -> listed num r gs -> listed num (v ++ "," ++ r) (g :: gs).
Definition no_quotes (s : string) : Prop := all_chars (fun a => a <> "'"%char /\ a <> ascii_of_nat 34) s.
