(** Model of how arguments are found in a text, /repo/pkg/semantic-router/schema.go:243-334:
    extractValue and coerceType, and of SchemaBuilder, :337-399. Texts are bytes; lower case
    is that of ASCII. The regular expression around a keyword is a parameter. *)
From Coq Require Import List String Ascii ZArith Bool.
From Verif Require Import Base.
Import ListNotations.
Local Open Scope string_scope.

Definition arg_lower1 (a : ascii) : ascii :=
  let n := nat_of_ascii a in if Nat.leb 65 n && Nat.leb n 90 then ascii_of_nat (n + 32) else a.
Fixpoint arg_lower (s : string) : string := match s with "" => "" | String a r => String (arg_lower1 a) (arg_lower r) end.

Definition is_digit (a : ascii) : bool := let n := nat_of_ascii a in Nat.leb 48 n && Nat.leb n 57.

(** The value of an argument: what coerceType returns, or the default of the schema. A float
    is known by the text given to Sscanf. *)
Inductive pval := PStr (s : string) | PInt (n : Z) | PFloat (text : string) | PBool (b : bool) | PArr (l : list string) | PDefault (d : string).

(** The longest run of digits at the beginning, and the rest. *)
Fixpoint digits (s : string) : string * string :=
  match s with
  | String a r => if is_digit a then let '(d, t) := digits r in (String a d, t) else ("", s)
  | "" => ("", "")
  end.
(** The leftmost match of \d+, with what follows it. *)
Fixpoint first_digits (s : string) : option (string * string) :=
  match s with
  | "" => None
  | String a r => if is_digit a then Some (digits s) else first_digits r
  end.
(** Sscanf("%d") of a run of digits into an int: 0 stays when it does not fit. *)
Fixpoint read_digits (acc : Z) (s : string) : Z :=
  match s with "" => acc | String a r => read_digits (acc * 10 + Z.of_nat (nat_of_ascii a - 48)) r end.
Definition scan_int (d : string) : Z := let n := read_digits 0 d in if Z.ltb n (2 ^ 63) then n else 0.

(** strings.Split(value, ","), schema.go:331. *)
Fixpoint split_comma (s : string) : list string :=
  match s with
  | "" => [""]
  | String a r => if Ascii.eqb a "," then "" :: split_comma r
                  else match split_comma r with [] => [String a ""] | x :: l => String a x :: l end
  end.

(** coerceType, schema.go:306-334. *)
Definition coerce (value typ : string) : pval :=
  let t := arg_lower typ in
  if String.eqb t "string" then PStr value
  else if String.eqb t "integer" || String.eqb t "int" then
    match first_digits value with Some (d, _) => PInt (scan_int d) | None => PStr value end
  else if String.eqb t "number" || String.eqb t "float" then
    match first_digits value with
    | Some (d, String "." r) => PFloat (d ++ "." ++ fst (digits r))
    | Some (d, _) => PFloat d
    | None => PStr value
    end
  else if String.eqb t "boolean" || String.eqb t "bool" then
    let l := arg_lower value in PBool (String.eqb l "true" || String.eqb l "yes" || String.eqb l "是" || String.eqb l "好的")
  else if String.eqb t "array" then PArr (split_comma value)
  else PStr value.

(** strings.Contains. *)
Fixpoint arg_contains (s sub : string) : bool :=
  prefix sub s || match s with "" => false | String _ r => arg_contains r sub end.

(** ParameterSchema, schema.go:13-45, as far as it is read; the enum as its texts. *)
Record param := { p_type : string; p_required : bool; p_default : option string; p_enum : list string }.

Section Extract.
(** FindStringSubmatch of the expression made of a keyword, schema.go:250-253: [None] if it
    does not compile, else the first group of a match. *)
Variable after : string -> string -> option (option string).

(** The loop over the keywords, schema.go:247-258; MustCompile panics. *)
Fixpoint by_keyword (keywords : list string) (low typ : string) : outcome (option pval) :=
  match keywords with
  | [] => Ok None
  | k :: r => if arg_contains low k then
                match after k low with
                | None => Panic
                | Some (Some v) => Ok (Some (coerce v typ))
                | Some None => by_keyword r low typ
                end
              else by_keyword r low typ
  end.
(** extractValue, schema.go:243-275; [keywords] are those of extractKeywords, :279-303. *)
Definition extract_value (text : string) (keywords : list string) (p : param) : outcome (option pval) :=
  bind (by_keyword keywords (arg_lower text) (p_type p)) (fun o =>
  match o with
  | Some v => Ok (Some v)
  | None => match find (fun e => arg_contains (arg_lower text) (arg_lower e)) (p_enum p) with
            | Some e => Ok (Some (coerce e (p_type p)))
            | None => Ok (match p_default p with Some d => Some (PDefault d) | None => None end)
            end
  end).
End Extract.

(** SchemaBuilder: the parameters, a map, and the list Required; schema.go:337-382. *)
Record schema := { sc_params : list (string * param); sc_required : list string }.
Definition new_schema : schema := {| sc_params := []; sc_required := [] |}.
Definition add_param (s : schema) (np : string * param) : schema :=
  {| sc_params := filter (fun x => negb (String.eqb (fst x) (fst np))) (sc_params s) ++ [np]; sc_required := sc_required s |}.
(** Build, schema.go:391-399; [ord] is the iteration order of the map. *)
Definition build (ord : list (string * param) -> list (string * param)) (s : schema) : schema :=
  {| sc_params := sc_params s; sc_required := sc_required s ++ map fst (filter (fun x => p_required (snd x)) (ord (sc_params s))) |}.
