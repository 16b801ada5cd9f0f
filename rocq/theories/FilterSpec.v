(** What a metadata filter means, and which filters the SQL translation covers. *)
From Coq Require Import String Ascii List NArith ZArith Bool.
From Verif Require Import Base Floats64 StoreModel SearchModel SearchSpec SqlModel FilterModel.
Import ListNotations.
Open Scope string_scope.
Open Scope list_scope.

(** SQL's LIKE: % stands for any text, _ for one character, other characters for
    themselves up to the case of ASCII letters. *)
Inductive like_matches : string -> string -> Prop :=
| lm_end : like_matches "" ""
| lm_any p t u : like_matches p t -> like_matches (String "%" p) (u ++ t)
| lm_one p c t : like_matches p t -> like_matches (String "_" p) (String c t)
| lm_char p c d t : c <> "%"%char -> c <> "_"%char -> ascii_lower c = ascii_lower d -> like_matches p t ->
    like_matches (String c p) (String d t).

Section Spec.
Variable N : numerals.

(** The number a filter value stands for. *)
Definition number_of (v : gval) : option float :=
  match v with
  | GInt z => Some (f64_of_Z z)
  | GFloat f => if is_nanb f then None else Some f
  | GStr x => sql_num N x
  | GBool _ | GNil => None
  end.
(** A stored text equals a filter value: the same text, or a numeral for that number. *)
Definition equals (a : string) (v : gval) : Prop :=
  match v with
  | GStr x => a = x
  | GInt _ | GFloat _ => exists x y, sql_num N a = Some x /\ number_of v = Some y /\ feq x y = true
  | GBool b => a = fmt_t b
  | GNil => False
  end.
(** A stored text is a number in the given order relation to a filter value. *)
Definition compares (op : cmp) (a : string) (v : gval) : Prop :=
  exists x y, sql_num N a = Some x /\ number_of v = Some y /\ num_cmp op x y = true.

(** The filter [f] holds of the metadata [m]. An absent field differs from every
    value, and nothing else holds of it. *)
Fixpoint satisfies (f : fexpr) (m : smap) {struct f} : Prop :=
  let all := fix all (l : list fexpr) : Prop := match l with [] => True | x :: l' => satisfies x m /\ all l' end in
  let some := fix some (l : list fexpr) : Prop := match l with [] => False | x :: l' => satisfies x m \/ some l' end in
  match f with
  | XNil => True
  | XAnd l => all l
  | XOr l => some l
  | XNot (x :: _) => ~ satisfies x m
  | XNot [] => False
  | XCmp CEQ k v => exists a, assoc k m = Some a /\ equals a v
  | XCmp CNE k v => forall a, assoc k m = Some a -> ~ equals a v
  | XCmp op k v => exists a, assoc k m = Some a /\ compares op a v
  | XBetween k (Some (lo :: hi :: _)) => exists a, assoc k m = Some a /\ compares CGE a lo /\ compares CLE a hi
  | XBetween _ _ => False
  | XIn k (Some vs) => exists a v, assoc k m = Some a /\ In v vs /\ equals a v
  | XIn _ None => False
  | XLike k p => exists a, assoc k m = Some a /\ like_matches p a
  | XOther => False
  end.

Definition is_text (v : gval) : Prop := exists x, v = GStr x.
(** A field name the JSON path '$.name' reads as that member. *)
Definition plain_field (k : string) : Prop :=
  k <> "" /\ has_char is_quote k = false /\ has_char (Ascii.eqb ".") k = false.
(** The field is absent or a numeral. *)
Definition numeric_field (k : string) (m : smap) : Prop := forall a, assoc k m = Some a -> sql_num N a <> None.

(** Filters the SQL translation can express, for given metadata: no negation, no
    empty group, plain field names, texts compared for equality and numbers in
    ranges, and a "different" test only on a field that is present. *)
Fixpoint expressible (f : fexpr) (m : smap) {struct f} : Prop :=
  let all := fix all (l : list fexpr) : Prop := match l with [] => True | x :: l' => expressible x m /\ all l' end in
  match f with
  | XAnd l => l <> [] /\ all l
  | XOr l => l <> [] /\ all l
  | XCmp CEQ k v => plain_field k /\ is_text v
  | XCmp CNE k v => plain_field k /\ is_text v /\ assoc k m <> None
  | XCmp _ k v => plain_field k /\ number_of v <> None /\ numeric_field k m
  | XBetween k (Some (lo :: hi :: _)) => plain_field k /\ number_of lo <> None /\ number_of hi <> None /\ numeric_field k m
  | XIn k (Some vs) => plain_field k /\ Forall is_text vs
  | XLike k p => plain_field k
  | _ => False
  end.

(** Filters evaluated in memory as they should be, for given metadata: texts
    compared for equality are not numerals, ranges compare numbers that Go and SQLite
    read alike, LIKE patterns are free of regular-expression characters and of upper
    case. *)
Definition reads_alike (k : string) (m : smap) : Prop :=
  forall a, assoc k m = Some a -> sql_num N a <> None /\ go_num N a = sql_num N a.
Definition is_number (v : gval) : Prop := match v with GInt _ => True | GFloat f => is_nanb f = false | _ => False end.
Definition not_numeral (v : gval) : Prop := exists x, v = GStr x /\ go_num N x = None.
Definition lower_only (s : string) : Prop := has_char (fun a => negb (Ascii.eqb (ascii_lower a) a)) s = false.
Fixpoint evaluable (f : fexpr) (m : smap) {struct f} : Prop :=
  let all := fix all (l : list fexpr) : Prop := match l with [] => True | x :: l' => evaluable x m /\ all l' end in
  match f with
  | XNil | XOther => True
  | XAnd l | XOr l | XNot l => all l
  | XCmp CEQ k v | XCmp CNE k v => not_numeral v
  | XCmp _ k v => is_number v /\ reads_alike k m
  | XBetween k (Some (lo :: hi :: _)) => is_number lo /\ is_number hi /\ reads_alike k m
  | XBetween _ _ => False
  | XIn k (Some vs) => Forall not_numeral vs
  | XIn _ None => False
  | XLike k p => has_char is_meta_char p = false /\ lower_only p /\
      (forall a, assoc k m = Some a -> lower_only a /\ has_char (fun c => negb (not_newline c)) a = false)
  end.

(** SQLite's CAST agrees with its own reading of numerals. *)
Definition casts_numerals : Prop := forall a x, sql_num N a = Some x -> sql_real N a = x.
End Spec.

(** [all] lists, once each, exactly the stored embeddings whose full record satisfies
    [P], as search reports them and with their scores. *)
Definition lists_where (I : index_ops) (s : store I) (P : embedding -> Prop) (f : embedding -> float) (all : list scored) : Prop :=
  NoDup (map (fun x => e_id (fst x)) all) /\
  forall e x, In (e, x) all <-> exists e0, get_by_id I s (e_id e) = Ok e0 /\ e = without_acl e0 /\ P e0 /\ x = f e.
(** TopK of them, all when TopK is not positive. *)
Definition limit_count (o : sopts) (all : list scored) : nat := if Z.ltb 0 (o_topk o) then Z.to_nat (o_topk o) else length all.
(** An embedding passes an optional filter; one without metadata has no fields. *)
Definition wanted (N : numerals) (post : option fexpr) (e : embedding) : Prop :=
  match post with None => True | Some f => satisfies N f (meta_map e) end.

(** Integer numerals, for the examples: an optional minus sign and digits. *)
Fixpoint digits (acc : Z) (s : string) : option Z :=
  match s with
  | "" => Some acc
  | String a s' => let n := N_of_ascii a in
      if N.leb 48 n && N.leb n 57 then digits (acc * 10 + Z.of_N (n - 48)) s' else None
  end.
Definition integer (s : string) : option Z :=
  match s with
  | "" => None
  | String "-" s' => match s' with "" => None | _ => match digits 0 s' with Some z => Some (- z)%Z | None => None end end
  | _ => digits 0 s
  end.
Definition integers : numerals :=
  {| go_num := fun s => option_map f64_of_Z (integer s); sql_num := fun s => option_map f64_of_Z (integer s);
     sql_real := fun s => match integer s with Some z => f64_of_Z z | None => f_zero end |}.
Definition plain_formats : formats := {| fmt_v := fun _ => ""; regex := fun _ _ => false |}.
