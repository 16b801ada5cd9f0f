(** What the theorems on planned queries, lexical candidates and word vectors are stated in
    terms of. *)
From Coq Require Import String Ascii List NArith ZArith Bool Sorted.
From Coq Require Import Floats.SpecFloat.
From Verif Require Import Base Floats64 RagSpec.
Import ListNotations.
Open Scope list_scope.
Open Scope nat_scope.

(** [out]: the elements of [l] that satisfy [P], each once, in the order in which they first
    occur. *)
Definition firsts {A} (P : A -> Prop) (l out : list A) : Prop :=
  (forall x, In x out <-> In x l /\ P x) /\
  exists idx, StronglySorted lt idx /\ Forall2 (fun i x => nth_error l i = Some x /\ forall j, j < i -> nth_error l j <> Some x) idx out.
(** [u] is [t] without the white space around it. *)
Definition trimmed (t u : list N) : Prop :=
  exists a b, t = a ++ u ++ b /\ (forall r, In r (a ++ b) -> white r = true) /\
    (forall r v, u = r :: v -> white r = false) /\ (forall r v, u = v ++ [r] -> white r = false).
Fixpoint separated (sep : list N) (l : list (list N)) : list N :=
  match l with [] => [] | t :: [] => t | t :: l' => t ++ sep ++ separated sep l' end.
Definition runes (s : string) : list N := map N_of_ascii (list_ascii_of_string s).
Definition ors (l : list (list N)) : list N := separated (runes " OR ") l.
(** Bytes in UTF-8. *)
Fixpoint bytes (t : list N) : nat :=
  match t with [] => 0 | r :: t' => (if (r <=? 127)%N then 1 else if (r <=? 2047)%N then 2 else if (r <=? 65535)%N then 3 else 4) + bytes t' end.
(** Words too common to search for. *)
Definition common : list (list N) := map runes
  ["a"; "an"; "and"; "are"; "as"; "at"; "be"; "by"; "does"; "for"; "from"; "how"; "in"; "into"; "is"; "it";
   "of"; "on"; "or"; "that"; "the"; "their"; "there"; "these"; "this"; "to"; "was"; "were"; "what"; "when"; "where"; "which";
   "who"; "why"; "with"]%string.
Definition quote : string := String (ascii_of_nat 34) EmptyString.
(** Punctuation is neither a letter nor a digit. *)
Definition plain_letters (letter_or_digit : N -> bool) : Prop :=
  forall r, In r (runes (".,!?;:'()[]{}<> " ++ quote) ++ [9; 10; 13]%N) -> letter_or_digit r = false.
(** The keywords of a text: its distinct lower-case words of two bytes or more that are not
    too common. *)
Definition keywords (lower : list N -> list N) (letter_or_digit : N -> bool) (t : list N) (ks : list (list N)) : Prop :=
  exists ws, runs (fun r => negb (letter_or_digit r)) (lower t) ws /\ firsts (fun k => 2 <= bytes k /\ ~ In k common) ws ks.
(** A prefix query for words of three or more ASCII letters and digits. *)
Definition starred (k k' : list N) : Prop :=
  (3 <= bytes k /\ (forall r, In r k -> (97 <= r <= 122 \/ 48 <= r <= 57)%N) /\ k' = k ++ runes "*") \/
  (~ (3 <= bytes k /\ forall r, In r k -> (97 <= r <= 122 \/ 48 <= r <= 57)%N) /\ k' = k).
(** The queries of a search: the query, the alternatives, the query's keywords, and all
    keywords, as they are and as prefixes; none blank, none twice. *)
Definition planned (lower : list N -> list N) (letter_or_digit : N -> bool) (q : list N) (given alternates out : list (list N)) : Prop :=
  exists q' own others all stars trims,
    trimmed q q' /\ keywords lower letter_or_digit q' own /\ keywords lower letter_or_digit (separated (runes " ") given) others /\
    firsts (fun _ => True) (others ++ own) all /\ Forall2 starred all stars /\
    Forall2 trimmed (q :: alternates ++ [ors own; ors all; ors stars]) trims /\ firsts (fun t => t <> []) trims out.

(** 1 - idx/20, but at least 0.8. *)
Definition weight_at (idx : nat) : float :=
  let weight := f64_sub (f64_of_Z 1) (f64_mul (f64_of_Z (Z.of_nat idx)) (f64_div (f64_of_Z 5) (f64_of_Z 100))) in
  let floor := f64_div (f64_of_Z 8) (f64_of_Z 10) in
  if flt weight floor then floor else weight.
Section Candidates.
Variable ask : list N -> option (list (string * float)).
(** One of the first [n] queries found [id] with this weighted score. *)
Definition found_by (qs : list (list N)) (n : nat) (id : string) (s : float) : Prop :=
  exists idx q rs x, idx < n /\ nth_error qs idx = Some q /\ ask q = Some rs /\ In (id, x) rs /\ s = f64_mul x (weight_at idx).
(** The first query alone found enough: [k] different chunks or more, and at least one. *)
Definition first_suffices (k : Z) (qs : list (list N)) : Prop :=
  exists q rest rs, qs = q :: rest /\ ask q = Some rs /\ rs <> [] /\ (k <= Z.of_nat (length (nodup string_dec (map fst rs))))%Z.
(** The later queries are not asked when the first one suffices. *)
Definition queries_asked (k : Z) (qs : list (list N)) (n : nat) : Prop :=
  (first_suffices k qs /\ n = 1) \/ (~ first_suffices k qs /\ n = length qs).
End Candidates.
Definition better_hit (a b : string * float) : bool :=
  fgt (snd a) (snd b) || (feq (snd a) (snd b) && String.ltb (fst a) (fst b)).

(** Word [i mod d] counts of a text's words, stripped of punctuation. *)
Definition strip (r : N) : bool := existsb (N.eqb r) (runes (".,!?;:'()[]{}<> " ++ quote) ++ [9; 10; 13]%N).
Definition stripped (t u : list N) : Prop :=
  exists a b, t = a ++ u ++ b /\ (forall r, In r (a ++ b) -> strip r = true) /\
    (forall r v, u = r :: v -> strip r = false) /\ (forall r v, u = v ++ [r] -> strip r = false).
(** How many of the words have this number modulo [d]. *)
Definition numbered (hash : list N -> N) (us : list (list N)) (d i : nat) : nat :=
  length (filter (fun u => match u with [] => false | _ => N.eqb (N.modulo (hash u) (N.of_nat d)) (N.of_nat i) end) us).
(** The words of a text. *)
Definition words_of (lower : list N -> list N) (t : list N) (us : list (list N)) : Prop :=
  exists ws all, runs white (lower t) ws /\ Forall2 stripped ws all /\ us = filter (fun u => match u with [] => false | _ => true end) all.
