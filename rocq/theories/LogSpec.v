(** What a log is supposed to look like. *)
From Coq Require Import List String Ascii ZArith Bool.
Import ListNotations.
Local Open Scope string_scope.

(** Key-value arguments given as pairs. *)
Definition flat (ps : list (string * string)) : list string := flat_map (fun p => [fst p; snd p]) ps.

(** A line: the time, the level, the pairs in their order, the message, a line break. *)
Definition level_name (level : Z) : string :=
  if Z.eqb level 0 then "DEBUG" else if Z.eqb level 1 then "INFO" else if Z.eqb level 2 then "WARN"
  else if Z.eqb level 3 then "ERROR" else "UNKNOWN".
Fixpoint shown (ps : list (string * string)) : string :=
  match ps with [] => "" | (k, v) :: r => " " ++ k ++ "=" ++ v ++ shown r end.
Definition line (time : string) (level : Z) (ps : list (string * string)) (msg : string) : string :=
  time ++ " [" ++ level_name level ++ "] " ++ shown ps ++ ": " ++ msg ++ String "010" "".

(** [all] consists of whole entries, each of one author, and every author's entries come in
    that author's order, none missing and none twice. *)
Definition woven (authors : nat -> list string) (entries : list (nat * string)) : Prop :=
  forall i, map snd (filter (fun e => Nat.eqb (fst e) i) entries) = authors i.

(** A message somebody logs. *)
Record entry := { e_time : string; e_level : Z; e_msg : string; e_pairs : list (string * string) }.
(** The lines of the messages that reach the level [min], with the pairs [base] of the logger. *)
Definition expected (min : Z) (base : list (string * string)) (es : list entry) : list string :=
  map (fun e => line (e_time e) (e_level e) (base ++ e_pairs e) (e_msg e)) (filter (fun e => Z.leb min (e_level e)) es).
