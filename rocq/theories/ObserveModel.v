(** Model of Observe, /repo/pkg/hindsight/hindsight.go:857-1078: the patterns found in the
    recalled memories and the storing of the observations. The recalled memories are a
    parameter (Recall is in HindModel.v); lower case is that of ASCII. *)
From Coq Require Import String Ascii List NArith ZArith Bool.
From Verif Require Import Base Floats64 EncodingModel DimensionModel StoreModel SearchModel GraphModel HindModel ArgModel.
Import ListNotations.
Open Scope string_scope.
Open Scope list_scope.
Open Scope nat_scope.

(** byEntity[e] = append(byEntity[e], m), hindsight.go:917-922; the map as a list. *)
Fixpoint put_entity (g : list (string * list memory)) (e : string) (m : memory) : list (string * list memory) :=
  match g with
  | [] => [(e, [m])]
  | (k, l) :: r => if String.eqb k e then (k, l ++ [m]) :: r else (k, l) :: put_entity r e m
  end.
Definition by_entity (ms : list memory) : list (string * list memory) :=
  fold_left (fun g m => fold_left (fun g e => put_entity g e m) (hm_ents m) g) ms [].

(** isPreferencePattern and isCausalPattern, hindsight.go:971-996. *)
Definition preference_words : list string := ["prefers"; "likes"; "enjoys"; "prefers"; "chooses"; "selects"].
Definition causal_words : list string := ["because"; "since"; "due to"; "caused"; "resulted in"; "led to"].
Definition has_word (kws : list string) (ms : list memory) : bool :=
  existsb (fun m => existsb (fun kw => contains kw (arg_lower (hm_content m))) kws) ms.

(** ReflectRequest, types.go:201-223, as far as Observe reads it or should. *)
Record reflect_request := { rr_bank : string; rr_types : list string; rr_min : float }.

(** The observation of a pattern, hindsight.go:929-940, 945-956, 1026-1035: the id is a new
    UUID, given by [numbered] below; there is no vector. *)
Definition pattern (now : Z) (req : reflect_request) (skep : option Z) (typ content reasoning : string) (ms : list memory) : observation :=
  {| ob_id := ""; ob_bank := rr_bank req; ob_content := content; ob_vec := None; ob_sources := map hm_id ms; ob_conf := confidence (length ms) skep;
     ob_type := typ; ob_reasoning := reasoning; ob_time := Some now |}.
Definition of_entity (now : Z) (req : reflect_request) (skep : option Z) (g : string * list memory) : list observation :=
  if Nat.leb 2 (length (snd g)) then
    (if has_word preference_words (snd g)
     then [pattern now req skep "preference" (fst g ++ " shows consistent patterns in behavior") "Multiple memories indicate consistent behavior patterns" (snd g)] else []) ++
    (if has_word causal_words (snd g)
     then [pattern now req skep "causal" (fst g ++ "'s actions show cause-effect patterns") "Identified cause-effect relationship patterns" (snd g)] else [])
  else [].

(** themes[w]++, hindsight.go:1001-1009; [words] is strings.Fields of the lower-case text. *)
Fixpoint bump (t : list (string * nat)) (w : string) : list (string * nat) :=
  match t with [] => [(w, 1)] | (k, n) :: r => if String.eqb k w then (k, S n) :: r else (k, n) :: bump r w end.
Definition themes (words : string -> list string) (ms : list memory) : list (string * nat) :=
  fold_left (fun t m => fold_left (fun t w => if Nat.ltb 4 (String.length w) then bump t w else t) (words (hm_content m)) t) ms [].
(** The most common theme, hindsight.go:1012-1019, over the map in some order. *)
Definition top_theme (l : list (string * nat)) : string * nat :=
  fold_left (fun b x => if Nat.ltb (snd b) (snd x) && Nat.leb 2 (snd x) then x else b) l ("", 0).
(** generalizeFromMemories, hindsight.go:999-1036. *)
Definition generalize (words : string -> list string) (ordt : list (string * nat) -> list (string * nat)) (now : Z) (req : reflect_request) (skep : option Z) (ms : list memory) : list observation :=
  let t := fst (top_theme (ordt (themes words ms))) in
  if String.eqb t "" then []
  else [pattern now req skep "generalization" ("General pattern: interactions involving " ++ t ++ " show consistency") "Multiple memories share common themes" ms].

(** detectPatterns, hindsight.go:909-968; [ord] and [ordt] are orders of the maps. *)
Definition detect_patterns (words : string -> list string) (ord : list (string * list memory) -> list (string * list memory)) (ordt : list (string * nat) -> list (string * nat))
  (now : Z) (req : reflect_request) (skep : option Z) (ms : list memory) : list observation :=
  if Nat.ltb (length ms) 2 then []
  else flat_map (of_entity now req skep) (ord (by_entity ms)) ++ (if Nat.leb 3 (length ms) then generalize words ordt now req skep ms else []).

(** The ids are new UUIDs. *)
Definition numbered (uuid : nat -> string) (l : list observation) : list observation :=
  map (fun p => let x := snd p in {| ob_id := uuid (fst p); ob_bank := ob_bank x; ob_content := ob_content x; ob_vec := ob_vec x; ob_sources := ob_sources x; ob_conf := ob_conf x;
                  ob_type := ob_type x; ob_reasoning := ob_reasoning x; ob_time := ob_time x |}) (combine (seq 0 (length l)) l).

Section Observe.
Variable I : index_ops.
Variable F : formats.
(** The loop that stores the observations, hindsight.go:889-895. *)
Fixpoint store_observations (ev : nat -> henv) (min : float) (y : sys I) (l : list observation) : sys I * outcome unit :=
  match l with
  | [] => (y, Ok tt)
  | x :: r => if fge (ob_conf x) min then
                match retain_observation I F (ev 0) y x with
                | (y1, Ok _) => store_observations (fun k => ev (S k)) min y1 r
                | (y1, e) => (y1, e)
                end
              else store_observations (fun k => ev (S k)) min y r
  end.
(** Observe, hindsight.go:857-905, after a successful Recall; the text of the context is
    left out. *)
Definition observe (words : string -> list string) (ord : list (string * list memory) -> list (string * list memory)) (ordt : list (string * nat) -> list (string * nat))
  (uuid : nat -> string) (now : Z) (ev : nat -> henv) (y : sys I) (req : reflect_request) (ms : list memory) : sys I * outcome (list observation) :=
  let skep := match find (fun b => String.eqb (b_id b) (rr_bank req)) (sy_banks y) with Some b => Some (b_skepticism b) | None => None end in
  let obs := numbered uuid (detect_patterns words ord ordt now req skep ms) in
  match store_observations ev (rr_min req) y obs with
  | (y1, Ok _) => (y1, Ok obs)
  | (y1, Err e) => (y1, Err e)
  | (y1, Panic) => (y1, Panic)
  end.
End Observe.
