(** What the theorems on the text calls are stated in terms of. *)
From Coq Require Import String Ascii List NArith ZArith Bool.
From Coq Require Import Floats.SpecFloat.
From Verif Require Import Base Floats64 StoreModel SearchModel TextApiModel.
Import ListNotations.
Open Scope string_scope.
Open Scope list_scope.

(** A stored text as a reader sees it: in the default collection (id 1), without document and
    access list. *)
Definition stored_text (d : db) (id text : string) (v : list N) (meta : option smap) : embedding :=
  {| e_id := id; e_collid := 0; e_coll := coll_name d 1; e_vec := Some v; e_content := text; e_doc := ""; e_meta := meta; e_acl := [] |}.

(** An embedder that gives each text of a batch its own vector. *)
Definition one_by_one (m : embedder) (f : string -> list N) : Prop :=
  forall l vs, em_batch m l = Ok vs -> vs = map (fun t => Some (f t)) l.

(** The matches, best first, that are still stored, each with its place (counted from 1) among
    all the matches. *)
Fixpoint places (n : nat) (l : list (option string)) : list (string * nat) :=
  match l with
  | [] => []
  | Some id :: l' => (id, n) :: places (S n) l'
  | None :: l' => places (S n) l'
  end.
Definition is_stored (I : index_ops) (s : store I) (id : string) : bool := match get_by_id I s id with Ok _ => true | _ => false end.
Definition stored_places (I : index_ops) (s : store I) (l : list (option string)) : list (string * nat) :=
  filter (fun p => is_stored I s (fst p)) (places 1 l).
(** The score of a place: 1/(60+place). *)
Definition place_score (n : nat) : float := f64_div (f64_of_Z 1) (f64_of_Z (60 + Z.of_nat n)).
