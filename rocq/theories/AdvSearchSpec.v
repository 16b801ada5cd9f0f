(** What the theorems on access-controlled, hybrid and range search are stated in
    terms of. *)
From Coq Require Import String List NArith ZArith Bool.
From Coq Require Import Floats.SpecFloat.
From Verif Require Import Base Floats64 StoreModel SearchModel.
Import ListNotations.
Open Scope string_scope.
Open Scope list_scope.

(** An embedding is public, or shares a principal with the caller. *)
Definition public (e : embedding) : Prop := e_acl e = [].
Definition visible (acl : list string) (e : embedding) : Prop := public e \/ exists p, In p acl /\ In p (e_acl e).

(** Reciprocal-rank score, ranks counted from 0 here. *)
Definition reciprocal (k : float) (i : nat) : float := f64_div (f64_of_Z 1) (f64_add k (f64_of_Z (Z.of_nat (S i)))).
(** [x] is the fused score of [id]: the sum of the reciprocal ranks it has in the two
    lists (a keyword rank alone is added to zero). *)
Inductive fused (k : float) (vids : list string) (hits : list (option string)) (id : string) : float -> Prop :=
| fused_both i j : nth_error vids i = Some id -> nth_error hits j = Some (Some id) ->
    fused k vids hits id (f64_add (reciprocal k i) (reciprocal k j))
| fused_vector i : nth_error vids i = Some id -> ~ In (Some id) hits -> fused k vids hits id (reciprocal k i)
| fused_keyword j : ~ In id vids -> nth_error hits j = Some (Some id) -> fused k vids hits id (f64_add f_zero (reciprocal k j)).

(** The keyword hits used: none without a text, else the first 3*TopK (30 when TopK
    is not positive). *)
Definition hits_used (matches : option (list (option string))) (text : string) (o : sopts) : list (option string) :=
  match matches with
  | None => []
  | Some l => if String.eqb text "" then [] else firstn (if Z.ltb 0 (o_topk o) then Z.to_nat (o_topk o * 3) else 30) l
  end.
(** RRF constant: 60 unless given. *)
Definition rrf_constant (k : float) : float := if feq k f_zero then f64_of_Z 60 else k.
(** No embedding is hit twice. *)
Definition hits_distinct (l : list (option string)) : Prop :=
  forall i j id, nth_error l i = Some (Some id) -> nth_error l j = Some (Some id) -> i = j.

(** The distance RangeSearch derives from a similarity: -x for x <= 0, else 1 - x, as
    float32. *)
Definition distance_of_score (x : float) : float :=
  f32_of_f64 (if fle x f_zero then SFopp x else f64_sub (f64_of_Z 1) x).
Definition nearer_first (a b : scored) : bool := flt (snd a) (snd b).
