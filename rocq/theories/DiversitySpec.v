(** What the theorems on diverse, negative and anomaly search are stated in terms of. *)
From Coq Require Import List NArith ZArith Bool Permutation Sorted.
From Coq Require Import Floats.SpecFloat.
From Verif Require Import Base Floats64 TopK StoreModel SearchModel.
Import ListNotations.

(** [out] is the list of the elements of [cs] at the positions [idxs], all different. *)
Definition picked {A} (cs : list A) (idxs : list nat) (out : list A) : Prop :=
  NoDup idxs /\ Forall2 (fun i x => nth_error cs i = Some x) idxs out.
(** [out] consists of elements of [cs] at different positions. *)
Definition selection {A} (cs out : list A) : Prop := exists idxs, picked cs idxs out.

(** The largest of the values when one of them is positive, else 0. *)
Definition highest (l : list float) (m : float) : Prop :=
  (m = f_zero \/ (In m l /\ flt f_zero m = true)) /\ forall x, In x l -> flt m x = false.

(** A single-precision similarity, and the distance 1 - similarity. *)
Definition similarity32 (sc : scorer) (a b : embedding) : float := f32_of_f64 (sc_sim sc (vec_of a) (vec_of b)).
Definition separation (sc : scorer) (a b : embedding) : float :=
  f32_of_f64 (f64_sub (f64_of_Z 1) (sc_sim sc (vec_of a) (vec_of b))).

(** A parameter that is 0 means its default. *)
Definition or_default (x d : float) : float := if feq x f_zero then d else x.

(** Score of "like these, not like those": best similarity to a positive example
    minus [w] times the best similarity to a negative one, in single precision. *)
Definition contrast (sc : scorer) (pos neg : list (list N)) (w : float) (e : embedding) (x : float) : Prop :=
  exists p n, highest (map (fun v => f32_of_f64 (sc_sim sc v (vec_of e))) pos) p /\
              highest (map (fun v => f32_of_f64 (sc_sim sc v (vec_of e))) neg) n /\
              x = f64_of_f32 (f32_sub p (f32_mul w n)).

(** Marginal relevance of a candidate given those already selected:
    lambda * score - (1 - lambda) * (highest similarity to a selected one). *)
Definition relevance (sc : scorer) (lambda : float) (sel : list scored) (c : scored) (x : float) : Prop :=
  exists m, highest (map (fun s => similarity32 sc (fst c) (fst s)) sel) m /\
            x = f32_sub (f32_mul lambda (f32_of_f64 (snd c))) (f32_mul (f32_sub (f32_of_Z 1) lambda) m).

(** Gain of a candidate given those already selected: its score minus the sum, in some
    order, of (similarity * sqrt (score * score'))^2 / score' over the selected. *)
Definition overlap (sc : scorer) (c s : scored) : float :=
  f32_mul (similarity32 sc (fst c) (fst s)) (f32_of_f64 (f64_sqrt (f64_mul (snd c) (snd s)))).
Definition gain (sc : scorer) (sel : list scored) (c : scored) (x : float) : Prop :=
  exists ord, Permutation sel ord /\
    x = fold_left (fun g s => f32_sub g (f32_div (f32_mul (overlap sc c s) (overlap sc c s)) (f32_of_f64 (snd s)))) ord (f32_of_f64 (snd c)).

(** Greedy choice after the first [n0] picks: when an element is picked, no element
    (among the first [lim]) not picked before is worth more. *)
Definition greedy (value : list scored -> nat -> float) (cs : list scored) (lim n0 : nat) (idxs : list nat) (out : list scored) : Prop :=
  forall n i j, nth_error idxs n = Some i -> n0 <= n -> j < lim -> ~ In j (firstn n idxs) ->
    flt (value (firstn n out) i) (value (firstn n out) j) = false.

(** Mean of the (at most five) smallest distances, in single precision. *)
Definition mean (ds : list float) : float :=
  match ds with [] => f_zero | _ => f32_div (fold_left f32_add ds f_zero) (f32_of_Z (Z.of_nat (length ds))) end.
