(** Vocabulary of the product-quantisation theorems. *)
From Coq Require Import List NArith.
From Verif Require Import Floats64 PQModel.
Import ListNotations.

(** A trained quantiser of consistent shape. *)
Definition wf_pq (p : pquant) : Prop :=
  pq_trained p = true /\ pq_d p = pq_m p * pq_sub p /\ pq_k p <= 256 /\
  length (pq_books p) = pq_m p /\
  Forall (fun book => length book = pq_k p /\ Forall (fun c => length c = pq_sub p) book) (pq_books p).

(** The m-th subvector. *)
Definition sub_at (v : list N) (m sub : nat) : list N := firstn sub (skipn (m * sub) v).

(** Every centroid component is a 32-bit pattern. *)
Definition books_bits (p : pquant) : Prop :=
  Forall (fun book => Forall (fun c => Forall (fun x => x < 2^32)%N c) book) (pq_books p).


(** The distance between a query and a code: the distances between each subvector of
    the query and the centroid the code names, added up in float32 from left to right. *)
Definition centroid_at (p : pquant) (m : nat) (c : N) : list N :=
  nth (N.to_nat c) (nth m (pq_books p) []) [].
Definition table_distance (add : float -> float -> float) (zero : float) (dist : list N -> list N -> float)
  (p : pquant) (codes query : list N) : float :=
  fold_left add (map (fun mc => dist (sub_at query (fst mc) (pq_sub p)) (centroid_at p (fst mc) (snd mc)))
                     (combine (seq 0 (pq_m p)) codes)) zero.
