(** What the theorems on streaming are stated in terms of. *)
From Coq Require Import String List NArith ZArith Bool Permutation.
From Verif Require Import Base Floats64 TopK StoreModel SearchModel StreamModel.
Import ListNotations.

(** The results of a stream, each id only the first time it occurs. *)
Fixpoint firsts (l : list scored) : list scored :=
  match l with
  | [] => []
  | x :: l' => x :: filter (fun y => negb (String.eqb (e_id (fst y)) (e_id (fst x)))) (firsts l')
  end.

(** [l] is obtained from [l'] by leaving elements out. *)
Inductive sublist {A} : list A -> list A -> Prop :=
| sub_nil : forall l, sublist [] l
| sub_take : forall x l l', sublist l l' -> sublist (x :: l) (x :: l')
| sub_drop : forall x l l', sublist l l' -> sublist l (x :: l').

(** The results a merged stream got from channel [i]. *)
Definition from_channel (i : nat) (out : list (nat * scored)) : list scored :=
  map snd (filter (fun p => Nat.eqb (fst p) i) out).

(** The rule of early termination: result [x] of batch number [snd x] reaches the quality
    threshold and the batches up to its own hold at least TopK of the [total] matches. *)
Definition ends_early (o : stopts) (total : nat) (x : scored * nat) : Prop :=
  so_early o = true /\ fge (snd (fst x)) (so_quality o) = true /\ (0 < o_topk (so_opts o))%Z /\
  let size := if (0 <? so_batch o)%Z then Z.to_nat (so_batch o) else 100 in
  (o_topk (so_opts o) <= Z.of_nat (Nat.min ((snd x + 1) * size) total))%Z.
