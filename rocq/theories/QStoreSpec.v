(** What a user of quantisation in the store relies on. *)
From Coq Require Import String List NArith ZArith QArith Bool.
From Verif Require Import Base QuantModel QStoreModel.
Import ListNotations.

Local Notation op := (qop Qarith).
(** The vectors a history stored, in order. *)
Definition accepted (ops : list op) : list (string * list Q) :=
  flat_map (fun o => match o with QUpsert _ id v true => [(id, v)] | QBatch _ l true => l | _ => [] end) ops.
(** [v] is the first vector stored under [id]. *)
Definition first_given (l : list (string * list Q)) (id : string) (v : list Q) : Prop :=
  exists l1 l2, l = l1 ++ (id, v) :: l2 /\ ~ In id (map fst l1).
(** Every vector has the dimension of the store, and the user does not retrain. *)
Definition vectors_of (o : op) : list (list Q) :=
  match o with QUpsert _ _ v _ => [v] | QBatch _ l _ => map snd l | _ => [] end.
Definition all_sized (dim : nat) (ops : list op) : Prop := forall o v, In o ops -> In v (vectors_of o) -> length v = dim.
Definition no_retraining (ops : list op) : Prop := ~ In (QTrain Qarith) ops.
(** [lo] and [hi] hold, for each component, the smallest and the largest value in [vs]; a
    component that is the same in all of them is widened by 10^-6. *)
Definition learnt (vs : list (list Q)) (lo hi : list Q) : Prop :=
  length lo = length hi /\
  (forall d x, nth_error lo d = Some x -> (exists v, In v vs /\ nth_error v d = Some x) /\ forall v y, In v vs -> nth_error v d = Some y -> x <= y) /\
  (forall d z, nth_error hi d = Some z -> (forall v y, In v vs -> nth_error v d = Some y -> y <= z) /\
     ((exists v, In v vs /\ nth_error v d = Some z) \/
      exists x, nth_error lo d = Some x /\ z == x + (1 # 1000000) /\ forall v y, In v vs -> nth_error v d = Some y -> y == x)).
(** What a history wrote and deleted, in order; [id] is stored with [v] when writing [v] is
    the last thing that happened to it. *)
Definition events (ops : list op) : list (string * option (list Q)) :=
  flat_map (fun o => match o with
                     | QUpsert _ id v true => [(id, Some v)]
                     | QBatch _ l true => map (fun e => (fst e, Some (snd e))) l
                     | QDelete _ id => [(id, None)]
                     | _ => []
                     end) ops.
Definition stored_after (ops : list op) (id : string) (v : list Q) : Prop :=
  exists l1 l2, events ops = l1 ++ (id, Some v) :: l2 /\ ~ In id (map fst l2).
