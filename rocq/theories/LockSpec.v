(** When concurrent calls can wait for each other for ever. *)
From Coq Require Import List Arith Bool.
From Verif Require Import LockModel.
Import ListNotations.

(** What call [i] has left to do. *)
Definition left_of (i : nat) (s : lstate) : list action := nth i (l_calls s) [].
Definition all_done (s : lstate) : Prop := forall i, left_of i s = [].
(** Call [i] is not done, and under no schedule whatever gets any further. *)
Definition waits_forever (i : nat) (s : lstate) : Prop :=
  left_of i s <> [] /\ forall sched, left_of i (lock_run sched s) = left_of i s.

(** How many read locks are released minus taken in what is left: the number held. *)
Fixpoint held (p : list action) : nat :=
  match p with [] => 0 | RL :: q => pred (held q) | RU :: q => S (held q) | _ :: q => held q end.
(** A sequence of lock operations that makes sense: every lock taken is released, no lock
    that is not held is released, and the write lock is taken and released with nothing
    in between and no read lock held. *)
Fixpoint sensible (n : nat) (p : list action) : bool :=
  match p with
  | [] => Nat.eqb n 0
  | RL :: q => sensible (S n) q
  | RU :: q => match n with O => false | S k => sensible k q end
  | WL :: WU :: q => Nat.eqb n 0 && sensible 0 q
  | _ => false
  end.
(** Takes the read lock while holding it. *)
Definition nests (p : list action) : Prop := exists a b, p = a ++ RL :: b /\ 1 < held b.
Definition writes (p : list action) : Prop := In WL p.

(** The methods that take the read lock while holding it, on some path. *)
Definition reenters (c : call) : bool :=
  match c with
  | GetCollectionStats | HybridSearch | SearchWithDiversity | SearchWithReranker | SearchMultiVector | Dump | DumpToFile
  | UpsertBatch | Upsert | LoadAll | LoadFromFile => true
  | _ => false
  end.
(** The methods that take the write lock, on some path. *)
Definition excludes (c : call) : bool :=
  match c with
  | CreateCollection | DeleteCollection | DeleteDocument | ImportIndex | UpsertMultiVector | DeleteMultiVectorEntity | SetLogger | SetAutoDimAdapt
  | CloseStore | DeleteBatch | DeleteByFilter | TrainIndex | InitStore | Upsert | LoadAll | LoadFromFile => true
  | _ => false
  end.
(** Some execution of these concurrent calls reaches a state in which one of them waits
    for ever. *)
Definition can_deadlock (cs : list call) : Prop :=
  exists ps, Forall2 path cs ps /\ exists sched i, waits_forever i (lock_run sched (lock_init ps)).

(** Number of steps in a schedule that got some call further. *)
Lemma state_eq_dec (s t : lstate) : {s = t} + {s <> t}.
Proof. repeat decide equality. Qed.
Fixpoint effective (sched : list nat) (s : lstate) : nat :=
  match sched with [] => 0 | i :: r => (if state_eq_dec (lock_step i s) s then 0 else 1) + effective r (lock_step i s) end.
