(** Model of IncrementalIndex, /repo/pkg/core/streaming.go:227-365: a queue of pending
    embeddings, a worker that writes them to the store in batches, and searches that look
    at the queue. Pending embeddings are not nil; timing is replaced by an arbitrary
    schedule of the steps below. *)
From Coq Require Import String List NArith ZArith Bool Arith.
From Coq Require Import Floats.SpecFloat.
From Verif Require Import Base Floats64 EncodingModel DimensionModel StoreModel SearchModel StreamModel.
Import ListNotations.
Open Scope string_scope.
Open Scope list_scope.

Definition capacity : nat := 100.
(** [q_held]: embeddings a search has taken from the queue and not put back yet.
    [q_batch]: the worker's unwritten batch. [q_written]: the batches handed to
    UpsertBatch so far. [q_done]: the worker has ended. [q_crashed]: a send on the closed
    channel panicked. *)
Record incr := { q_queue : list embedding; q_held : list embedding; q_batch : list embedding; q_written : list (list embedding);
  q_closed : bool; q_done : bool; q_crashed : bool }.
(** NewIncrementalIndex, streaming.go:237-247. *)
Definition new_incr : incr := {| q_queue := []; q_held := []; q_batch := []; q_written := []; q_closed := false; q_done := false; q_crashed := false |}.

Inductive event :=
| EAdd (e : embedding)   (* AddAsync *)
| EWork                  (* the worker receives from the channel *)
| ETick                  (* the worker's ticker fires *)
| ETake                  (* a search receives from the channel, streaming.go:287 *)
| EPut (n : nat)         (* a search puts back the n-th embedding held, streaming.go:309 *)
| EClose.

(** AddAsync accepts, streaming.go:254-263. *)
Definition accepts (s : incr) : bool := negb (q_closed s) && (length (q_queue s) <? capacity)%nat.

(** Writing the batch, streaming.go:343-345, 352-355, 359-362. *)
Definition flush (s : incr) (queue batch : list embedding) (done : bool) : incr :=
  {| q_queue := queue; q_held := q_held s; q_batch := []; q_written := match batch with [] => q_written s | _ => q_written s ++ [batch] end;
     q_closed := q_closed s; q_done := done; q_crashed := q_crashed s |}.
Definition with_queue (s : incr) (queue held batch : list embedding) : incr :=
  {| q_queue := queue; q_held := held; q_batch := batch; q_written := q_written s; q_closed := q_closed s; q_done := q_done s; q_crashed := q_crashed s |}.
Definition without {A} (n : nat) (l : list A) : list A := firstn n l ++ skipn (S n) l.

(** One step; a step that is not possible changes nothing. *)
Definition incr_step (s : incr) (ev : event) : incr :=
  if q_crashed s then s else
  match ev with
  | EAdd e => if accepts s then with_queue s (q_queue s ++ [e]) (q_held s) (q_batch s) else s
  | EWork => (* processUpdates, streaming.go:340-355 *)
      if q_done s then s else
      match q_queue s with
      | [] => if q_closed s then flush s [] (q_batch s) true else s
      | e :: queue => if (100 <=? length (q_batch s ++ [e]))%nat then flush s queue (q_batch s ++ [e]) false
                      else with_queue s queue (q_held s) (q_batch s ++ [e])
      end
  | ETick => if q_done s then s else flush s (q_queue s) (q_batch s) false
  | ETake => match q_queue s with [] => s | e :: queue => with_queue s queue (q_held s ++ [e]) (q_batch s) end
  | EPut n =>
      match nth_error (q_held s) n with
      | None => s
      | Some e =>
          if q_closed s then {| q_queue := q_queue s; q_held := q_held s; q_batch := q_batch s; q_written := q_written s;
                                q_closed := true; q_done := q_done s; q_crashed := true |}
          else if (length (q_queue s) <? capacity)%nat then with_queue s (q_queue s ++ [e]) (without n (q_held s)) (q_batch s)
          else s
      end
  | EClose => {| q_queue := q_queue s; q_held := q_held s; q_batch := q_batch s; q_written := q_written s;
                 q_closed := true; q_done := q_done s; q_crashed := q_crashed s |}
  end.
Definition incr_run (evs : list event) : incr := fold_left incr_step evs new_incr.

(** The store after the worker's calls: UpsertBatch for every batch, errors ignored. *)
Definition applied (I : index_ops) (ev : env) (s : store I) (written : list (list embedding)) : store I :=
  fold_left (fun s b => fst (upsert_batch I ev s b)) written s.

(** SearchWithUpdates, streaming.go:285-316: merging the pending embeddings taken from
    the queue into the results of a search. TopK is as given by the caller. *)
Section Pending.
Variable srt : list scored -> list scored.
Definition trim (k : Z) (l : list scored) : list scored :=
  if (0 <? k)%Z && (k <? Z.of_nat (length l))%Z then firstn (Z.to_nat k) l else l.
Definition merge_one (sc : scorer) (q : list N) (k : Z) (results : list scored) (e : embedding) : outcome (list scored) :=
  let x := sc_sim sc q (vec_of e) in
  let add := trim k (srt (results ++ [(e, x)])) in
  if (k =? 0)%Z || (Z.of_nat (length results) <? k)%Z then Ok add
  else match nth_error results (length results - 1) with
       | None => Panic
       | Some l => if fgt x (snd l) then Ok add else Ok results
       end.
Fixpoint merge_pending (sc : scorer) (q : list N) (k : Z) (results : list scored) (pending : list embedding) : outcome (list scored) :=
  match pending with
  | [] => Ok results
  | e :: l => bind (merge_one sc q k results e) (fun r => merge_pending sc q k r l)
  end.
End Pending.
(** SearchWithUpdates, streaming.go:267-320: [taken] are the at most ten embeddings
    received before the timeout. *)
Definition search_with_updates (I : index_ops) (srt : list scored -> list scored) (noise : nat -> float) (m : mode) (sc : scorer) (s : store I)
  (q : list N) (o : sopts) (taken : list embedding) : outcome (list scored) :=
  bind (search I srt noise m sc s (Some q) o) (fun results => merge_pending srt sc q (o_topk o) results (firstn 10 taken)).
