(** Model of /repo/pkg/core/streaming.go. A stream is the list of results received from
    the channel; time stamps and the progress callback are not modelled. *)
From Coq Require Import String List NArith ZArith Bool Arith.
From Coq Require Import Floats.SpecFloat.
From Verif Require Import Base Floats64 EncodingModel DimensionModel StoreModel SearchModel.
Import ListNotations.
Open Scope string_scope.
Open Scope list_scope.

(** *** StreamSearch *)
(** StreamingOptions, streaming.go:19-26. *)
Record stopts := { so_opts : sopts; so_batch : Z; so_early : bool; so_quality : float }.

(** What the select at streaming.go:97-104 does with one send: the result is received,
    the context is cancelled, or the wait exceeds MaxLatency. *)
Inductive send := Sent | Cancelled | Skipped.

(** Sending one sorted batch, streaming.go:96-112. [fate n] is the outcome of the n-th
    attempt to send; [enough] is the test at line 108. Returns the results sent, the
    number of attempts so far and whether the search stops here. *)
Fixpoint send_batch (fate : nat -> send) (o : stopts) (enough : bool) (n : nat) (rs : list scored) : list scored * nat * bool :=
  match rs with
  | [] => ([], n, false)
  | r :: rs' =>
      match fate n with
      | Cancelled => ([], S n, true)
      | Skipped => send_batch fate o enough (S n) rs'
      | Sent => if so_early o && fge (snd r) (so_quality o) && enough then ([r], S n, true)
                else let '(out, n', stop) := send_batch fate o enough (S n) rs' in (r :: out, n', stop)
      end
  end.

Definition batch_size (o : stopts) : nat := if (so_batch o <=? 0)%Z then 100 else Z.to_nat (so_batch o).

(** Scoring a candidate, streaming.go:78-88. *)
Definition scored_by (sc : scorer) (q : list N) (e : embedding) : scored := (e, sc_sim sc q (vec_of e)).

Section Stream.
Variable I : index_ops.
Variable srt : list scored -> list scored.
(** The loop over batches, streaming.go:62-120. [quit b] tells whether the context is
    found cancelled before batch b; [i] counts the candidates of earlier batches. *)
Fixpoint stream_loop (fate : nat -> send) (quit : nat -> bool) (sc : scorer) (q : list N) (o : stopts)
  (fuel b i n : nat) (cs : list embedding) : list (scored * nat) :=
  match fuel, cs with
  | O, _ | _, [] => []
  | S fuel', _ =>
      if quit b then [] else
      let batch := firstn (batch_size o) cs in
      let rs := srt (map (scored_by sc q) batch) in
      let enough := (0 <? o_topk (so_opts o))%Z && (o_topk (so_opts o) <=? Z.of_nat (i + length batch))%Z in
      let '(out, n', stop) := send_batch fate o enough n rs in
      map (fun r => (r, b)) out ++
      if stop then [] else stream_loop fate quit sc q o fuel' (S b) (i + length batch) n' (skipn (batch_size o) cs)
  end.
(** StreamSearch, streaming.go:29-124: the results put on the channel, with their batch
    numbers. The candidates are read by the goroutine, after the call has returned: [s]
    is the store at that time. The query is used as it is. *)
Definition stream_search (fate : nat -> send) (quit : nat -> bool) (sc : scorer) (s : store I) (q : list N) (o : stopts)
  : outcome (list (scored * nat)) :=
  if st_closed I s then Err EClosed
  else let cs := fetch_candidates (st_db I s) (so_opts o) in
       Ok (stream_loop fate quit sc q o (length cs) 0 0 0 cs).
End Stream.

(** *** MergeStreamResults *)
(** A forwarding goroutine, streaming.go:149-166: what its channel still holds and the
    result it has received but not yet sent. *)
Notation forwarder := (list scored * option scored)%type (only parsing).
Definition update_at {A} (i : nat) (x : A) (l : list A) : list A :=
  match nth_error l i with None => l | Some _ => firstn i l ++ x :: skipn (S i) l end.
(** One step of goroutine [i]: receive, or send to the merged channel. The output
    remembers (for the statements only) which channel a result came from. *)
Definition merge_step (st : list forwarder * list (nat * scored)) (i : nat) : list forwarder * list (nat * scored) :=
  match nth_error (fst st) i with
  | Some (rest, held) =>
      match held with
      | Some r => (update_at i (rest, None) (fst st), snd st ++ [(i, r)])
      | None => match rest with r :: rest' => (update_at i (rest', Some r) (fst st), snd st) | [] => st end
      end
  | None => st
  end.
(** MergeStreamResults, streaming.go:142-176, under a schedule of the goroutines and
    without cancellation. The merged channel is closed when every goroutine is done. *)
Definition merge_streams (channels : list (list scored)) (schedule : list nat) : list forwarder * list (nat * scored) :=
  fold_left merge_step schedule (map (fun c => (c, None)) channels, []).
Definition merge_closed (st : list forwarder * list (nat * scored)) : bool :=
  forallb (fun f : forwarder => match f with ([], None) => true | _ => false end) (fst st).

(** *** CollectTopKFromStream *)
(** 0.9 as a float64. *)
Definition f_09 : float := S754_finite false 8106479329266893%positive (-53)%Z.

Section Collect.
Variable srt : list scored -> list scored.
(** topK[k-1]; out of range panics. *)
Definition last_kept (k : Z) (topk : list scored) : option scored :=
  if (k <=? 0)%Z then None else nth_error topk (Z.to_nat (k - 1)).
(** Adding one result, streaming.go:199-209; [None] is the panic. *)
Definition next_topk (k : Z) (topk : list scored) (r : scored) : option (list scored) :=
  if (Z.of_nat (length topk) <? k)%Z then Some (srt (topk ++ [r]))
  else match last_kept k topk with
       | None => None
       | Some l => if fgt (snd r) (snd l) then Some (srt (update_at (Z.to_nat (k - 1)) r topk)) else Some topk
       end.
(** The loop, streaming.go:184-224. An element [None] of the stream means that the
    context is found cancelled at that point. The result tells whether it was. *)
Fixpoint collect_loop (k : Z) (topk : list scored) (seen : list string) (stream : list (option scored)) : outcome (list scored * bool) :=
  match stream with
  | [] => Ok (topk, false)
  | None :: _ => Ok (topk, true)
  | Some r :: stream' =>
      if mem (e_id (fst r)) seen then collect_loop k topk seen stream'
      else
        let seen' := e_id (fst r) :: seen in
        match next_topk k topk r with
        | None => Panic
        | Some topk' =>
            if (Z.of_nat (length topk') =? k)%Z
            then match last_kept k topk' with
                 | None => Panic
                 | Some l => if fgt (snd l) f_09 then Ok (topk', false) else collect_loop k topk' seen' stream'
                 end
            else collect_loop k topk' seen' stream'
        end
  end.
(** CollectTopKFromStream, streaming.go:179-225; make panics on a negative capacity. *)
Definition collect_topk (k : Z) (stream : list (option scored)) : outcome (list scored * bool) :=
  if (k <? 0)%Z then Panic else collect_loop k [] [] stream.
End Collect.
