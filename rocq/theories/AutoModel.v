(** Model of periodic saving of the index, /repo/pkg/core/store_index.go:465-517, running
    next to writers and Close, /repo/pkg/core/store_close.go:9-41, step by step.
    The index and the quantiser are known by their versions: the index is at version n after
    n changes, the quantiser after n trainings. Save of either reads it under its own lock,
    at one moment (hnsw.go:100-103). A statement executes at one moment; it may fail, and
    fails when the database is closed. A writer holds the mutex of the store exclusively from
    beginning to end and is one step. *)
From Coq Require Import List Bool Arith.
Import ListNotations.

(** AutoSaveConfig, /repo/pkg/core/embedding.go:155-160; the interval only says when the
    timer fires, which is left to the schedule. *)
Record aconf := { ac_enabled : bool; ac_on_close : bool; ac_min_changes : nat }.

(** saveIndexSnapshot, store_index.go:361-411, as its steps: serialise the index, write it,
    serialise the quantiser, write it. *)
Inductive save_pc := SerNodes | PutNodes (v : nat) | SerQuant | PutQuant (q : nat) | Saved.

(** Close: not called, holding the mutex while saving, saved, flag set, returned. *)
Inductive close_pc := CNot | CSaving (p : save_pc) | CFlagged | CReturned.
(** autoSaveLoop: not running, about to look at the flag, saving, about to set the timer. *)
Inductive auto_pc := AIdle | ACheck | ASaving (p : save_pc) | ATimer.

Record astate := {
  a_ix : nat; a_quant : nat;                                (* in memory *)
  d_nodes : option nat; d_quant : option nat; d_open : bool;  (* on disk, database *)
  a_closed : bool; a_timer : bool;
  a_close : close_pc; a_auto : auto_pc }.

Definition set_disk (s : astate) (n q : option nat) : astate :=
  {| a_ix := a_ix s; a_quant := a_quant s; d_nodes := n; d_quant := q; d_open := d_open s;
     a_closed := a_closed s; a_timer := a_timer s; a_close := a_close s; a_auto := a_auto s |}.
Definition set_close (s : astate) (c : close_pc) : astate :=
  {| a_ix := a_ix s; a_quant := a_quant s; d_nodes := d_nodes s; d_quant := d_quant s; d_open := d_open s;
     a_closed := a_closed s; a_timer := a_timer s; a_close := c; a_auto := a_auto s |}.
Definition set_auto (s : astate) (t : bool) (a : auto_pc) : astate :=
  {| a_ix := a_ix s; a_quant := a_quant s; d_nodes := d_nodes s; d_quant := d_quant s; d_open := d_open s;
     a_closed := a_closed s; a_timer := t; a_close := a_close s; a_auto := a |}.

(** One step of saveIndexSnapshot; a failing first statement ends it (store_index.go:385-387),
    a failing second one too (:403-404). *)
Definition save_step (ok : bool) (s : astate) (p : save_pc) : astate * save_pc :=
  match p with
  | SerNodes => (s, PutNodes (a_ix s))
  | PutNodes v => if ok && d_open s then (set_disk s (Some v) (d_quant s), SerQuant) else (s, Saved)
  | SerQuant => (s, PutQuant (a_quant s))
  | PutQuant q => if ok && d_open s then (set_disk s (d_nodes s) (Some q), Saved) else (s, Saved)
  | Saved => (s, Saved)
  end.

(** The mutex of the store is held by Close between its beginning and its return. *)
Definition close_holds (s : astate) : bool := match a_close s with CSaving _ | CFlagged => true | _ => false end.

(** One step of Close, store_close.go:10-41; it finds the store open, as only one is modelled. *)
Definition close_step (c : aconf) (ok : bool) (s : astate) : astate :=
  match a_close s with
  | CNot => set_close s (CSaving SerNodes)
  | CSaving Saved => {| a_ix := a_ix s; a_quant := a_quant s; d_nodes := d_nodes s; d_quant := d_quant s; d_open := d_open s;
                        a_closed := true; a_timer := a_timer s; a_close := CFlagged; a_auto := a_auto s |}
  | CSaving p => let '(s', p') := save_step ok s p in set_close s' (CSaving p')
  | CFlagged => {| a_ix := a_ix s; a_quant := a_quant s; d_nodes := d_nodes s; d_quant := d_quant s; d_open := false;
                   a_closed := a_closed s; a_timer := a_timer s; a_close := CReturned; a_auto := a_auto s |}
  | CReturned => s
  end.

(** The timer fires, store_index.go:472-474, 506-508. *)
Definition fire (s : astate) : astate :=
  if a_timer s then match a_auto s with AIdle => set_auto s false ACheck | _ => s end else s.

(** One step of autoSaveLoop, store_index.go:479-510; reading the flag waits for the mutex. *)
Definition auto_step (c : aconf) (ok : bool) (s : astate) : astate :=
  match a_auto s with
  | AIdle => s
  | ACheck => if close_holds s then s else if a_closed s then set_auto s (a_timer s) AIdle else set_auto s (a_timer s) (ASaving SerNodes)
  | ASaving Saved => set_auto s (a_timer s) ATimer
  | ASaving p => let '(s', p') := save_step ok s p in set_auto s' (a_timer s') (ASaving p')
  | ATimer => set_auto s true AIdle
  end.

(** A write to the store that changes the index, and trains the quantiser again if [t]; it
    waits for the mutex, and a closed store refuses it. *)
Definition write_step (t : bool) (s : astate) : astate :=
  if close_holds s || a_closed s then s
  else {| a_ix := S (a_ix s); a_quant := if t then S (a_quant s) else a_quant s; d_nodes := d_nodes s; d_quant := d_quant s; d_open := d_open s;
          a_closed := a_closed s; a_timer := a_timer s; a_close := a_close s; a_auto := a_auto s |}.

Inductive aevent := EWrite (train : bool) | EClose (ok : bool) | EAuto (ok : bool) | EFire.
Definition a_event (c : aconf) (s : astate) (e : aevent) : astate :=
  match e with EWrite t => write_step t s | EClose ok => close_step c ok s | EAuto ok => auto_step c ok s | EFire => fire s end.
Definition a_events (c : aconf) (s : astate) (es : list aevent) : astate := fold_left (a_event c) es s.

(** After Init, store_init.go:63-66: what is on disk comes from earlier sessions. *)
Definition opened (c : aconf) : astate :=
  {| a_ix := 0; a_quant := 0; d_nodes := None; d_quant := None; d_open := true;
     a_closed := false; a_timer := ac_enabled c; a_close := CNot; a_auto := AIdle |}.
