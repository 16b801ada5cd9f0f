(** Model of the logger of the store, /repo/pkg/core/logger.go, and of goroutines that log
    at the same time. Values are already rendered (%v); the time of a call is a string given
    with the call. Every Fprintf is one Write, and the writer takes a Write as a whole. *)
From Coq Require Import List String Ascii ZArith Bool.
Import ListNotations.
Local Open Scope string_scope.

(** LogLevel, logger.go:12-23, and String, :26-39. Any int is a level. *)
Definition LevelDebug : Z := 0.
Definition LevelInfo : Z := 1.
Definition LevelWarn : Z := 2.
Definition LevelError : Z := 3.
Definition level_string (l : Z) : string :=
  match l with
  | 0 => "DEBUG" | 1 => "INFO" | 2 => "WARN" | 3 => "ERROR" | _ => "UNKNOWN"
  end%Z.

(** defaultLogger, logger.go:56-62; [lg_mu] tells the mutexes apart. The prefix is never set
    (NewLogger, With) and is left out. All loggers here have the same writer. *)
Record logger := { lg_mu : nat; lg_min : Z; lg_kv : list string }.
(** NewLogger, logger.go:65-70; [mu] is the mutex of the new value. *)
Definition new_logger (mu : nat) (min : Z) : logger := {| lg_mu := mu; lg_min := min; lg_kv := [] |}.
(** With, logger.go:98-108; the new logger has a mutex of its own. *)
Definition log_with (mu : nat) (l : logger) (kv : list string) : logger :=
  {| lg_mu := mu; lg_min := lg_min l; lg_kv := lg_kv l ++ kv |}.

Definition newline : string := String (ascii_of_nat 10) "".

(** The loops of logger.go:123-136: one Write for every complete pair. *)
Fixpoint kv_pieces (kv : list string) : list string :=
  match kv with
  | k :: v :: r => (" " ++ k ++ "=" ++ v) :: kv_pieces r
  | _ => []
  end.

(** One call of Debug, Info, Warn or Error, logger.go:78-95. *)
Record call := { c_log : logger; c_level : Z; c_time : string; c_msg : string; c_kv : list string }.

(** log, logger.go:112-114. *)
Definition enabled (c : call) : bool := negb (Z.ltb (c_level c) (lg_min (c_log c))).
(** log, logger.go:119-138: the Writes of a call, in their order. *)
Definition pieces (c : call) : list string :=
  (c_time c ++ " [" ++ level_string (c_level c) ++ "] ") ::
  kv_pieces (lg_kv (c_log c)) ++ kv_pieces (c_kv c) ++ [": " ++ c_msg c ++ newline].

(** A goroutine: the call it is in (mutex held, Writes left), and the calls it has yet to make. *)
Record thread := { t_in : option (nat * list string); t_todo : list call }.
(** What was written, who holds which mutex, and the goroutines. *)
Record lworld := { w_out : list string; w_held : nat -> bool; w_threads : nat -> thread }.

Definition upd {T} (f : nat -> T) (i : nat) (x : T) : nat -> T := fun j => if Nat.eqb j i then x else f j.

(** One step of goroutine [i], logger.go:112-138: enter the call, write a piece, or leave.
    Nothing happens when it has to wait for the mutex or has finished. *)
Definition log_step (w : lworld) (i : nat) : lworld :=
  let t := w_threads w i in
  match t_in t with
  | Some (mu, p :: ps) =>
      {| w_out := w_out w ++ [p]; w_held := w_held w;
         w_threads := upd (w_threads w) i {| t_in := Some (mu, ps); t_todo := t_todo t |} |}
  | Some (mu, []) =>
      {| w_out := w_out w; w_held := upd (w_held w) mu false;
         w_threads := upd (w_threads w) i {| t_in := None; t_todo := t_todo t |} |}
  | None =>
      match t_todo t with
      | [] => w
      | c :: cs =>
          if enabled c then
            if w_held w (lg_mu (c_log c)) then w
            else {| w_out := w_out w; w_held := upd (w_held w) (lg_mu (c_log c)) true;
                    w_threads := upd (w_threads w) i {| t_in := Some (lg_mu (c_log c), pieces c); t_todo := cs |} |}
          else {| w_out := w_out w; w_held := w_held w;
                  w_threads := upd (w_threads w) i {| t_in := None; t_todo := cs |} |}
      end
  end.
Definition log_run (w : lworld) (sched : list nat) : lworld := fold_left log_step sched w.

(** Goroutines about to make the given calls. *)
Definition log_start (calls : nat -> list call) : lworld :=
  {| w_out := []; w_held := fun _ => false; w_threads := fun i => {| t_in := None; t_todo := calls i |} |}.

(** The log file: everything written, joined. *)
Definition text (ws : list string) : string := String.concat "" ws.

(** nopLogger, logger.go:142-164: nothing is written and With gives it back. *)
Inductive any_logger := Default (l : logger) | Nop.
Definition any_with (mu : nat) (a : any_logger) (kv : list string) : any_logger :=
  match a with Default l => Default (log_with mu l kv) | Nop => Nop end.
Definition any_log (a : any_logger) (level : Z) (time msg : string) (kv : list string) : list string :=
  match a with
  | Default l => let c := {| c_log := l; c_level := level; c_time := time; c_msg := msg; c_kv := kv |} in
                 if enabled c then pieces c else []
  | Nop => []
  end.
