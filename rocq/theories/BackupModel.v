(** Model of Backup, /repo/pkg/core/io.go:474-489: the path is put between quotes into the
    text of a VACUUM INTO statement. The file system is a map from names to databases; that
    VACUUM INTO copies the database, fails if the file exists with content, and then leaves
    everything as it was, is SQLite's behaviour. Names SQLite treats specially (empty, URIs)
    are left out. *)
From Coq Require Import List String Ascii Bool.
Import ListNotations.
Local Open Scope string_scope.

Definition quote : ascii := "'".

(** SQLite's string literal, after its opening quote: up to the first quote that is not
    doubled; a doubled one stands for one. The contents, and the text after it. *)
Fixpoint literal (s : string) : option (string * string) :=
  match s with
  | EmptyString => None
  | String c r =>
      if Ascii.eqb c quote then
        match r with
        | String d r' => if Ascii.eqb d quote
                         then match literal r' with None => None | Some (x, rest) => Some (String quote x, rest) end
                         else Some ("", r)
        | EmptyString => Some ("", "")
        end
      else match literal r with None => None | Some (x, rest) => Some (String c x, rest) end
  end.

Section Backup.
Variables (DB E : Type).
Variables (closed_error failed : E).
(** What SQLite makes of text after the literal, on database and files: more statements, or
    an error. *)
Variable more : string -> DB * (string -> option DB) -> DB * (string -> option DB) * option E.

(** VACUUM INTO 'name'. *)
Definition vacuum_into (name : string) (d : DB) (files : string -> option DB) : (string -> option DB) * option E :=
  match files name with
  | Some _ => (files, Some failed)
  | None => (fun f => if String.eqb f name then Some d else files f, None)
  end.

(** Backup, io.go:474-489; [works] tells whether the statement meets no other failure. *)
Definition backup (works closed : bool) (path : string) (d : DB) (files : string -> option DB) : DB * (string -> option DB) * option E :=
  if closed then (d, files, Some closed_error) else
  match literal (path ++ "'") with
  | None => (d, files, Some failed)
  | Some (name, rest) =>
      if works then
        let '(files', e) := vacuum_into name d files in
        match e with
        | Some x => (d, files', Some x)
        | None => if String.eqb rest "" then (d, files', None) else more rest (d, files')
        end
      else (d, files, Some failed)
  end.
End Backup.
