(** Properties of Backup. *)
From Coq Require Import List String Ascii Bool.
From Verif Require Import BackupModel.
Import ListNotations.
Local Open Scope string_scope.

(** *** C229 *)
Definition no_quote (path : string) : Prop := ~ In quote (list_ascii_of_string path).
Lemma literal_plain p : forall rest, no_quote p -> (forall r, rest <> String quote r) -> literal (p ++ String quote rest) = Some (p, rest).
Proof.
  induction p as [|c p IH]; intros rest N R.
  - cbn [append literal]. rewrite Ascii.eqb_refl. destruct rest as [|d r]; [reflexivity|]. destruct (Ascii.eqb_spec d quote) as [->|]; [exfalso; now apply (R r)|reflexivity].
  - cbn [append literal]. destruct (Ascii.eqb_spec c quote) as [->|Nc]; [exfalso; apply N; now left|]. rewrite (IH rest); [reflexivity|intros H; apply N; now right|exact R].
Qed.
(** A path without a quote: success means that this file, which did not exist, now holds the
    database as it is, and no other file changed; failure means that nothing changed. The
    database itself never changes. *)
Theorem backup_exact : forall DB E closed_error failed more works closed path (d d' : DB) files files' (e : option E), no_quote path ->
  backup DB E closed_error failed more works closed path d files = (d', files', e) ->
  d' = d /\ (e = None -> files path = None /\ files' path = Some d /\ forall f, f <> path -> files' f = files f) /\ (e <> None -> files' = files).
Proof.
  intros DB E ce fe more works closed path d d' files files' e N H. unfold backup in H. destruct closed; [injection H as <- <- <-; repeat split; congruence|].
  change "'" with (String quote "") in H. rewrite (literal_plain path "" N) in H by discriminate. destruct works; [|injection H as <- <- <-; repeat split; congruence].
  unfold vacuum_into in H. destruct (files path) eqn:Ef; cbn in H; injection H as <- <- <-; repeat split; try congruence.
  - now rewrite String.eqb_refl.
  - intros f Nf. apply String.eqb_neq in Nf. now rewrite Nf.
Qed.
(** It succeeds exactly if the store is open, the file does not exist and nothing else fails. *)
Theorem backup_succeeds : forall DB E closed_error failed more works closed path (d : DB) files, no_quote path ->
  (snd (backup DB E closed_error failed more works closed path d files) = None <-> closed = false /\ works = true /\ files path = None).
Proof.
  intros DB E ce fe more works closed path d files N. unfold backup. destruct closed; [cbn; split; [discriminate|intros (X & _); discriminate]|].
  change "'" with (String quote ""). rewrite (literal_plain path "" N) by discriminate. destruct works; [|cbn; split; [discriminate|intros (_ & X & _); discriminate]].
  unfold vacuum_into. destruct (files path); cbn; split; intros; try discriminate; auto. destruct H as (_ & _ & X). discriminate.
Qed.
Definition one_file (f : string) : option nat := if String.eqb f "old.db" then Some 7 else None.
Example backup_exact_ex : no_quote "new.db" /\
  (let '(d, files, e) := backup nat string "closed" "failed" (fun r s => (s, None)) true false "new.db" 5 one_file in
   d = 5 /\ files "new.db" = Some 5 /\ files "old.db" = Some 7 /\ e = None) /\
  snd (backup nat string "closed" "failed" (fun r s => (s, None)) true false "old.db" 5 one_file) = Some "failed".
Proof. split; [|repeat split]. unfold no_quote. cbn. unfold quote. intuition discriminate. Qed.
Print Assumptions backup_exact.
Print Assumptions backup_succeeds.
(** Refuted for paths with quotes: a doubled one names another file, a single one is an error
    or worse. *)
Theorem backup_path_refuted : forall DB E closed_error failed more (d : DB),
  (let '(_, files, e) := backup DB E closed_error failed more true false "it''s.db" d (fun _ => None) in
   e = None /\ files "it''s.db" = None /\ files "it's.db" = Some d) /\
  (let '(_, files, e) := backup DB E closed_error failed (fun _ s => (s, Some failed)) true false "o'brien.db" d (fun _ => None) in
   e <> None /\ files "o'brien.db" = None).
Proof. intros DB E ce fe more d. split; cbn; repeat split. discriminate. Qed.
(** Whatever the SQL text, there is a path that has it executed. *)
Theorem backup_injection_refuted : forall DB E closed_error failed more (d : DB) sql files, files "b" = None ->
  exists path, backup DB E closed_error failed more true false path d files =
    more ("; " ++ sql ++ "; --'") (d, fun f => if String.eqb f "b" then Some d else files f).
Proof.
  intros DB E ce fe more d sql files F. exists ("b'; " ++ sql ++ "; --"). unfold backup.
  assert (A : forall a b c, ((a ++ b) ++ c = a ++ (b ++ c))%string) by (induction a; intros; cbn; [reflexivity|now rewrite IHa]).
  rewrite !A. change ("b'; " ++ sql ++ "; --" ++ "'") with ("b" ++ String quote ("; " ++ sql ++ "; --'")).
  rewrite (literal_plain "b"); [|unfold no_quote; cbn; unfold quote; intuition discriminate|intros r; cbn; unfold quote; discriminate].
  unfold vacuum_into. rewrite F. cbn. reflexivity.
Qed.
Print Assumptions backup_path_refuted.
Print Assumptions backup_injection_refuted.
