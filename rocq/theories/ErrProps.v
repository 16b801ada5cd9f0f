(** Properties of the errors. *)
From Coq Require Import List String Arith Bool Lia.
From Verif Require Import ErrModel ErrSpec.
Import ListNotations.
Local Open Scope string_scope.

Section ErrInd.
Variable P : err -> Prop.
Hypothesis HN : forall i m, P (New i m).
Hypothesis H0 : forall i op, P (Store i op None).
Hypothesis HS : forall i op x, P x -> P (Store i op (Some x)).
Hypothesis HE : forall i b x a, P x -> P (Errorf i b x a).
Fixpoint err_deep (e : err) : P e :=
  match e with
  | New i m => HN i m
  | Store i op None => H0 i op
  | Store i op (Some x) => HS i op x (err_deep x)
  | Errorf i b x a => HE i b x a (err_deep x)
  end.
End ErrInd.

(** *** C222 *)
(** errors.Is finds exactly the errors in the chain: none that was wrapped is missed, and
    no kind is reported that is not there. *)
Theorem errors_is_exact : forall e target, errors_is e target = true <-> exists x, in_chain x e /\ ident x = ident target.
Proof.
  intros e target. split.
  - induction e as [i m|i op|i op x IH|i b x a IH] using err_deep; cbn [errors_is ident]; rewrite ?orb_diag, ?orb_false_r; intros H.
    + apply Nat.eqb_eq in H. eexists. split; [constructor|exact H].
    + apply Nat.eqb_eq in H. eexists. split; [constructor|exact H].
    + apply orb_true_iff in H as [H|H]; [apply Nat.eqb_eq in H; eexists; split; [constructor|exact H]|]. destruct (IH H) as (y & C & E). exists y. split; [now constructor|exact E].
    + apply orb_true_iff in H as [H|H]; [apply Nat.eqb_eq in H; eexists; split; [constructor|exact H]|]. destruct (IH H) as (y & C & E). exists y. split; [now constructor|exact E].
  - intros (x & C & E). induction C as [e|e i op x C IH|e i b x a C IH].
    + destruct e; cbn [errors_is ident] in *; rewrite E, Nat.eqb_refl; reflexivity.
    + cbn [errors_is]. rewrite (IH E). now rewrite !orb_true_r.
    + cbn [errors_is]. rewrite (IH E). now rewrite !orb_true_r.
Qed.
(** Whatever context is put around an error, the caller can tell its kind: it is [target]
    exactly if the cause is. *)
Theorem error_kind_kept : forall n ls cause target, ident target < n -> errors_is (layered n ls cause) target = errors_is cause target.
Proof.
  intros n ls. revert n. induction ls as [|[op|b a] ls IH]; intros n cause target H; [reflexivity| |]; cbn [layered errors_is ident];
    rewrite (IH (S n) cause target) by lia; (assert (Nat.eqb n (ident target) = false) as -> by (apply Nat.eqb_neq; lia)); cbn [orb]; [apply orb_diag|reflexivity].
Qed.
(** And its text is there. *)
Theorem error_text_kept : forall n ls cause, error_text (layered n ls cause) = layered_text ls (error_text cause).
Proof.
  intros n ls. revert n. induction ls as [|[op|b a] ls IH]; intros n cause; [reflexivity| |]; cbn [layered error_text layered_text]; rewrite IH; [|reflexivity].
  destruct op; reflexivity.
Qed.
(** No error is made out of success. *)
Theorem wrap_error_nil : forall id op e, wrap_error id op e = None <-> e = None.
Proof. intros id op [e|]; cbn; split; congruence. Qed.
(** The errors of the package are told apart. *)
Theorem kinds_distinct : forall a b, In a [ErrInvalidDimension; ErrNotFound; ErrInvalidVector; ErrStoreClosed; ErrInvalidConfig; ErrEmptyQuery; ErrEmbedderNotConfigured; ErrEmptyText; ErrEmbeddingFailed] ->
  In b [ErrInvalidDimension; ErrNotFound; ErrInvalidVector; ErrStoreClosed; ErrInvalidConfig; ErrEmptyQuery; ErrEmbedderNotConfigured; ErrEmptyText; ErrEmbeddingFailed] ->
  errors_is a b = true -> a = b.
Proof. intros a b Ha Hb. cbn in Ha, Hb. intuition (subst; cbn in *; congruence). Qed.
Example error_kind_kept_ex : exists e, wrap_error 20 "knowledge_get" (Some (Errorf 21 "chunk c1: " (Store 22 "get_by_id" (Some ErrNotFound)) "")) = Some e /\
  errors_is e ErrNotFound = true /\ errors_is e ErrStoreClosed = false /\
  error_text e = "vectorstore: knowledge_get: chunk c1: vectorstore: get_by_id: embedding not found" /\
  e = layered 20 [InOp "knowledge_get"; Around "chunk c1: " ""; InOp "get_by_id"] ErrNotFound.
Proof. eexists. repeat split; vm_compute; reflexivity. Qed.
Print Assumptions errors_is_exact.
Print Assumptions error_kind_kept.
Print Assumptions error_text_kept.
Print Assumptions wrap_error_nil.
Print Assumptions kinds_distinct.

(** *** C223 *)
(** A failing embedder is reported as ErrEmbeddingFailed, with the text of its error; a
    working one is not. *)
Theorem embedding_failure_reported : forall V T id (embedded : V + err) (rest : V -> T + err), (forall v e, rest v = inr e -> errors_is e ErrEmbeddingFailed = false) ->
  forall e, with_embedding id embedded rest = inr e ->
  (errors_is e ErrEmbeddingFailed = true <-> exists cause, embedded = inr cause) /\
  (forall cause, embedded = inr cause -> error_text e = "cortexdb: embedding failed: " ++ error_text cause).
Proof.
  intros V T id [v|c] rest H e E; cbn in E.
  - split; [split; [rewrite (H v e E); discriminate|intros (c & X); discriminate]|intros c X; discriminate].
  - injection E as <-. split; [split; [intros _; eauto|intros _; cbn; now rewrite orb_true_r]|]. intros c' [= <-]. reflexivity.
Qed.
Example embedding_failure_reported_ex : exists e, with_embedding (V := nat) (T := nat) 30 (inr (New 40 "context canceled")) (fun v => inl v) = inr e /\
  errors_is e ErrEmbeddingFailed = true /\ error_text e = "cortexdb: embedding failed: context canceled".
Proof. eexists. repeat split; vm_compute; reflexivity. Qed.
Print Assumptions embedding_failure_reported.
(** Refuted as to its cause: whatever the embedder's error, a cancelled context among them,
    errors.Is does not find it. *)
Theorem embedding_cause_refuted : forall V T id (rest : V -> T + err) cause target, ident target <> id -> errors_is target ErrEmbeddingFailed = false ->
  errors_is cause target = true -> exists e, with_embedding id (inr cause) rest = inr e /\ errors_is e target = false.
Proof.
  intros V T id rest cause target N F _. eexists. split; [reflexivity|].
  assert (A : Nat.eqb id (ident target) = false) by (apply Nat.eqb_neq; auto).
  assert (B : Nat.eqb (ident ErrEmbeddingFailed) (ident target) = false).
  { apply Nat.eqb_neq. intros E. assert (C : errors_is target ErrEmbeddingFailed = true) by (apply errors_is_exact; exists target; split; [constructor|auto]). congruence. }
  change ((Nat.eqb id (ident target) || (Nat.eqb (ident ErrEmbeddingFailed) (ident target) || false)) = false). rewrite A, B. reflexivity.
Qed.
Example embedding_cause_refuted_ex : exists cause : err, ident cause <> 30 /\ errors_is cause ErrEmbeddingFailed = false /\ errors_is cause cause = true.
Proof. exists (New 40 "context canceled"). repeat split; vm_compute; congruence. Qed.
Print Assumptions embedding_cause_refuted.
