(** Properties of periodic saving. *)
From Coq Require Import List Bool Arith Lia.
From Verif Require Import AutoModel.
Import ListNotations.

(** The versions an on-disk snapshot may have. *)
Definition from_past (o : option nat) (now : nat) : Prop := match o with None => True | Some v => v <= now end.
Definition pc_past (s : astate) (p : save_pc) : Prop := match p with PutNodes v => v <= a_ix s | PutQuant q => q <= a_quant s | _ => True end.
Definition PInv (s : astate) : Prop :=
  from_past (d_nodes s) (a_ix s) /\ from_past (d_quant s) (a_quant s) /\
  (match a_close s with CSaving p => pc_past s p | _ => True end) /\ (match a_auto s with ASaving p => pc_past s p | _ => True end).

Lemma past_event c s e : PInv s -> PInv (a_event c s e).
Proof.
  intros (N & Q & C & A). destruct e as [t|ok|ok|]; cbn [a_event].
  - unfold write_step. destruct (_ || _); [repeat split; auto|]. unfold PInv; cbn. unfold from_past in *.
    split; [destruct (d_nodes s); auto; lia|]. split; [destruct (d_quant s), t; auto; lia|].
    split; [destruct (a_close s) as [|p| |]; auto|destruct (a_auto s) as [| |p|]; auto]; destruct p; cbn in *; try destruct t; auto; lia.
  - unfold close_step. destruct (a_close s) as [|[|v| |q|]| |] eqn:E; cbn [save_step set_close]; try destruct (ok && d_open s); unfold PInv; cbn; rewrite ?E; repeat split; cbn in *; auto.
  - unfold auto_step. destruct (a_auto s) as [| |[|v| |q|]|] eqn:E; cbn [save_step set_auto]; try destruct (close_holds s); try destruct (a_closed s); try destruct (ok && d_open s); unfold PInv; cbn; rewrite ?E; repeat split; cbn in *; auto.
  - unfold fire. destruct (a_timer s); [|repeat split; auto]. destruct (a_auto s) eqn:E; unfold PInv; cbn; rewrite ?E; repeat split; auto.
Qed.
(** *** C226 *)
(** A snapshot on disk is always that of an index the store had. *)
Theorem snapshot_from_past : forall c es, from_past (d_nodes (a_events c (opened c) es)) (a_ix (a_events c (opened c) es)) /\
  from_past (d_quant (a_events c (opened c) es)) (a_quant (a_events c (opened c) es)).
Proof.
  intros c es. assert (H : forall s, PInv s -> PInv (a_events c s es)).
  { induction es as [|e es IH]; intros s H; [exact H|]. cbn. apply IH. now apply past_event. }
  destruct (H (opened c)) as (A & B & _); [repeat split|]. auto.
Qed.

(** Close, as far as it got, after an auto-save was not under way when it took the mutex. *)
Definition QInv (ix q : nat) (s : astate) : Prop :=
  a_ix s = ix /\ a_quant s = q /\ (match a_auto s with AIdle => True | ACheck => True | _ => False end) /\
  match a_close s with
  | CNot => False
  | CSaving p => a_closed s = false /\ d_open s = true /\
      match p with SerNodes => True | PutNodes v => v = ix | SerQuant => d_nodes s = Some ix | PutQuant k => d_nodes s = Some ix /\ k = q | Saved => True end
  | CFlagged => a_closed s = true
  | CReturned => a_closed s = true /\ d_open s = false
  end.
Lemma q_event c s e ix q : QInv ix q s -> QInv ix q (a_event c s e).
Proof.
  intros (I & Q & A & C). destruct e as [t|ok|ok|]; cbn [a_event].
  - unfold write_step. replace (close_holds s || a_closed s) with true; [split; auto|]. unfold close_holds. destruct (a_close s); try contradiction; auto. destruct C as [-> _]. reflexivity.
  - unfold close_step. destruct (a_close s) as [|[|v| |k|]| |] eqn:E; try contradiction; cbn [save_step set_close]; try destruct (ok && d_open s); unfold QInv; cbn; rewrite ?E; intuition (subst; auto).
  - unfold auto_step. destruct (a_auto s) as [| |p|] eqn:E; try contradiction; [unfold QInv; rewrite E; tauto|].
    unfold close_holds. destruct (a_close s) eqn:Ec; try contradiction; try (unfold QInv; rewrite E, Ec; tauto).
    destruct C as [F X]. rewrite F. unfold QInv; cbn. rewrite Ec. tauto.
  - unfold fire. destruct (a_timer s); [|repeat split; auto]. destruct (a_auto s) eqn:E; try contradiction; unfold QInv; cbn; rewrite ?E; tauto.
Qed.
Lemma q_events c es ix q : forall s, QInv ix q s -> QInv ix q (a_events c s es).
Proof. induction es as [|e es IH]; intros s H; [exact H|]. cbn. apply IH. now apply q_event. Qed.

(** All statements of the events succeed. *)
Definition all_succeed (es : list aevent) : Prop := forall e, In e es -> e <> EClose false.
(** With working statements. *)
Definition RInv (ix q : nat) (s : astate) : Prop := QInv ix q s /\
  match a_close s with CSaving Saved | CFlagged | CReturned => d_nodes s = Some ix /\ d_quant s = Some q | _ => True end.
Lemma r_event c s e ix q : e <> EClose false -> RInv ix q s -> RInv ix q (a_event c s e).
Proof.
  intros Ne [QI R]. split; [now apply q_event|]. destruct QI as (I & Q & A & C). destruct e as [t|ok|ok|]; cbn [a_event].
  - unfold write_step. replace (close_holds s || a_closed s) with true; [exact R|]. unfold close_holds. destruct (a_close s); try contradiction; auto. destruct C as [-> _]. reflexivity.
  - destruct ok; [|congruence]. unfold close_step. destruct (a_close s) as [|[|v| |k|]| |] eqn:E; try contradiction; cbn [save_step set_close]; cbn; rewrite ?E; auto.
    + destruct C as (_ & -> & _). cbn. auto.
    + destruct C as (_ & -> & D & ->). cbn. auto.
  - unfold auto_step. destruct (a_auto s) as [| |p|] eqn:E; try contradiction; [exact R|].
    destruct (close_holds s); [exact R|]. destruct (a_closed s) eqn:Ec; cbn.
    + exact R.
    + exact R.
  - unfold fire. destruct (a_timer s); [|exact R]. destruct (a_auto s); try contradiction; exact R.
Qed.
(** When no periodic save is under way as Close takes the mutex, the file holds exactly the
    index and quantiser the store had, once Close has returned and its statements succeeded,
    whatever happens meanwhile or afterwards. *)
Theorem close_saves_current : forall c before after, let s := a_events c (opened c) before in
  a_close s = CNot -> (a_auto s = AIdle \/ a_auto s = ACheck) -> all_succeed after ->
  let s' := a_events c s (EClose true :: after) in
  a_close s' = CReturned -> d_nodes s' = Some (a_ix s) /\ d_quant s' = Some (a_quant s) /\ a_ix s' = a_ix s.
Proof.
  intros c before after s Hc Ha Hs s' Hr.
  assert (B : forall es s0, (a_close s0 = CNot -> a_closed s0 = false /\ d_open s0 = true) -> a_close (a_events c s0 es) = CNot -> a_closed (a_events c s0 es) = false /\ d_open (a_events c s0 es) = true).
  { clear. induction es as [|e es IH]; intros s0 H0 H; [auto|]. cbn [a_events fold_left] in *. apply (IH (a_event c s0 e)); [|exact H]. clear IH H. intros H.
    destruct e as [t|ok|ok|]; cbn [a_event] in *.
    - unfold write_step in *. destruct (_ || _); auto.
    - unfold close_step in *. destruct (a_close s0) as [|[|v| |k|]| |] eqn:E; cbn [save_step] in H; try destruct (ok && d_open s0); cbn in H; try discriminate; congruence.
    - unfold auto_step in *. destruct (a_auto s0) as [| |[|v| |k|]|]; cbn [save_step] in *; try destruct (close_holds s0); try destruct (a_closed s0) eqn:Ec; try destruct (ok && d_open s0) eqn:Eo; cbn in *; rewrite ?Ec; auto.
    - unfold fire in *. destruct (a_timer s0); auto. destruct (a_auto s0); auto. }
  destruct (B before (opened c)) as [B1 B2]; [auto|exact Hc|]. fold s in B1, B2.
  assert (R : forall es s0, RInv (a_ix s) (a_quant s) s0 -> all_succeed es -> RInv (a_ix s) (a_quant s) (a_events c s0 es)).
  { induction es as [|e es IH]; intros s0 H0 H; [exact H0|]. cbn [a_events fold_left]. apply IH; [|intros x Hx; apply H; now right]. apply r_event; [apply H; now left|exact H0]. }
  assert (R0 : RInv (a_ix s) (a_quant s) (a_event c s (EClose true))).
  { cbn [a_event]. unfold close_step. rewrite Hc. split; cbn; [|exact I]. unfold QInv; cbn. repeat split; auto. destruct Ha as [->| ->]; auto. }
  pose proof (R after _ R0 Hs) as [(X & _ & _) Y]. change (a_events c (a_event c s (EClose true)) after) with s' in X, Y. rewrite Hr in Y. tauto.
Qed.
Example close_saves_current_ex : let c := {| ac_enabled := true; ac_on_close := true; ac_min_changes := 100 |} in
  let s := a_events c (opened c) [EWrite false; EFire; EAuto true; EAuto true; EAuto true; EAuto true; EAuto true; EAuto true; EAuto true; EWrite true; EFire] in
  a_close s = CNot /\ a_auto s = ACheck /\ a_ix s = 2 /\ d_nodes s = Some 1 /\
  let s' := a_events c s [EClose true; EAuto true; EClose true; EClose true; EWrite true; EClose true; EClose true; EClose true; EClose true; EAuto true; EWrite false] in
  a_close s' = CReturned /\ d_nodes s' = Some 2 /\ d_quant s' = Some 1.
Proof. repeat split. Qed.
Print Assumptions snapshot_from_past.
Print Assumptions close_saves_current.
(** Refuted otherwise: a periodic save that had serialised the index writes it after Close
    has written the newer one, and the file is left with the older index although Close
    succeeded; likewise with a quantiser of one save and nodes of the other. *)
Theorem close_saves_current_refuted : forall c, ac_enabled c = true -> exists es, ~ In (EClose false) es /\ ~ In (EAuto false) es /\
  let s := a_events c (opened c) es in a_close s = CReturned /\ a_ix s = 2 /\ a_quant s = 1 /\ d_nodes s = Some 1 /\ d_quant s = Some 1.
Proof.
  intros c E. exists [EWrite false; EFire; EAuto true; EAuto true; EWrite true; EClose true; EClose true; EClose true; EClose true; EClose true; EAuto true; EClose true; EClose true].
  split; [cbn; intuition congruence|]. split; [cbn; intuition congruence|]. unfold opened. rewrite E. repeat split.
Qed.
Print Assumptions close_saves_current_refuted.

(** *** C227 *)
Definition DInv (n q : option nat) (s : astate) : Prop := a_close s = CReturned /\ a_closed s = true /\ d_open s = false /\ d_nodes s = n /\ d_quant s = q.
Lemma d_event c s e n q : DInv n q s -> DInv n q (a_event c s e).
Proof.
  intros (C & F & O & N & Q). destruct e as [t|ok|ok|]; cbn [a_event].
  - unfold write_step. rewrite F, orb_true_r. repeat split; auto.
  - unfold close_step. rewrite C. repeat split; auto.
  - unfold auto_step, close_holds. rewrite C, F. destruct (a_auto s) as [| |[|v| |k|]|]; cbn [save_step]; rewrite ?O, ?andb_false_r; repeat split; cbn; auto.
  - unfold fire. destruct (a_timer s); [|repeat split; auto]. destruct (a_auto s); repeat split; auto.
Qed.
Lemma returned_shut c es : forall s, (a_close s = CReturned -> a_closed s = true /\ d_open s = false) -> (a_close s = CFlagged -> a_closed s = true) ->
  let s' := a_events c s es in (a_close s' = CReturned -> a_closed s' = true /\ d_open s' = false) /\ (a_close s' = CFlagged -> a_closed s' = true).
Proof.
  induction es as [|e es IH]; intros s H1 H2; [split; auto|]. cbn [a_events fold_left]. apply IH; clear IH.
  - destruct e as [t|ok|ok|]; cbn [a_event].
    + unfold write_step. destruct (close_holds s || a_closed s) eqn:E; auto.
    + unfold close_step. destruct (a_close s) as [|[|v| |k|]| |] eqn:E; cbn [save_step]; try destruct (ok && d_open s); cbn; auto; try discriminate; rewrite ?E; auto.
    + unfold auto_step. destruct (a_auto s) as [| |[|v| |k|]|]; cbn [save_step]; try destruct (close_holds s); try destruct (a_closed s) eqn:Ec; try destruct (ok && d_open s); cbn; rewrite ?Ec; auto.
    + unfold fire. destruct (a_timer s); auto. destruct (a_auto s); auto.
  - destruct e as [t|ok|ok|]; cbn [a_event].
    + unfold write_step. destruct (close_holds s || a_closed s) eqn:E; auto.
    + unfold close_step. destruct (a_close s) as [|[|v| |k|]| |] eqn:E; cbn [save_step]; try destruct (ok && d_open s); cbn; auto; try discriminate; rewrite ?E; auto; discriminate.
    + unfold auto_step. destruct (a_auto s) as [| |[|v| |k|]|]; cbn [save_step]; try destruct (close_holds s); try destruct (a_closed s) eqn:Ec; try destruct (ok && d_open s); cbn; rewrite ?Ec; auto.
    + unfold fire. destruct (a_timer s); auto. destruct (a_auto s); auto.
Qed.
(** After Close has returned the file does not change any more, whatever periodic save was
    under way and whatever is called. *)
Theorem closed_file_stays : forall c before after, let s := a_events c (opened c) before in a_close s = CReturned ->
  d_nodes (a_events c s after) = d_nodes s /\ d_quant (a_events c s after) = d_quant s /\ a_ix (a_events c s after) = a_ix s.
Proof.
  intros c before after s Hr. destruct (returned_shut c before (opened c)) as [X _]; [discriminate|discriminate|]. fold s in X. destruct (X Hr) as [F O].
  assert (H : forall es s0, DInv (d_nodes s) (d_quant s) s0 -> DInv (d_nodes s) (d_quant s) (a_events c s0 es) /\ a_ix (a_events c s0 es) = a_ix s0).
  { induction es as [|e es IH]; intros s0 D; [auto|]. cbn [a_events fold_left]. destruct (IH (a_event c s0 e)) as [A B]; [now apply d_event|]. split; [exact A|].
    unfold a_events in B. rewrite B. destruct D as (C1 & F1 & O1 & _). destruct e as [t|ok|ok|]; cbn [a_event].
    - unfold write_step. now rewrite F1, orb_true_r.
    - unfold close_step. now rewrite C1.
    - unfold auto_step, close_holds. rewrite C1, F1. destruct (a_auto s0) as [| |[|v| |k|]|]; cbn [save_step]; rewrite ?O1, ?andb_false_r; reflexivity.
    - unfold fire. destruct (a_timer s0); auto. destruct (a_auto s0); auto. }
  destruct (H after s) as [(_ & _ & _ & A & B) I]; [repeat split; auto|]. auto.
Qed.
(** And saving comes to its end: the timer fires at most once more. *)
Definition starts (s s' : astate) : nat := match a_auto s, a_auto s' with AIdle, ACheck => 1 | _, _ => 0 end.
Fixpoint firings (c : aconf) (s : astate) (es : list aevent) : nat :=
  match es with [] => 0 | e :: r => starts s (a_event c s e) + firings c (a_event c s e) r end.
Theorem autosave_ends : forall c before after, let s := a_events c (opened c) before in a_close s = CReturned -> firings c s after <= 1.
Proof.
  intros c before after s Hr. destruct (returned_shut c before (opened c)) as [X _]; [discriminate|discriminate|]. fold s in X. destruct (X Hr) as [F O].
  assert (T : forall es s0, (a_timer s0 = true -> a_auto s0 = AIdle) -> (a_timer (a_events c s0 es) = true -> a_auto (a_events c s0 es) = AIdle)).
  { clear. induction es as [|e es IH]; intros s0 H; [exact H|]. cbn [a_events fold_left]. apply IH. clear IH. destruct e as [t|ok|ok|]; cbn [a_event].
    - unfold write_step. destruct (_ || _); auto.
    - unfold close_step. destruct (a_close s0) as [|[|v| |k|]| |]; cbn [save_step]; try destruct (ok && d_open s0); cbn; auto.
    - unfold auto_step. destruct (a_auto s0) as [| |[|v| |k|]|] eqn:E; cbn [save_step]; try destruct (close_holds s0); try destruct (a_closed s0); try destruct (ok && d_open s0); cbn; rewrite ?E; auto; intros Y; specialize (H Y); discriminate.
    - unfold fire. destruct (a_timer s0) eqn:Et; [|intros; congruence]. rewrite (H eq_refl). cbn. discriminate. }
  assert (T0 : a_timer s = true -> a_auto s = AIdle) by (apply (T before (opened c)); reflexivity).
  (* at most what is left *)
  assert (K : forall es s0, a_close s0 = CReturned -> a_closed s0 = true -> (a_timer s0 = true -> a_auto s0 = AIdle) ->
    firings c s0 es <= (if a_timer s0 then 1 else 0) + match a_auto s0 with ASaving _ | ATimer => 1 | _ => 0 end).
  { clear. induction es as [|e es IH]; intros s0 C F T; [cbn; lia|]. cbn [firings]. destruct e as [t|ok|ok|]; cbn [a_event].
    - unfold write_step. rewrite F, orb_true_r. unfold starts. specialize (IH s0 C F T). destruct (a_auto s0); lia.
    - unfold close_step. rewrite C. unfold starts. specialize (IH s0 C F T). destruct (a_auto s0); lia.
    - unfold auto_step, close_holds. rewrite C, F. unfold starts. destruct (a_auto s0) as [| |p|] eqn:E.
      + specialize (IH s0 C F (fun _ => E)). rewrite E in IH. rewrite E. lia.
      + specialize (IH (set_auto s0 (a_timer s0) AIdle) C F (fun _ => eq_refl)). cbn in IH |- *. lia.
      + assert (Tf : a_timer s0 = false) by (destruct (a_timer s0); auto; discriminate (T eq_refl)).
        destruct p as [|v| |k|]; cbn [save_step]; try destruct (ok && d_open s0);
        match goal with |- context [firings c ?x es] => specialize (IH x C F) end; cbn in IH |- *; rewrite Tf in IH |- *; specialize (IH ltac:(discriminate)); lia.
      + assert (Tf : a_timer s0 = false) by (destruct (a_timer s0); auto; discriminate (T eq_refl)).
        specialize (IH (set_auto s0 true AIdle) C F (fun _ => eq_refl)). cbn in IH |- *. rewrite Tf. lia.
    - unfold fire, starts. destruct (a_timer s0) eqn:Et.
      + rewrite (T eq_refl). specialize (IH (set_auto s0 false ACheck) C F ltac:(discriminate)). cbn in IH |- *. lia.
      + specialize (IH s0 C F). rewrite Et in IH. specialize (IH ltac:(discriminate)). destruct (a_auto s0); lia. }
  specialize (K after s Hr F T0). destruct (a_timer s) eqn:Et; [rewrite (T0 eq_refl) in K; lia|destruct (a_auto s); lia].
Qed.
Example autosave_ends_ex : let c := {| ac_enabled := true; ac_on_close := true; ac_min_changes := 100 |} in
  let s := a_events c (opened c) (EWrite true :: repeat (EClose true) 7) in
  a_close s = CReturned /\ firings c s [EFire; EAuto true; EFire; EFire] = 1 /\ d_nodes s = Some 1.
Proof. repeat split. Qed.
Print Assumptions closed_file_stays.
Print Assumptions autosave_ends.

(** *** C228 *)
(** Without periodic saving nothing is saved before Close. *)
Theorem disabled_autosave : forall c es, ac_enabled c = false -> (forall ok, ~ In (EClose ok) es) ->
  d_nodes (a_events c (opened c) es) = None /\ d_quant (a_events c (opened c) es) = None.
Proof.
  intros c es E H. assert (K : forall s, a_auto s = AIdle -> a_timer s = false -> d_nodes s = None -> d_quant s = None -> d_nodes (a_events c s es) = None /\ d_quant (a_events c s es) = None).
  { clear E. induction es as [|e es IH]; intros s A T N Q; [auto|]. cbn [a_events fold_left].
    destruct e as [t|ok|ok|]; cbn [a_event].
    - unfold write_step. destruct (_ || _); apply IH; auto; intros ok X; apply (H ok); now right.
    - exfalso. apply (H ok). now left.
    - unfold auto_step. rewrite A. apply IH; auto; intros ok' X; apply (H ok'); now right.
    - unfold fire. rewrite T. apply IH; auto; intros ok X; apply (H ok); now right. }
  apply K; auto.
Qed.
Example disabled_autosave_ex : let c := {| ac_enabled := false; ac_on_close := true; ac_min_changes := 100 |} in
  d_nodes (a_events c (opened c) [EWrite true; EFire; EAuto true; EAuto true; EAuto true]) = None.
Proof. reflexivity. Qed.
Print Assumptions disabled_autosave.
(** Refuted as to the other two settings, whatever they are: Close saves also with SaveOnClose
    off, and a single change, or none, is saved also if MinChanges asks for more. *)
Theorem autosave_settings_refuted : forall min on_close,
  (let c := {| ac_enabled := true; ac_on_close := on_close; ac_min_changes := min |} in
   d_nodes (a_events c (opened c) [EFire; EAuto true; EAuto true; EAuto true]) = Some 0) /\
  (let c := {| ac_enabled := false; ac_on_close := on_close; ac_min_changes := min |} in
   d_nodes (a_events c (opened c) (EWrite false :: repeat (EClose true) 7)) = Some 1).
Proof. intros min on_close. split; reflexivity. Qed.
Print Assumptions autosave_settings_refuted.
