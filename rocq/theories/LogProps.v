(** Properties of the logger. *)
From Coq Require Import List String Ascii ZArith Bool Lia.
From Verif Require Import LogModel LogSpec LogProofs.
Import ListNotations.
Local Open Scope string_scope.

(** Goroutine [i] logs the messages [es i], in this order, all with logger [l]. *)
Definition all_on (l : logger) (es : nat -> list entry) : lworld := log_start (fun i => map (call_of l) (es i)).
Definition log_finished (w : lworld) (i : nat) : Prop := t_in (w_threads w i) = None /\ t_todo (w_threads w i) = [].

(** *** C220 *)
(** Goroutines that share one logger: when they have finished, under whatever schedule, the
    log consists of whole lines, those of every goroutine in its order, none missing. *)
Theorem log_lines_whole : forall mu min base es sched,
  (forall i, log_finished (log_run (all_on (log_with mu (new_logger 0 min) (flat base)) es) sched) i) ->
  exists entries, woven (fun i => expected min base (es i)) entries /\
    text (w_out (log_run (all_on (log_with mu (new_logger 0 min) (flat base)) es) sched)) = text (map snd entries).
Proof.
  intros mu min base es sched F. set (l := log_with mu _ _) in *. assert (B : forall i, lines (map (call_of l) (es i)) = expected min base (es i)) by (intros i; exact (lines_expected l base (es i) eq_refl)).
  destruct (inv_run mu _ sched _ (inv_start mu (fun i => map (call_of l) (es i)) ltac:(intros i c H; apply in_map_iff in H as (e & <- & _); reflexivity))) as [_ H].
  change (log_run (log_start _) sched) with (log_run (all_on l es) sched) in H.
  destruct H as [(_ & _ & D & Ho & Hl)|(_ & a & ps & wr & D & Ha & _)]; [|destruct (F a) as [X _]; congruence].
  exists D. split; [|exact Ho]. intros i. specialize (Hl i). destruct (F i) as [_ X]. rewrite X, app_nil_r in Hl. unfold mine in Hl. rewrite Hl. apply B.
Qed.
(** Cut off at any moment, it is whole lines followed by the beginning of at most one. *)
Theorem log_cut_anywhere : forall mu min base es sched,
  exists entries begun rest, text (w_out (log_run (all_on (log_with mu (new_logger 0 min) (flat base)) es) sched)) = text (map snd entries) ++ begun /\
    forall i, exists later, (map snd (filter (fun e => Nat.eqb (fst e) i) entries) ++ later = expected min base (es i))%list /\
      (begun = "" \/ (exists j later', (map snd (filter (fun e => Nat.eqb (fst e) j) entries) ++ (begun ++ rest)%string :: later' = expected min base (es j))%list)).
Proof.
  intros mu min base es sched. set (l := log_with mu _ _) in *. assert (B : forall i, lines (map (call_of l) (es i)) = expected min base (es i)) by (intros i; exact (lines_expected l base (es i) eq_refl)).
  destruct (inv_run mu _ sched _ (inv_start mu (fun i => map (call_of l) (es i)) ltac:(intros i c H; apply in_map_iff in H as (e & <- & _); reflexivity))) as [_ H].
  change (log_run (log_start _) sched) with (log_run (all_on l es) sched) in H.
  destruct H as [(_ & _ & D & Ho & Hl)|(_ & a & ps & wr & D & Ha & _ & Ho & Hl)].
  - exists D, "", "". split; [now rewrite app_s_nil|]. intros i. eexists. split; [|now left]. rewrite <- B. apply Hl.
  - exists D, (text wr), (text ps). split; [exact Ho|]. intros i. eexists. split; [rewrite <- B; apply Hl|].
    right. exists a. eexists. rewrite <- B, <- text_app. specialize (Hl a). rewrite Nat.eqb_refl in Hl. exact Hl.
Qed.
(** Nobody waits for ever: from every state that can be reached, every goroutine can be brought to its end. *)
Theorem log_never_stuck : forall mu min base es sched i,
  exists more, log_finished (log_run (all_on (log_with mu (new_logger 0 min) (flat base)) es) (sched ++ more)) i.
Proof.
  intros mu min base es sched i. set (l := log_with mu _ _) in *.
  destruct (inv_run mu _ sched _ (inv_start mu (fun i => map (call_of l) (es i)) ltac:(intros j c H; apply in_map_iff in H as (e & <- & _); reflexivity))) as [K H].
  change (log_run (log_start _) sched) with (log_run (all_on l es) sched) in *. set (w := log_run (all_on l es) sched) in *.
  destruct H as [(Hh & Hn & _)|(_ & a & ps & wr & D & Ha & Hn & _)].
  - destruct (alone mu i _ w eq_refl (Hn i) (K i) Hh) as (s & P & Q). exists s. rewrite run_app. split; auto.
  - destruct (drain mu a ps w Ha) as (A & F & C & O). set (w2 := log_run w _) in *.
    assert (Ei : t_in (w_threads w2 i) = None /\ t_todo (w_threads w2 i) = t_todo (w_threads w i)).
    { destruct (Nat.eq_dec i a) as [->|N]; [auto|]. rewrite O by auto. auto. }
    destruct Ei as [E1 E2]. destruct (alone mu i _ w2 eq_refl E1) as (s & P & Q); [intros c Hc; rewrite E2 in Hc; eapply K; eauto|exact F|].
    exists (repeat a (S (List.length ps)) ++ s)%list. rewrite !run_app. fold w. fold w2. split; auto.
Qed.
Definition two_logs (i : nat) : list entry :=
  match i with
  | 0 => [{| e_time := "t1"; e_level := 1; e_msg := "hello"; e_pairs := [("k", "v")] |}; {| e_time := "t3"; e_level := 0; e_msg := "quiet"; e_pairs := [] |}]
  | 1 => [{| e_time := "t2"; e_level := 3; e_msg := "bad"; e_pairs := [] |}]
  | _ => []
  end%nat.
Example log_lines_whole_ex :
  text (w_out (log_run (all_on (log_with 1 (new_logger 0 1) (flat [("component", "store")])) two_logs) [1; 0; 1; 0; 1; 1; 0; 1; 0; 0; 0; 0; 0; 0; 0; 0; 0])%nat) =
  "t2 [ERROR]  component=store: bad" ++ newline ++ "t1 [INFO]  component=store k=v: hello" ++ newline /\
  forall i, log_finished (log_run (all_on (log_with 1 (new_logger 0 1) (flat [("component", "store")])) two_logs) [1; 0; 1; 0; 1; 1; 0; 1; 0; 0; 0; 0; 0; 0; 0; 0; 0])%nat i.
Proof. split; [vm_compute; reflexivity|]. intros [|[|i]]; split; vm_compute; reflexivity. Qed.
Print Assumptions log_lines_whole.
Print Assumptions log_cut_anywhere.
Print Assumptions log_never_stuck.
(** Refuted for a logger and one made from it by With, the case of a program that gives its
    own logger to the store: the two have different mutexes, and their lines run into each other. *)
Theorem log_lines_refuted : exists (own : logger) (a b : entry) sched,
  let store := log_with 1 own (flat [("component", "store")]) in
  let w := log_run (log_start (fun i => match i with 0 => [call_of own a] | 1 => [call_of store b] | _ => [] end%nat)) sched in
  (forall i, log_finished w i) /\
  text (w_out w) <> text (expected 0 [] [a] ++ expected 0 [("component", "store")] [b]) /\
  text (w_out w) <> text (expected 0 [("component", "store")] [b] ++ expected 0 [] [a]) /\
  text (w_out w) = "t1 [INFO] t2 [INFO] : mine" ++ newline ++ " component=store: store's" ++ newline.
Proof.
  exists (new_logger 0 0), {| e_time := "t1"; e_level := 1; e_msg := "mine"; e_pairs := [] |}, {| e_time := "t2"; e_level := 1; e_msg := "store's"; e_pairs := [] |}, [0; 0; 1; 1; 0; 0; 1; 1; 1]%nat.
  cbv zeta. split; [intros [|[|i]]; split; vm_compute; reflexivity|]. split; [vm_compute; discriminate|]. split; [vm_compute; discriminate|]. vm_compute. reflexivity.
Qed.
Print Assumptions log_lines_refuted.

(** *** C221 *)
Fixpoint with_all (a : any_logger) (ws : list (list (string * string))) : any_logger :=
  match ws with [] => a | w :: r => with_all (any_with (List.length ws) a (flat w)) r end.
(** A message shows its time, its level, every pair given to With and to the call, in their
    order, and its text, exactly if it reaches the level the logger was made with. *)
Theorem log_shows_pairs : forall mu min ws e,
  text (any_log (with_all (Default (new_logger mu min)) ws) (e_level e) (e_time e) (e_msg e) (flat (e_pairs e))) = text (expected min (List.concat ws) [e]).
Proof.
  intros mu min ws e.
  assert (H : forall ws l base, lg_kv l = flat base -> lg_min l = min ->
    exists l', with_all (Default l) ws = Default l' /\ lg_min l' = min /\ lg_kv l' = flat (base ++ List.concat ws)).
  { clear. induction ws as [|w ws IH]; intros l base K M; [exists l; rewrite app_nil_r; auto|]. cbn [with_all any_with List.concat].
    destruct (IH (log_with (List.length (w :: ws)) l (flat w)) (base ++ w)%list) as (l' & A & B & C); [cbn; now rewrite K, flat_app|exact M|]. exists l'. rewrite <- app_assoc in C. auto. }
  destruct (H ws (new_logger mu min) [] eq_refl eq_refl) as (l & -> & M & K). cbn [app] in K. cbn [any_log].
  change {| c_log := l; c_level := e_level e; c_time := e_time e; c_msg := e_msg e; c_kv := flat (e_pairs e) |} with (call_of l e).
  rewrite enabled_leb. cbn [c_log c_level call_of]. rewrite M. unfold expected. cbn [filter]. destruct (min <=? e_level e)%Z; [|reflexivity]. cbn [map].
  rewrite (pieces_line l e _ K). cbn. reflexivity.
Qed.
(** The logger that discards messages writes nothing, whatever With adds to it. *)
Theorem nop_logger_silent : forall ws level time msg kv, any_log (with_all Nop ws) level time msg kv = [].
Proof. intros ws level time msg kv. assert (H : with_all Nop ws = Nop) by (induction ws; auto). now rewrite H. Qed.
Example log_shows_pairs_ex : text (any_log (with_all (Default (new_logger 0 1)) [[("component", "store")]; [("a", "1"); ("b", "2")]]) 2 "t" "msg" (flat [("id", "x")])) =
  "t [WARN]  component=store a=1 b=2 id=x: msg" ++ newline.
Proof. vm_compute. reflexivity. Qed.
Print Assumptions log_shows_pairs.
Print Assumptions nop_logger_silent.
(** Refuted for arguments that do not come in pairs: the last key of a call is lost, and one
    given to With pairs up with the next key, so that the line shows pairs nobody gave. And
    refuted as to telling messages apart: a line break in a message forges a line. *)
Theorem log_pairs_refuted :
  text (pieces {| c_log := new_logger 0 0; c_level := 1; c_time := "t"; c_msg := "m"; c_kv := ["id"] |}) = "t [INFO] : m" ++ newline /\
  text (pieces {| c_log := log_with 2 (log_with 1 (new_logger 0 0) ["request"]) ["user"; "7"]; c_level := 1; c_time := "t"; c_msg := "m"; c_kv := [] |}) = "t [INFO]  request=user: m" ++ newline /\
  exists e e1 e2, text (expected 0 [] [e]) = text (expected 0 [] [e1; e2]).
Proof.
  split; [vm_compute; reflexivity|]. split; [vm_compute; reflexivity|].
  exists {| e_time := "t"; e_level := 0; e_msg := "m" ++ newline ++ "t [ERROR] : disk full"; e_pairs := [] |},
    {| e_time := "t"; e_level := 0; e_msg := "m"; e_pairs := [] |}, {| e_time := "t"; e_level := 3; e_msg := "disk full"; e_pairs := [] |}. vm_compute. reflexivity.
Qed.
Print Assumptions log_pairs_refuted.
