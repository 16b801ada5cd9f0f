From Coq Require Import List String Ascii ZArith Bool Lia.
From Verif Require Import LogModel LogSpec.
Import ListNotations.
Local Open Scope string_scope.

Lemma app_s_assoc a b c : ((a ++ b) ++ c = a ++ (b ++ c))%string.
Proof. induction a; cbn; [reflexivity|now rewrite IHa]. Qed.
Lemma app_s_nil a : (a ++ "" = a)%string.
Proof. induction a; cbn; [reflexivity|now rewrite IHa]. Qed.
Lemma text_cons x l : text (x :: l) = (x ++ text l)%string.
Proof. unfold text. destruct l; cbn; [now rewrite app_s_nil|reflexivity]. Qed.
Lemma text_app l1 l2 : text (l1 ++ l2)%list = (text l1 ++ text l2)%string.
Proof. induction l1; [reflexivity|]. cbn [app]. rewrite !text_cons, IHl1. now rewrite app_s_assoc. Qed.
Lemma text_concat (ls : list (list string)) : text (map text ls) = text (List.concat ls).
Proof. induction ls; [reflexivity|]. cbn [map List.concat]. now rewrite text_cons, text_app, IHls. Qed.

Lemma flat_app p q : flat (p ++ q)%list = (flat p ++ flat q)%list.
Proof. apply flat_map_app. Qed.
Lemma kv_flat ps : text (kv_pieces (flat ps)) = shown ps.
Proof. induction ps as [|[k v] ps IH]; [reflexivity|]. cbn [flat flat_map app fst snd kv_pieces shown]. rewrite text_cons. fold (flat ps). rewrite IH. repeat (rewrite app_s_assoc || (progress cbn [append])). reflexivity. Qed.
Lemma shown_app p q : shown (p ++ q)%list = (shown p ++ shown q)%string.
Proof. induction p as [|[k v] p IH]; [reflexivity|]. cbn [app shown]. rewrite IH. repeat (rewrite app_s_assoc || (progress cbn [append])). reflexivity. Qed.
Lemma level_same l : level_string l = level_name l.
Proof. unfold level_string, level_name. destruct l as [|p|p]; [reflexivity| |reflexivity]. destruct p as [[|[]|]|[|[]|]|]; reflexivity. Qed.

(** The lines of the enabled calls of a list. *)
Definition lines (cs : list call) : list string := map (fun c => text (pieces c)) (filter enabled cs).

Definition mine (i : nat) (D : list (nat * string)) : list string := map snd (filter (fun e => Nat.eqb (fst e) i) D).
Lemma mine_app i D x j : mine i (D ++ [(j, x)])%list = (mine i D ++ if Nat.eqb j i then [x] else [])%list.
Proof. unfold mine. rewrite filter_app, map_app. cbn. destruct (Nat.eqb j i); reflexivity. Qed.

(** One mutex [k]: nobody inside, or one goroutine inside with its line begun. *)
Definition Inv (k : nat) (calls : nat -> list call) (w : lworld) : Prop :=
  (forall i c, In c (t_todo (w_threads w i)) -> lg_mu (c_log c) = k) /\
  ((w_held w k = false /\ (forall i, t_in (w_threads w i) = None) /\
    exists D, text (w_out w) = text (map snd D) /\ forall i, (mine i D ++ lines (t_todo (w_threads w i)))%list = lines (calls i))
   \/
   (w_held w k = true /\ exists a ps written D, t_in (w_threads w a) = Some (k, ps) /\ (forall i, i <> a -> t_in (w_threads w i) = None) /\
    text (w_out w) = (text (map snd D) ++ text written)%string /\
    forall i, (mine i D ++ (if Nat.eqb a i then [text (written ++ ps)] else []) ++ lines (t_todo (w_threads w i)))%list = lines (calls i))).

Lemma upd_same {T} (f : nat -> T) i x : upd f i x i = x.
Proof. unfold upd. now rewrite Nat.eqb_refl. Qed.
Lemma upd_other {T} (f : nat -> T) i j x : j <> i -> upd f i x j = f j.
Proof. intros H. unfold upd. apply Nat.eqb_neq in H. now rewrite H. Qed.

Lemma inv_step k calls w i : Inv k calls w -> Inv k calls (log_step w i).
Proof.
  intros [K H]. unfold log_step. destruct (t_in (w_threads w i)) as [[mu [|p ps]]|] eqn:Ein.
  - (* leave *)
    destruct H as [(Hh & Hn & _)|(Hh & a & ps' & wr & D & Ha & Hn & Ho & Hl)]; [rewrite Hn in Ein; discriminate|].
    assert (i = a) as -> by (destruct (Nat.eq_dec i a); auto; rewrite Hn in Ein by auto; discriminate). rewrite Ha in Ein. injection Ein as <- ->.
    split; cbn [w_threads w_out w_held].
    { intros j c. destruct (Nat.eq_dec j a) as [->|N]; [rewrite upd_same; cbn; apply K|rewrite upd_other by auto; apply K]. }
    left. split; [apply upd_same|]. split.
    { intros j. destruct (Nat.eq_dec j a) as [->|N]; [now rewrite upd_same|rewrite upd_other by auto; auto]. }
    exists (D ++ [(a, text wr)])%list. split.
    { rewrite map_app, text_app. cbn [map snd]. rewrite Ho, text_cons. cbn. now rewrite app_s_nil. }
    intros j. rewrite mine_app. rewrite <- app_assoc. specialize (Hl j). rewrite app_nil_r in Hl.
    destruct (Nat.eq_dec j a) as [->|N]; [rewrite upd_same; exact Hl|rewrite upd_other by auto; exact Hl].
  - (* write *)
    destruct H as [(Hh & Hn & _)|(Hh & a & ps' & wr & D & Ha & Hn & Ho & Hl)]; [rewrite Hn in Ein; discriminate|].
    assert (i = a) as -> by (destruct (Nat.eq_dec i a); auto; rewrite Hn in Ein by auto; discriminate). rewrite Ha in Ein. injection Ein as <- ->.
    split; cbn [w_threads w_out w_held].
    { intros j c. destruct (Nat.eq_dec j a) as [->|N]; [rewrite upd_same; cbn; apply K|rewrite upd_other by auto; apply K]. }
    right. split; [auto|]. exists a, ps, (wr ++ [p])%list, D. split; [now rewrite upd_same|]. split; [intros j N; rewrite upd_other by auto; auto|]. split.
    { rewrite !text_app, Ho. now rewrite app_s_assoc. }
    intros j. rewrite <- app_assoc. cbn [app]. destruct (Nat.eq_dec j a) as [->|N]; [rewrite upd_same|rewrite upd_other by auto]; apply Hl.
  - destruct (t_todo (w_threads w i)) as [|c cs] eqn:Et; [split; auto|]. destruct (enabled c) eqn:Ee.
    + (* enter *)
      assert (Kc : lg_mu (c_log c) = k) by (apply (K i); rewrite Et; now left). rewrite Kc.
      destruct (w_held w k) eqn:Eh; [split; [auto|]; rewrite Eh; exact H|].
      destruct H as [(_ & Hn & D & Ho & Hl)|(Hh & _)]; [|congruence].
      split; cbn [w_threads w_out w_held].
      { intros j c0. destruct (Nat.eq_dec j i) as [->|N]; [rewrite upd_same; cbn; intros; apply (K i); rewrite Et; now right|rewrite upd_other by auto; apply K]. }
      right. split; [apply upd_same|]. exists i, (pieces c), [], D. split; [now rewrite upd_same|]. split; [intros j N; rewrite upd_other by auto; auto|].
      split; [cbn; now rewrite app_s_nil|]. intros j. specialize (Hl j). destruct (Nat.eq_dec j i) as [->|N].
      * rewrite upd_same, Nat.eqb_refl. cbn [t_todo app]. rewrite Et in Hl. unfold lines at 1 in Hl. cbn [filter] in Hl. rewrite Ee in Hl. exact Hl.
      * rewrite upd_other by auto. assert (Nat.eqb i j = false) as -> by (apply Nat.eqb_neq; auto). exact Hl.
    + (* below the level *)
      assert (L : forall j, lines (t_todo (upd (w_threads w) i {| t_in := None; t_todo := cs |} j)) = lines (t_todo (w_threads w j))).
      { intros j. destruct (Nat.eq_dec j i) as [->|N]; [rewrite upd_same, Et; unfold lines; cbn [t_todo filter]; now rewrite Ee|now rewrite upd_other]. }
      assert (T : forall j, t_in (upd (w_threads w) i {| t_in := None; t_todo := cs |} j) = t_in (w_threads w j)).
      { intros j. destruct (Nat.eq_dec j i) as [->|N]; [rewrite upd_same; auto|now rewrite upd_other]. }
      split; cbn [w_threads w_out w_held].
      { intros j c0. destruct (Nat.eq_dec j i) as [->|N]; [rewrite upd_same; cbn; intros; apply (K i); rewrite Et; now right|rewrite upd_other by auto; apply K]. }
      destruct H as [(Hh & Hn & D & Ho & Hl)|(Hh & a & ps' & wr & D & Ha & Hn & Ho & Hl)].
      * left. split; [auto|]. split; [intros j; rewrite T; auto|]. exists D. split; [auto|]. intros j. rewrite L. auto.
      * right. split; [auto|]. exists a, ps', wr, D. rewrite T. split; [auto|]. split; [intros j N; rewrite T; auto|]. split; [auto|]. intros j. rewrite L. auto.
Qed.
Lemma inv_run k calls sched : forall w, Inv k calls w -> Inv k calls (log_run w sched).
Proof. induction sched as [|i sched IH]; intros w H; [exact H|]. cbn. apply IH. now apply inv_step. Qed.
Lemma inv_start k calls : (forall i c, In c (calls i) -> lg_mu (c_log c) = k) -> Inv k calls (log_start calls).
Proof. intros K. split; [exact K|]. left. split; [reflexivity|]. split; [reflexivity|]. exists []. split; [reflexivity|]. reflexivity. Qed.

Definition call_of (l : logger) (e : entry) : call :=
  {| c_log := l; c_level := e_level e; c_time := e_time e; c_msg := e_msg e; c_kv := flat (e_pairs e) |}.
Lemma enabled_leb c : enabled c = Z.leb (lg_min (c_log c)) (c_level c).
Proof. unfold enabled. rewrite Z.leb_antisym. reflexivity. Qed.
Lemma pieces_line l e base : lg_kv l = flat base -> text (pieces (call_of l e)) = line (e_time e) (e_level e) (base ++ e_pairs e) (e_msg e).
Proof.
  intros H. unfold pieces, line. cbn [c_log c_kv c_time c_level c_msg call_of]. rewrite H, text_cons, !text_app, !kv_flat, shown_app, level_same. cbn [text String.concat].
  unfold newline. cbn [ascii_of_nat]. repeat (rewrite app_s_assoc || (progress cbn [append])). reflexivity.
Qed.
Lemma lines_expected l base es : lg_kv l = flat base -> lines (map (call_of l) es) = expected (lg_min l) base es.
Proof.
  intros H. unfold lines, expected. induction es as [|e es IH]; [reflexivity|]. cbn [map filter]. rewrite enabled_leb. cbn [c_log c_level call_of].
  destruct (lg_min l <=? e_level e)%Z; cbn [map]; [|exact IH]. now rewrite IH, (pieces_line l e base H).
Qed.

(** A goroutine inside a call gets out of it. *)
Lemma drain k a : forall ps w, t_in (w_threads w a) = Some (k, ps) ->
  let w' := log_run w (repeat a (S (List.length ps))) in
  t_in (w_threads w' a) = None /\ w_held w' k = false /\ t_todo (w_threads w' a) = t_todo (w_threads w a) /\ forall i, i <> a -> w_threads w' i = w_threads w i.
Proof.
  induction ps as [|p ps IH]; intros w H.
  - cbn. unfold log_step. rewrite H. cbn. rewrite !upd_same. cbn. repeat split; auto. intros i N. now rewrite upd_other.
  - cbn [List.length repeat log_run fold_left]. change (fold_left log_step ?s ?x) with (log_run x s).
    set (w1 := log_step w a). assert (E : t_in (w_threads w1 a) = Some (k, ps)) by (unfold w1, log_step; rewrite H; cbn; now rewrite upd_same).
    destruct (IH w1 E) as (A & B & C & D). cbn [repeat log_run fold_left] in A, B, C, D. change (fold_left log_step ?s ?x) with (log_run x s) in *.
    split; [exact A|]. split; [exact B|]. split; [rewrite C|intros i N; rewrite D by auto]; unfold w1, log_step; rewrite H; cbn; [now rewrite upd_same|now rewrite upd_other].
Qed.
Lemma run_app w s1 s2 : log_run w (s1 ++ s2) = log_run (log_run w s1) s2.
Proof. apply fold_left_app. Qed.
Lemma alone k i : forall cs w, t_todo (w_threads w i) = cs -> t_in (w_threads w i) = None -> (forall c, In c cs -> lg_mu (c_log c) = k) -> w_held w k = false ->
  exists sched, t_todo (w_threads (log_run w sched) i) = [] /\ t_in (w_threads (log_run w sched) i) = None.
Proof.
  induction cs as [|c cs IH]; intros w E N K F; [exists []; auto|].
  destruct (enabled c) eqn:Ee.
  - set (w1 := log_step w i). assert (E1 : w_threads w1 i = {| t_in := Some (k, pieces c); t_todo := cs |}).
    { unfold w1, log_step. rewrite N, E, Ee, (K c) by (now left). rewrite F. cbn. now rewrite upd_same. }
    destruct (drain k i (pieces c) w1) as (A & B & C & _); [now rewrite E1|]. set (w2 := log_run w1 _) in *.
    destruct (IH w2) as (s & P & Q); [rewrite C, E1; reflexivity|exact A|intros; apply K; now right|exact B|].
    exists (i :: repeat i (S (List.length (pieces c))) ++ s)%list. cbn [log_run fold_left]. change (fold_left log_step ?x ?y) with (log_run y x). fold w1. rewrite run_app. fold w2. auto.
  - set (w1 := log_step w i). assert (E1 : w_threads w1 i = {| t_in := None; t_todo := cs |}).
    { unfold w1, log_step. rewrite N, E, Ee. cbn. now rewrite upd_same. }
    assert (F1 : w_held w1 k = false) by (unfold w1, log_step; rewrite N, E, Ee; exact F).
    destruct (IH w1) as (s & P & Q); [now rewrite E1|now rewrite E1|intros; apply K; now right|exact F1|].
    exists (i :: s). cbn [log_run fold_left]. auto.
Qed.
