(** Lemmas about the mutex of the store. *)
From Coq Require Import List Arith Bool Lia.
From Verif Require Import LockModel LockSpec.
Import ListNotations.

Lemma nth_set i j (x : list action) l : nth j (set_nth i x l) [] = if Nat.eqb i j && Nat.ltb i (length l) then x else nth j l [].
Proof.
  revert i j. induction l as [|y l IH]; intros i j; [destruct i, j; cbn; rewrite ?andb_false_r; reflexivity|].
  destruct i, j; cbn [set_nth nth]; try reflexivity. rewrite IH. cbn [length]. reflexivity.
Qed.
Lemma nth_nonempty i (l : list (list action)) : nth i l [] <> [] -> i < length l.
Proof. intros H. destruct (Nat.lt_ge_cases i (length l)); auto. rewrite nth_overflow in H by auto. congruence. Qed.
Lemma nth_set_eq i (x : list action) l : nth i l [] <> [] -> nth i (set_nth i x l) [] = x.
Proof. intros H. apply nth_nonempty in H. rewrite nth_set, Nat.eqb_refl. destruct (Nat.ltb_spec i (length l)); [reflexivity|lia]. Qed.
Lemma nth_set_neq i j (x : list action) l : i <> j -> nth j (set_nth i x l) [] = nth j l [].
Proof. intros H. rewrite nth_set. destruct (Nat.eqb_spec i j); [congruence|reflexivity]. Qed.

Lemma sensible_held n p : sensible n p = true -> held p = n.
Proof.
  remember (length p) as k eqn:Ek. assert (length p <= k) as Hk by lia. clear Ek. revert n p Hk. induction k as [|k IH]; intros n p Hk H.
  - destruct p; [|cbn in Hk; lia]. cbn in *. apply Nat.eqb_eq in H. auto.
  - destruct p as [|[] p]; cbn [sensible held length] in *; try discriminate.
    + apply Nat.eqb_eq in H. auto.
    + apply IH in H; [|lia]. rewrite H. reflexivity.
    + destruct n; [discriminate|]. apply IH in H; [|lia]. congruence.
    + destruct p as [|[] p]; try discriminate. apply andb_true_iff in H as [H1 H]. apply Nat.eqb_eq in H1. subst. cbn [held length] in *. apply IH in H; [|lia]. exact H.
Qed.

Definition total (l : list (list action)) : nat := fold_right (fun p n => held p + n) 0 l.
Lemma total_set i x l : nth i l [] <> [] -> total (set_nth i x l) + held (nth i l []) = total l + held x.
Proof.
  revert i. induction l as [|y l IH]; intros [|i] H; cbn [nth set_nth total fold_right] in *; try congruence; [lia|]. specialize (IH i H). unfold total in IH. lia.
Qed.
Lemma total_zero l : (forall i, held (nth i l []) = 0) -> total l = 0.
Proof. induction l as [|y l IH]; intros H; [reflexivity|]. cbn. pose proof (H 0) as H0. cbn in H0. rewrite H0. apply IH. intros i. apply (H (S i)). Qed.
Lemma total_pos l : total l <> 0 -> exists i, 0 < held (nth i l []).
Proof.
  induction l as [|y l IH]; [cbn; congruence|]. cbn. intros H. destruct (held y) as [|n] eqn:E.
  - destruct (IH H) as (i & Hi). exists (S i). exact Hi.
  - exists 0. cbn. lia.
Qed.
Lemma total_ge i l : held (nth i l []) <= total l.
Proof. revert i. induction l as [|y l IH]; intros [|i]; cbn; try lia. specialize (IH i). unfold total in IH. lia. Qed.

Definition suffix (q p : list action) : Prop := exists a, p = a ++ q.
Lemma suffix_tl x q p : suffix (x :: q) p -> suffix q p.
Proof. intros (a & ->). exists (a ++ [x]). rewrite <- app_assoc. reflexivity. Qed.

Record inv (ts : list (list action)) (s : lstate) : Prop := {
  i_readers : l_readers s = total (l_calls s);
  i_shape : forall i, sensible (held (left_of i s)) (left_of i s) = true \/ exists q, left_of i s = WU :: q /\ sensible 0 q = true /\ l_writer s = Held i;
  i_held : forall i, l_writer s = Held i -> l_readers s = 0 /\ exists q, left_of i s = WU :: q /\ sensible 0 q = true;
  i_pending : forall i, l_writer s = Pending i -> exists q, left_of i s = WL :: q;
  i_suffix : forall i, suffix (left_of i s) (nth i ts []) }.

Lemma inv_init ts : (forall i, sensible 0 (nth i ts []) = true) -> inv ts (lock_init ts).
Proof.
  intros H. constructor; unfold left_of; cbn [lock_init l_readers l_writer l_calls].
  - symmetry. apply total_zero. intros i. apply sensible_held, H.
  - intros i. left. rewrite (sensible_held _ _ (H i)). apply H.
  - discriminate.
  - discriminate.
  - intros i. exists []. reflexivity.
Qed.

Lemma inv_step ts i s : inv ts s -> inv ts (lock_step i s).
Proof.
  intros Hi. unfold lock_step. destruct (nth i (l_calls s) []) as [|a r] eqn:E; [exact Hi|].
  assert (Ne : nth i (l_calls s) [] <> []) by congruence. destruct Hi as [H1 H2 H3 H4 H5]. unfold left_of in *.
  pose proof (total_set i r (l_calls s) Ne) as T. rewrite E in T.
  assert (Suf : forall j, suffix (nth j (set_nth i r (l_calls s)) []) (nth j ts [])).
  { intros j. destruct (Nat.eq_dec i j) as [<-|N]; [|rewrite nth_set_neq by auto; auto]. rewrite nth_set_eq by auto. eapply suffix_tl. rewrite <- E. apply H5. }
  pose proof (H2 i) as Sh. rewrite E in Sh.
  destruct a.
  - destruct (l_writer s) eqn:W; [|constructor; unfold left_of; rewrite ?W; auto; fail|constructor; unfold left_of; rewrite ?W; auto; fail].
    destruct Sh as [Sh|(q & X & _)]; [|discriminate]. cbn [sensible held] in Sh. pose proof (sensible_held _ _ Sh) as Hh.
    constructor; unfold left_of; cbn [l_readers l_writer l_calls]; try discriminate; auto.
    + cbn [held] in T. lia.
    + intros j. left. destruct (Nat.eq_dec i j) as [<-|N]; [rewrite nth_set_eq by auto; rewrite Hh; cbn [held] in *; exact Sh|]. rewrite nth_set_neq by auto.
      destruct (H2 j) as [K|(q & _ & _ & K)]; [exact K|discriminate].
  - destruct Sh as [Sh|(q & X & _)]; [|discriminate]. cbn [sensible held] in Sh. cbn [held] in T. pose proof (sensible_held _ _ Sh) as Hh.
    pose proof (total_ge i (l_calls s)) as G. rewrite E in G. cbn [held] in G.
    destruct (l_readers s) as [|n] eqn:R; [lia|]. constructor; unfold left_of; cbn [l_readers l_writer l_calls]; auto.
    + lia.
    + intros j. destruct (Nat.eq_dec i j) as [<-|N]; [left; rewrite nth_set_eq by auto; exact Sh|]. rewrite nth_set_neq by auto. apply H2.
    + intros j W. destruct (H3 j W) as [Z _]. discriminate.
    + intros j W. destruct (H4 j W) as (q & Q). destruct (Nat.eq_dec i j) as [<-|N]; [congruence|]. rewrite nth_set_neq by auto. eauto.
  - destruct (l_writer s) as [|j|j] eqn:W.
    + constructor; unfold left_of; cbn [l_readers l_writer l_calls]; auto; try discriminate.
      * intros j. destruct (H2 j) as [K|(q & _ & _ & K)]; [auto|discriminate].
      * intros j [= <-]. eauto.
    + destruct (Nat.eqb_spec i j) as [<-|N]; cbn [andb]; [|constructor; unfold left_of; rewrite ?W; auto].
      destruct (Nat.eqb_spec (l_readers s) 0) as [Z|Z]; [|constructor; unfold left_of; rewrite ?W; auto].
      destruct Sh as [Sh|(q & X & _)]; [|discriminate]. cbn [sensible held] in Sh. destruct r as [|[] r]; try discriminate.
      apply andb_true_iff in Sh as [_ Sh]. cbn [held] in T.
      constructor; unfold left_of; cbn [l_readers l_writer l_calls]; auto.
      * lia.
      * intros j. destruct (Nat.eq_dec i j) as [<-|N]; [right; exists r; rewrite nth_set_eq by auto; auto|]. rewrite nth_set_neq by auto.
        destruct (H2 j) as [K|(q & _ & _ & K)]; [auto|discriminate].
      * intros j [= <-]. split; [reflexivity|]. exists r. rewrite nth_set_eq by auto. auto.
      * discriminate.
    + constructor; unfold left_of; rewrite ?W; auto.
  - destruct (l_writer s) as [|j|j] eqn:W; [constructor; unfold left_of; rewrite ?W; auto; fail|constructor; unfold left_of; rewrite ?W; auto; fail|].
    destruct (Nat.eqb_spec i j) as [<-|N]; [|constructor; unfold left_of; rewrite ?W; auto].
    destruct (H3 i eq_refl) as (Z & q & X & Sq). rewrite E in X. injection X as <-. cbn [held] in T.
    constructor; unfold left_of; cbn [l_readers l_writer l_calls]; auto; try discriminate.
    + lia.
    + intros j. left. destruct (Nat.eq_dec i j) as [<-|N]; [rewrite nth_set_eq by auto; rewrite (sensible_held _ _ Sq); exact Sq|]. rewrite nth_set_neq by auto.
      destruct (H2 j) as [K|(q & _ & _ & K)]; [exact K|injection K as ->; congruence].
Qed.
Lemma inv_run ts sched s : inv ts s -> inv ts (lock_run sched s).
Proof. unfold lock_run. revert s. induction sched as [|i sched IH]; intros s H; cbn; auto. apply IH, inv_step, H. Qed.

(** *** progress *)
Definition size (s : lstate) : nat := 2 * fold_right (fun p n => length p + n) 0 (l_calls s) - (match l_writer s with Pending _ => 1 | _ => 0 end).
Lemma len_set i x l : nth i l [] <> [] -> fold_right (fun p n => length p + n) 0 (set_nth i x l) + length (nth i l []) = fold_right (fun p n => length p + n) 0 l + @length action x.
Proof. revert i. induction l as [|y l IH]; intros [|i] H; cbn [nth set_nth fold_right] in *; try congruence; [lia|]. specialize (IH i H). lia. Qed.
Lemma len_ge i l : @length action (nth i l []) <= fold_right (fun p n => length p + n) 0 l.
Proof. revert i. induction l as [|y l IH]; intros [|i]; cbn; try lia. specialize (IH i). lia. Qed.

Lemma step_size ts i s : inv ts s -> lock_step i s <> s -> size (lock_step i s) < size s.
Proof.
  intros [H1 H2 H3 H4 H5]. unfold left_of in *. unfold lock_step, size. destruct (nth i (l_calls s) []) as [|a r] eqn:E; [congruence|].
  assert (Ne : nth i (l_calls s) [] <> []) by congruence.
  pose proof (len_set i r (l_calls s) Ne) as T. rewrite E in T. cbn [length] in T. pose proof (len_ge i (l_calls s)) as G. rewrite E in G. cbn [length] in G.
  destruct a.
  - destruct (l_writer s) eqn:W; try congruence. intros _. cbn [l_calls l_writer]. lia.
  - destruct (l_readers s); [congruence|]. intros _. cbn [l_calls l_writer]. destruct (l_writer s) as [|j|] eqn:W; [lia| |lia].
    destruct (H4 j eq_refl) as (q & Q). assert (i <> j) by congruence. pose proof (len_ge j (set_nth i r (l_calls s))) as G2. rewrite nth_set_neq, Q in G2 by auto. cbn [length] in G2. lia.
  - destruct (l_writer s) as [|j|] eqn:W; try congruence.
    + intros _. cbn [l_calls l_writer]. lia.
    + destruct (Nat.eqb i j && _); [|congruence]. intros _. cbn [l_calls l_writer]. lia.
  - destruct (l_writer s) as [|j|j] eqn:W; try congruence. destruct (Nat.eqb i j); [|congruence]. intros _. cbn [l_calls l_writer]. lia.
Qed.

Definition conflict (ts : list (list action)) : Prop := exists i j, i <> j /\ nests (nth i ts []) /\ writes (nth j ts []).

Lemma calls_neq s n w l : l <> l_calls s -> {| l_readers := n; l_writer := w; l_calls := l |} <> s.
Proof. intros H E. apply H. rewrite <- E. reflexivity. Qed.
Lemma set_neq i (a : action) r l : nth i l [] = a :: r -> set_nth i r l <> l.
Proof. intros E X. assert (K : nth i (set_nth i r l) [] = r) by (apply nth_set_eq; congruence). rewrite X, E in K. apply (f_equal (@length action)) in K. cbn in K. lia. Qed.

Lemma progress ts s : inv ts s -> ~ conflict ts -> (exists i, left_of i s <> []) -> exists i, lock_step i s <> s.
Proof.
  intros [H1 H2 H3 H4 H5] Nc (i & Ne). unfold left_of in *. destruct (l_writer s) as [|j|j] eqn:W.
  - exists i. unfold lock_step. destruct (nth i (l_calls s) []) as [|a r] eqn:E; [congruence|]. pose proof (set_neq i a r (l_calls s) E) as SN. destruct a.
    + rewrite W. apply calls_neq, SN.
    + pose proof (total_ge i (l_calls s)) as G. rewrite E in G. cbn [held] in G. destruct (l_readers s); [lia|]. apply calls_neq, SN.
    + rewrite W. intros X. apply (f_equal l_writer) in X. rewrite W in X. discriminate.
    + pose proof (H2 i) as Sh. rewrite E in Sh. destruct Sh as [Sh|(q & _ & _ & X)]; discriminate.
  - destruct (H4 j eq_refl) as (q & Q). destruct (Nat.eq_dec (l_readers s) 0) as [Z|Z].
    + exists j. unfold lock_step. rewrite Q, W, Nat.eqb_refl, Z. cbn [andb Nat.eqb]. apply calls_neq. eapply set_neq. exact Q.
    + rewrite H1 in Z. destruct (total_pos _ Z) as (k & Hk). exists k. unfold lock_step.
      destruct (nth k (l_calls s) []) as [|a r] eqn:E; [cbn in Hk; lia|]. pose proof (H2 k) as Sh. rewrite E in Sh. destruct Sh as [Sh|(q' & _ & _ & X)]; [|discriminate].
      destruct a.
      * exfalso. apply Nc. exists k, j. split; [intros ->; congruence|]. split.
        -- pose proof (H5 k) as (p & P). rewrite E in P. exists p, r. split; [exact P|]. cbn [held] in Hk. lia.
        -- pose proof (H5 j) as (p & P). rewrite Q in P. unfold writes. rewrite P. apply in_or_app. right. left. reflexivity.
      * rewrite <- H1 in Z. destruct (l_readers s); [congruence|]. apply calls_neq. eapply set_neq. exact E.
      * cbn [sensible held] in Sh. destruct r as [|[] r]; try discriminate. apply andb_true_iff in Sh as [Sh _]. apply Nat.eqb_eq in Sh. cbn [held] in *. lia.
      * discriminate.
  - destruct (H3 j eq_refl) as (_ & q & Q & _). exists j. unfold lock_step. rewrite Q, W, Nat.eqb_refl. apply calls_neq. eapply set_neq. exact Q.
Qed.

Lemma run_app a b s : lock_run (a ++ b) s = lock_run b (lock_run a s).
Proof. apply fold_left_app. Qed.

Lemma can_finish ts s : inv ts s -> ~ conflict ts -> exists sched, all_done (lock_run sched s).
Proof.
  intros Hi Nc. remember (size s) as n eqn:En. revert s Hi En. induction n as [n IH] using lt_wf_ind. intros s Hi En.
  destruct (existsb (fun p => match p with [] => false | _ => true end) (l_calls s)) eqn:Ex.
  - apply existsb_exists in Ex as (p & Hp & Np). apply (In_nth _ _ []) in Hp as (i & _ & Ei).
    destruct (progress ts s Hi Nc) as (k & Hk); [exists i; unfold left_of; rewrite Ei; destruct p; discriminate|].
    destruct (IH (size (lock_step k s))) with (s := lock_step k s) as (sched & D); [subst n; eapply step_size; eauto|apply inv_step; exact Hi|reflexivity|].
    exists (k :: sched). exact D.
  - exists []. intros i. unfold left_of, lock_run, fold_left. destruct (nth i (l_calls s) []) as [|a r] eqn:E; [reflexivity|]. exfalso.
    apply not_true_iff_false in Ex. apply Ex. apply existsb_exists. exists (a :: r). split; [|reflexivity]. rewrite <- E. apply nth_In. apply nth_nonempty. congruence.
Qed.

(** *** deadlock *)
(** A call can run alone while the lock is free. *)
Lemma run_alone ts k : forall a b s i, length a <= k -> inv ts s -> l_writer s = Free -> nth i (l_calls s) [] = a ++ b ->
  (forall j, j <> i -> held (nth j (l_calls s) []) = 0) -> sensible (held b) b = true -> b <> [] ->
  exists m, l_writer (lock_run (repeat i m) s) = Free /\ nth i (l_calls (lock_run (repeat i m) s)) [] = b /\
    forall j, j <> i -> nth j (l_calls (lock_run (repeat i m) s)) [] = nth j (l_calls s) [].
Proof.
  induction k as [|k IH]; intros a b s i Hk Hi W E Ho Sb Nb.
  - destruct a; [|cbn in Hk; lia]. exists 0. cbn. auto.
  - destruct a as [|x a]; [exists 0; cbn; auto|]. cbn [app length] in *.
    assert (Ne : nth i (l_calls s) [] <> []) by congruence.
    pose proof (i_shape ts s Hi i) as Sh. unfold left_of in Sh. rewrite E in Sh. destruct Sh as [Sh|(q & _ & _ & X)]; [|congruence].
    assert (Step : forall s', lock_step i s = s' -> l_writer s' = Free -> nth i (l_calls s') [] = a ++ b -> (forall j, j <> i -> nth j (l_calls s') [] = nth j (l_calls s) []) ->
      exists m, l_writer (lock_run (repeat i m) s) = Free /\ nth i (l_calls (lock_run (repeat i m) s)) [] = b /\ forall j, j <> i -> nth j (l_calls (lock_run (repeat i m) s)) [] = nth j (l_calls s) []).
    { intros s' Es W' E' Eo. destruct (IH a b s' i) as (m & M1 & M2 & M3); auto; [lia|subst s'; apply inv_step; exact Hi|intros j Hj; rewrite Eo by auto; auto|].
      exists (S m). cbn [repeat]. change (lock_run (i :: repeat i m) s) with (lock_run (repeat i m) (lock_step i s)). rewrite Es. split; [exact M1|]. split; [exact M2|].
      intros j Hj. rewrite M3 by auto. auto. }
    destruct x.
    + eapply Step; [unfold lock_step; rewrite E, W; reflexivity|reflexivity|cbn; apply nth_set_eq; auto|cbn; intros j Hj; apply nth_set_neq; auto].
    + pose proof (total_ge i (l_calls s)) as G. rewrite E in G. cbn [held] in G. pose proof (i_readers ts s Hi) as R. destruct (l_readers s) as [|n] eqn:Rn; [lia|].
      eapply Step; [unfold lock_step; rewrite E, Rn; reflexivity|exact W|cbn; apply nth_set_eq; auto|cbn; intros j Hj; apply nth_set_neq; auto].
    + cbn [sensible held] in Sh. destruct a as [|y a]; cbn [app] in *.
      { destruct b as [|[] b]; try discriminate. }
      destruct y; try discriminate. apply andb_true_iff in Sh as [Sh1 Sh2]. apply Nat.eqb_eq in Sh1. cbn [held] in Sh1.
      assert (R0 : l_readers s = 0).
      { rewrite (i_readers ts s Hi). apply total_zero. intros j. destruct (Nat.eq_dec j i) as [->|Nj]; [rewrite E; cbn [held]; exact Sh1|auto]. }
      set (s1 := {| l_readers := l_readers s; l_writer := Pending i; l_calls := l_calls s |}).
      assert (E1 : lock_step i s = s1) by (unfold lock_step; rewrite E, W; reflexivity).
      set (s2 := {| l_readers := 0; l_writer := Held i; l_calls := set_nth i (WU :: a ++ b) (l_calls s) |}).
      assert (E2 : lock_step i s1 = s2) by (unfold lock_step, s1; cbn [l_calls l_writer l_readers]; rewrite E, Nat.eqb_refl, R0; reflexivity).
      set (s3 := {| l_readers := 0; l_writer := Free; l_calls := set_nth i (a ++ b) (set_nth i (WU :: a ++ b) (l_calls s)) |}).
      assert (E3 : lock_step i s2 = s3) by (unfold lock_step, s2; cbn [l_calls l_writer l_readers]; rewrite nth_set_eq by auto; rewrite Nat.eqb_refl; reflexivity).
      assert (I3 : inv ts s3) by (rewrite <- E3, <- E2, <- E1; do 3 apply inv_step; exact Hi).
      assert (Q3 : forall j, j <> i -> nth j (l_calls s3) [] = nth j (l_calls s) []) by (intros j Hj; cbn [s3 l_calls]; rewrite !nth_set_neq by auto; reflexivity).
      destruct (IH a b s3 i) as (m & M1 & M2 & M3); auto; [cbn in Hk; lia|cbn [s3 l_calls]; apply nth_set_eq; rewrite nth_set_eq by auto; discriminate|intros j Hj; rewrite Q3 by auto; auto|].
      exists (S (S (S m))). cbn [repeat]. change (lock_run (i :: i :: i :: repeat i m) s) with (lock_run (repeat i m) (lock_step i (lock_step i (lock_step i s)))). rewrite E1, E2, E3.
      split; [exact M1|]. split; [exact M2|]. intros j Hj. rewrite M3 by auto. auto.
    + discriminate.
Qed.

Lemma sensible_suffix n p a b : sensible n p = true -> p = a ++ b -> (exists q, b = WU :: q) \/ sensible (held b) b = true.
Proof.
  intros H ->. remember (length a) as k eqn:Ek. assert (length a <= k) as Hk by lia. clear Ek. revert n a Hk H. induction k as [|k IH]; intros n a Hk H.
  - destruct a; [|cbn in Hk; lia]. right. cbn in H. rewrite (sensible_held _ _ H). exact H.
  - destruct a as [|x a]; [right; cbn in H; rewrite (sensible_held _ _ H); exact H|]. cbn [app length] in *. destruct x; cbn [sensible] in H; try discriminate.
    + eapply IH; [|exact H]. lia.
    + destruct n; [discriminate|]. eapply IH; [|exact H]. lia.
    + destruct a as [|y a]; cbn [app length] in *.
      * destruct b as [|[] b]; try discriminate. left. eauto.
      * destruct y; try discriminate. apply andb_true_iff in H as [_ H]. eapply IH; [|exact H]. lia.
Qed.

Lemma deadlock ts i j : (forall k, sensible 0 (nth k ts []) = true) -> i <> j -> nests (nth i ts []) -> writes (nth j ts []) ->
  exists sched, waits_forever i (lock_run sched (lock_init ts)) /\ waits_forever j (lock_run sched (lock_init ts)).
Proof.
  intros Hs Nij (a & b & Ea & Hb) Hw. apply in_split in Hw as (c & d & Ec).
  pose proof (inv_init ts Hs) as I0.
  destruct (sensible_suffix 0 (nth j ts []) c (WL :: d) (Hs j) Ec) as [(q & X)|Sd]; [discriminate|].
  destruct (sensible_suffix 0 (nth i ts []) a (RL :: b) (Hs i) Ea) as [(q & X)|Sb]; [discriminate|].
  destruct (run_alone ts (length c) c (WL :: d) (lock_init ts) j (le_n _) I0 eq_refl Ec) as (m1 & F1 & E1 & O1); [intros k _; cbn; apply sensible_held, Hs|exact Sd|discriminate|].
  set (s1 := lock_run (repeat j m1) (lock_init ts)) in *. assert (I1 : inv ts s1) by (apply inv_run; exact I0).
  assert (Hd : held (WL :: d) = 0).
  { cbn [sensible] in Sd. destruct d as [|[] d]; try discriminate. apply andb_true_iff in Sd as [Sd _]. apply Nat.eqb_eq in Sd. exact Sd. }
  destruct (run_alone ts (length a) a (RL :: b) s1 i (le_n _) I1 F1) as (m2 & F2 & E2 & O2); [rewrite O1 by auto; exact Ea| |exact Sb|discriminate|].
  { intros k Hk. destruct (Nat.eq_dec k j) as [->|Nk]; [rewrite E1; exact Hd|]. rewrite O1 by auto. cbn. apply sensible_held, Hs. }
  set (s2 := lock_run (repeat i m2) s1) in *. assert (I2 : inv ts s2) by (apply inv_run; exact I1).
  assert (Ej : nth j (l_calls s2) [] = WL :: d) by (rewrite O2 by auto; exact E1).
  exists ((repeat j m1 ++ repeat i m2) ++ [j]). rewrite !run_app. fold s1. fold s2. change (lock_run [j] s2) with (lock_step j s2).
  set (s3 := lock_step j s2). assert (S3 : s3 = {| l_readers := l_readers s2; l_writer := Pending j; l_calls := l_calls s2 |}) by (unfold s3, lock_step; rewrite Ej, F2; reflexivity).
  assert (I3 : inv ts s3) by (apply inv_step; exact I2).
  assert (K : forall sched, inv ts (lock_run sched s3) /\ l_writer (lock_run sched s3) = Pending j /\ left_of i (lock_run sched s3) = RL :: b /\ left_of j (lock_run sched s3) = WL :: d).
  { intros sched. induction sched as [|k sched IH] using rev_ind.
    - cbn. split; [exact I3|]. rewrite S3. unfold left_of. cbn [l_writer l_calls]. auto.
    - rewrite run_app. destruct IH as (J & W & L1 & L2). set (s4 := lock_run sched s3) in *. clearbody s4. split; [apply inv_step; exact J|].
      change (lock_run [k] s4) with (lock_step k s4). unfold left_of in *. unfold lock_step.
      destruct (nth k (l_calls s4) []) as [|x r] eqn:Ek; [auto|].
      assert (R : l_readers s4 <> 0). { rewrite (i_readers ts s4 J). pose proof (total_ge i (l_calls s4)) as G. rewrite L1 in G. cbn [held] in G. lia. }
      destruct x.
      + rewrite W. auto.
      + destruct (l_readers s4) as [|n]; [congruence|]. cbn [l_writer l_calls]. rewrite !nth_set_neq by congruence. auto.
      + rewrite W. destruct (Nat.eqb_spec (l_readers s4) 0); [congruence|]. rewrite andb_false_r. auto.
      + rewrite W. auto. }
  pose proof (K []) as (_ & _ & L1 & L2). cbn [lock_run fold_left] in L1, L2.
  split; (split; [congruence|]); intros sched; destruct (K sched) as (_ & _ & M1 & M2); congruence.
Qed.

(** *** the methods *)
(** Paths that fit in anywhere, or wherever no lock is held. *)
Definition rfits (p : list action) : Prop := forall n q, sensible n (p ++ q) = sensible n q.
Definition wfits (p : list action) : Prop := forall q, sensible 0 (p ++ q) = sensible 0 q.

Lemma rfits_read : rfits read. Proof. intros n q. reflexivity. Qed.
Lemma rfits_app p q : rfits p -> rfits q -> rfits (p ++ q).
Proof. intros Hp Hq n r. rewrite <- app_assoc, Hp. apply Hq. Qed.
Lemma rfits_inside p : rfits p -> rfits (inside p).
Proof. intros Hp n q. unfold inside. cbn [app sensible]. rewrite <- app_assoc. rewrite Hp. reflexivity. Qed.
Lemma rfits_many (P : list action -> Prop) : (forall p, P p -> rfits p) -> forall p, many P p -> rfits p.
Proof. intros H p Hm. induction Hm; [intros n q; reflexivity|apply rfits_app; auto]. Qed.
Lemma wfits_r p : rfits p -> wfits p. Proof. intros H q. apply H. Qed.
Lemma wfits_write : wfits write. Proof. intros q. reflexivity. Qed.
Lemma wfits_nil : wfits []. Proof. intros q. reflexivity. Qed.
Lemma wfits_app p q : wfits p -> wfits q -> wfits (p ++ q).
Proof. intros Hp Hq r. rewrite <- app_assoc, Hp. apply Hq. Qed.
Lemma wfits_many (P : list action -> Prop) : (forall p, P p -> wfits p) -> forall p, many P p -> wfits p.
Proof. intros H p Hm. induction Hm; [apply wfits_nil|apply wfits_app; auto]. Qed.
Lemma search_rfits p : search_path p -> rfits p.
Proof. intros []; auto using rfits_read, rfits_app. Qed.
Lemma upsert_wfits p : upsert_path p -> wfits p.
Proof. intros []; repeat apply wfits_app; auto using wfits_write, wfits_r, rfits_read, rfits_inside. Qed.
Lemma import_wfits p : import_path p -> wfits p.
Proof. intros [|q H|q H]; auto using upsert_wfits, wfits_r, rfits_read. apply wfits_app; auto using upsert_wfits, wfits_r, rfits_read. Qed.
Lemma dump_rfits p : dump_path p -> rfits p.
Proof. intros []; auto using rfits_read, rfits_inside. Qed.

Lemma path_sensible c p : path c p -> sensible 0 p = true.
Proof.
  intros H. assert (W : wfits p); [|specialize (W []); rewrite app_nil_r in W; rewrite W; reflexivity].
  destruct c; cbn [path] in H; try (subst p; auto using wfits_r, rfits_read, wfits_write, wfits_nil; fail);
    try (apply wfits_r, search_rfits; exact H); try (apply wfits_r, dump_rfits; exact H); try (apply upsert_wfits; exact H);
    try (apply (wfits_many import_path); [exact import_wfits|exact H]);
    try (apply wfits_r, (rfits_many (fun q => q = read)); [intros ? ->; apply rfits_read|exact H]).
  - destruct H as [-> | ->]; auto using wfits_r, rfits_read, rfits_inside.
  - destruct H as [-> |(q & Hq & ->)]; auto using wfits_r, rfits_read, rfits_inside, search_rfits.
  - destruct H as [-> |(q & Hq & ->)]; auto using wfits_r, rfits_read, rfits_inside, search_rfits.
  - destruct H as [-> |(q & Hq & ->)]; auto using wfits_r, rfits_read, rfits_inside, search_rfits.
  - destruct H as (q & Hq & ->). apply wfits_r, rfits_inside, (rfits_many search_path); auto using search_rfits.
  - destruct H as [-> |H]; auto using wfits_nil, wfits_r, dump_rfits.
  - destruct H as (q & Hq & ->). apply wfits_r, rfits_inside, (rfits_many (fun r => r = read)); auto. intros ? ->. apply rfits_read.
  - destruct H as [-> | ->]; auto using wfits_nil, wfits_write.
Qed.

(** Paths without nesting: sequences of plain sections. *)
Inductive flat : list action -> Prop :=
| flat_nil : flat []
| flat_read p : flat p -> flat (RL :: RU :: p)
| flat_write p : flat p -> flat (WL :: WU :: p).
Lemma flat_sensible p : flat p -> sensible 0 p = true.
Proof. induction 1; auto. Qed.
Lemma flat_app p q : flat p -> flat q -> flat (p ++ q).
Proof. induction 1; cbn; auto using flat. Qed.
Lemma flat_not_nests p : flat p -> ~ nests p.
Proof.
  intros F (a & b & E & H). revert a E. induction F as [|p F IH|p F IH]; intros a E.
  - destruct a; discriminate.
  - destruct a as [|x [|y a]]; cbn in E.
    + injection E as <-. cbn [held] in H. rewrite (sensible_held _ _ (flat_sensible _ F)) in H. lia.
    + injection E as <- E. discriminate.
    + injection E as <- <- E. eapply IH. exact E.
  - destruct a as [|x [|y a]]; cbn in E; try discriminate. injection E as <- <- E. eapply IH. exact E.
Qed.
Lemma flat_r : flat read. Proof. repeat constructor. Qed.
Lemma flat_w : flat write. Proof. repeat constructor. Qed.
Lemma flat_many (P : list action -> Prop) : (forall p, P p -> flat p) -> forall p, many P p -> flat p.
Proof. intros H p Hm. induction Hm; [constructor|apply flat_app; auto]. Qed.
Lemma flat_search p : search_path p -> flat p.
Proof. intros []; auto using flat_r, flat_app. Qed.

Lemma reenters_exact c : reenters c = true <-> exists p, path c p /\ nests p.
Proof.
  split.
  - intros H. assert (Nr : nests (inside read)) by (exists [RL], [RU; RU]; split; [reflexivity|cbn; lia]).
    destruct c; try discriminate; cbn [path].
    + exists (inside read). auto.
    + exists (inside read). split; [right; exists read; split; [constructor|reflexivity]|exact Nr].
    + exists (inside read). split; [right; exists read; split; [constructor|reflexivity]|exact Nr].
    + exists (inside read). split; [right; exists read; split; [constructor|reflexivity]|exact Nr].
    + exists (inside read). split; [exists (read ++ []); split; [constructor; constructor|reflexivity]|exact Nr].
    + exists (inside read). split; [constructor|exact Nr].
    + exists (inside read). split; [right; constructor|exact Nr].
    + exists (inside read). split; [exists (read ++ []); split; [constructor; [reflexivity|constructor]|reflexivity]|exact Nr].
    + exists (read ++ inside read). split; [constructor|]. exists [RL; RU; RL], [RU; RU]. split; [reflexivity|cbn; lia].
    + exists ((read ++ inside read) ++ []). split; [constructor; [apply im_plain; constructor|constructor]|]. exists [RL; RU; RL], [RU; RU]. split; [reflexivity|cbn; lia].
    + exists ((read ++ inside read) ++ []). split; [constructor; [apply im_plain; constructor|constructor]|]. exists [RL; RU; RL], [RU; RU]. split; [reflexivity|cbn; lia].
  - intros (p & Hp & Np). destruct (reenters c) eqn:R; [reflexivity|]. exfalso. apply (flat_not_nests p); [|exact Np].
    destruct c; try discriminate R; cbn [path] in Hp; try (subst p; auto using flat_r, flat_w, flat_nil; fail); try (apply flat_search; exact Hp);
      try (apply (flat_many (fun q => q = read)); [intros ? ->; apply flat_r|exact Hp]).
    destruct Hp as [-> | ->]; auto using flat_nil, flat_w.
Qed.
Lemma no_write_app p q : ~ writes p -> ~ writes q -> ~ writes (p ++ q).
Proof. unfold writes. intros A B H. apply in_app_or in H as [H|H]; auto. Qed.
Lemma no_write_many (P : list action -> Prop) : (forall p, P p -> ~ writes p) -> forall p, many P p -> ~ writes p.
Proof. intros H p Hm. induction Hm; [intros []|apply no_write_app; auto]. Qed.
Lemma no_write_read : ~ writes read. Proof. intros [H|[H|[]]]; discriminate. Qed.
Lemma no_write_inside p : ~ writes p -> ~ writes (inside p).
Proof. unfold writes, inside. intros A [H|H]; [discriminate|]. apply in_app_or in H as [H|[H|[]]]; [auto|discriminate]. Qed.
Lemma no_write_search p : search_path p -> ~ writes p.
Proof. intros []; auto using no_write_read, no_write_app. Qed.
Lemma no_write_dump p : dump_path p -> ~ writes p.
Proof. intros []; auto using no_write_read, no_write_inside. Qed.
Lemma excludes_exact c : excludes c = true <-> exists p, path c p /\ writes p.
Proof.
  split.
  - intros H. assert (Ww : writes write) by (left; reflexivity).
    destruct c; try discriminate; cbn [path]; try (exists write; auto; fail).
    + exists (read ++ write). split; [constructor|]. right. right. left. reflexivity.
    + exists ((read ++ write) ++ []). split; [constructor; [apply im_plain; constructor|constructor]|]. right. right. left. reflexivity.
    + exists ((read ++ write) ++ []). split; [constructor; [apply im_plain; constructor|constructor]|]. right. right. left. reflexivity.
  - intros (p & Hp & Wp). destruct (excludes c) eqn:R; [reflexivity|]. exfalso. revert Wp. change (~ writes p).
    destruct c; try discriminate R; cbn [path] in Hp; try (subst p; auto using no_write_read; fail); try (apply no_write_search; exact Hp);
      try (apply (no_write_many (fun q => q = read)); [intros ? ->; apply no_write_read|exact Hp]); try (apply no_write_dump; exact Hp).
    + destruct Hp as [-> | ->]; auto using no_write_read, no_write_inside.
    + destruct Hp as [-> |(q & Hq & ->)]; auto using no_write_read, no_write_inside, no_write_search.
    + destruct Hp as [-> |(q & Hq & ->)]; auto using no_write_read, no_write_inside, no_write_search.
    + destruct Hp as [-> |(q & Hq & ->)]; auto using no_write_read, no_write_inside, no_write_search.
    + destruct Hp as (q & Hq & ->). apply no_write_inside, (no_write_many search_path); auto using no_write_search.
    + destruct Hp as [-> |Hp]; [intros []|auto using no_write_dump].
    + destruct Hp as (q & Hq & ->). apply no_write_inside, (no_write_many (fun r => r = read)); auto. intros ? ->. apply no_write_read.
Qed.

Lemma path_exists c : exists p, path c p.
Proof.
  destruct c; cbn [path]; try (exists read; reflexivity); try (exists write; reflexivity); try (exists []; reflexivity); try (exists []; constructor; fail); try (exists read; left; reflexivity); try (exists read; constructor; fail).
  - exists (inside []). exists []. split; [constructor|reflexivity].
  - exists []. left. reflexivity.
  - exists (inside []). exists []. split; [constructor|reflexivity].
  - exists []. left. reflexivity.
Qed.
Lemma choose_paths cs : forall R : nat -> list action -> Prop, (forall k c, nth_error cs k = Some c -> exists p, path c p /\ R k p) ->
  exists ps, Forall2 path cs ps /\ forall k, k < length cs -> R k (nth k ps []).
Proof.
  induction cs as [|c cs IH]; intros R H; [exists []; split; [constructor|intros k Hk; cbn in Hk; lia]|].
  destruct (H 0 c eq_refl) as (p & P1 & P2). destruct (IH (fun k => R (S k))) as (ps & Q1 & Q2); [intros k x Hx; apply (H (S k) x Hx)|].
  exists (p :: ps). split; [constructor; auto|]. intros [|k] Hk; cbn in *; [exact P2|apply Q2; lia].
Qed.
Lemma paths_at cs ps : Forall2 path cs ps -> forall k, (exists c, nth_error cs k = Some c /\ path c (nth k ps [])) \/ nth k ps [] = [].
Proof. induction 1 as [|c p cs ps H F IH]; intros [|k]; cbn; eauto. Qed.

Lemma effective_bound ts sched : forall s, inv ts s -> effective sched s <= size s.
Proof.
  induction sched as [|i sched IH]; intros s Hi; cbn [effective]; [lia|]. specialize (IH _ (inv_step ts i s Hi)). destruct (state_eq_dec (lock_step i s) s) as [E|E]; [rewrite E in *; exact IH|].
  pose proof (step_size ts i s Hi E). lia.
Qed.
