(** C36, C88: concurrent calls and the mutex of the store. *)
From Coq Require Import List Arith Bool Lia.
From Verif Require Import LockModel LockSpec LockProofs.
Import ListNotations.

(** C88: concurrent calls can reach a state in which one of them waits for ever exactly when
    one of them is a method that takes the read lock while holding it, and another one is
    a method that takes the write lock. *)
Theorem deadlock_exact : forall cs,
  can_deadlock cs <-> exists i j a b, i <> j /\ nth_error cs i = Some a /\ nth_error cs j = Some b /\ reenters a = true /\ excludes b = true.
Proof.
  intros cs. split.
  - intros (ps & F & sched & i & Hw & W).
    assert (Hs : forall k, sensible 0 (nth k ps []) = true).
    { intros k. destruct (paths_at cs ps F k) as [(c & _ & Hp)|E]; [eapply path_sensible; eauto|rewrite E; reflexivity]. }
    set (found := existsb (fun '(x, y) => negb (Nat.eqb x y) && match nth_error cs x, nth_error cs y with Some a, Some b => reenters a && excludes b | _, _ => false end)
                    (list_prod (seq 0 (length cs)) (seq 0 (length cs)))).
    destruct found eqn:Ef.
    + apply existsb_exists in Ef as ((x, y) & _ & H). apply andb_true_iff in H as [N H]. destruct (nth_error cs x) as [a|] eqn:Ea; [|discriminate]. destruct (nth_error cs y) as [b|] eqn:Eb; [|discriminate].
      apply andb_true_iff in H as [Ra Xb]. exists x, y, a, b. split; [|auto]. destruct (Nat.eqb_spec x y); [discriminate|assumption].
    + exfalso. assert (Nc : ~ conflict ps).
      { intros (x & y & Nxy & Hn & Hwr). apply not_true_iff_false in Ef. apply Ef. apply existsb_exists. exists (x, y).
        destruct (paths_at cs ps F x) as [(a & Ea & Pa)|E]; [|rewrite E in Hn; destruct Hn as ([|? ?] & b & X & _); discriminate].
        destruct (paths_at cs ps F y) as [(b & Eb & Pb)|E]; [|rewrite E in Hwr; destruct Hwr].
        split.
        - apply in_prod; apply in_seq; split; try lia; cbn; apply nth_error_Some; congruence.
        - rewrite Ea, Eb. rewrite (proj2 (reenters_exact a)) by eauto. rewrite (proj2 (excludes_exact b)) by eauto. destruct (Nat.eqb_spec x y); [congruence|reflexivity]. }
      destruct (can_finish ps (lock_run sched (lock_init ps))) as (sched' & D); [apply inv_run, inv_init; exact Hs|exact Nc|].
      apply Hw. rewrite <- (W sched'). apply D.
  - intros (i & j & a & b & Nij & Ea & Eb & Ra & Xb). apply reenters_exact in Ra as (p & Pp & Np). apply excludes_exact in Xb as (q & Pq & Wq).
    destruct (choose_paths cs (fun k x => (k = i -> nests x) /\ (k = j -> writes x))) as (ps & F & H).
    { intros k c Ek. destruct (Nat.eq_dec k i) as [->|Ni]; [|destruct (Nat.eq_dec k j) as [->|Nj]].
      - assert (c = a) as -> by congruence. exists p. split; [exact Pp|]. split; [auto|congruence].
      - assert (c = b) as -> by congruence. exists q. split; [exact Pq|]. split; [congruence|auto].
      - destruct (path_exists c) as (x & Px). exists x. split; [exact Px|]. split; congruence. }
    destruct (deadlock ps i j) as (sched & W & _); [|exact Nij| | |].
    + intros k. destruct (paths_at cs ps F k) as [(c & _ & Hp)|E]; [eapply path_sensible; eauto|rewrite E; reflexivity].
    + apply (H i); [apply nth_error_Some; congruence|reflexivity].
    + apply (H j); [apply nth_error_Some; congruence|reflexivity].
    + exists ps. split; [exact F|]. exists sched, i. exact W.
Qed.
Example deadlock_exact_ex : can_deadlock [Search; GetCollectionStats; GetByID; DeleteBatch] /\ ~ can_deadlock [Search; DeleteBatch; CloseStore; RecommendSimilar; CreateCollection].
Proof.
  split.
  - apply deadlock_exact. exists 1, 3, GetCollectionStats, DeleteBatch. repeat split; auto.
  - rewrite deadlock_exact. intros (i & j & a & b & _ & Ea & _ & Ra & _). apply nth_error_In in Ea. cbn in Ea. destruct Ea as [<-|[<-|[<-|[<-|[<-|[]]]]]]; discriminate.
Qed.

(** C88: otherwise all calls finish: from every state any schedule reaches, some further schedule
    completes all of them, as long as one is not done one of them can proceed, and no
    schedule contains more than twice as many steps that get a call further as there are lock
    operations. *)
Theorem calls_finish : forall cs ps sched,
  (forall i j a b, i <> j -> nth_error cs i = Some a -> nth_error cs j = Some b -> reenters a = true -> excludes b = false) ->
  Forall2 path cs ps ->
  let s := lock_run sched (lock_init ps) in
  (exists sched', all_done (lock_run sched' s)) /\
  (all_done s \/ exists i, lock_step i s <> s) /\
  effective sched (lock_init ps) <= 2 * length (concat ps).
Proof.
  intros cs ps sched H F s.
  assert (Hs : forall k, sensible 0 (nth k ps []) = true).
  { intros k. destruct (paths_at cs ps F k) as [(c & _ & Hp)|E]; [eapply path_sensible; eauto|rewrite E; reflexivity]. }
  assert (Nc : ~ conflict ps).
  { intros (x & y & Nxy & Hn & Hwr).
    destruct (paths_at cs ps F x) as [(a & Ea & Pa)|E]; [|rewrite E in Hn; destruct Hn as ([|? ?] & b & X & _); discriminate].
    destruct (paths_at cs ps F y) as [(b & Eb & Pb)|E]; [|rewrite E in Hwr; destruct Hwr].
    assert (Ra : reenters a = true) by (apply reenters_exact; eauto). assert (Xb : excludes b = true) by (apply excludes_exact; eauto).
    specialize (H x y a b Nxy Ea Eb Ra). congruence. }
  pose proof (inv_init ps Hs) as I0. assert (Is : inv ps s) by (apply inv_run; exact I0).
  split; [eapply can_finish; eauto|]. split.
  - destruct (existsb (fun p => match p with [] => false | _ => true end) (l_calls s)) eqn:Ex.
    + right. apply (progress ps s Is Nc). apply existsb_exists in Ex as (p & Hp & Np). apply (In_nth _ _ []) in Hp as (i & _ & Ei). exists i. unfold left_of. rewrite Ei. destruct p; discriminate.
    + left. intros i. unfold left_of. destruct (nth i (l_calls s) []) as [|x r] eqn:E; [reflexivity|]. exfalso. apply not_true_iff_false in Ex. apply Ex.
      apply existsb_exists. exists (x :: r). split; [|reflexivity]. rewrite <- E. apply nth_In, nth_nonempty. congruence.
  - eapply Nat.le_trans; [apply (effective_bound ps); exact I0|]. unfold size, lock_init. cbn [l_calls l_writer].
    assert (L : fold_right (fun p n => length p + n) 0 ps = length (concat ps)); [|lia]. clear. induction ps as [|p ps IH]; [reflexivity|]. cbn. rewrite app_length, IH. reflexivity.
Qed.
Example calls_finish_ex : forall i j a b, i <> j -> nth_error [Search; Upsert; GetByID; Aggregate] i = Some a -> nth_error [Search; Upsert; GetByID; Aggregate] j = Some b -> reenters a = true -> excludes b = false.
Proof.
  intros [|[|[|[|[|i]]]]] [|[|[|[|[|j]]]]] a b N; cbn; intros [= <-] [= <-]; try discriminate; auto; congruence.
Qed.

(** C36 as stated is false: reading a collection's statistics while another goroutine
    creates a collection can block both for ever, and so can two concurrent first Upserts
    into a store that does not know its dimension yet, when one names its collection. *)
Theorem concurrent_calls_block_refuted :
  can_deadlock [GetCollectionStats; CreateCollection] /\ can_deadlock [Upsert; Upsert] /\
  (let ps := [read ++ write ++ inside read; read ++ write ++ read] in
   Forall2 path [Upsert; Upsert] ps /\
   exists sched, waits_forever 0 (lock_run sched (lock_init ps)) /\ waits_forever 1 (lock_run sched (lock_init ps))).
Proof.
  split; [|split].
  - apply deadlock_exact. exists 0, 1, GetCollectionStats, CreateCollection. repeat split; auto.
  - apply deadlock_exact. exists 0, 1, Upsert, Upsert. repeat split; auto.
  - cbv zeta. split; [repeat constructor|]. apply deadlock; auto.
    + intros [|[|[|k]]]; reflexivity.
    + exists [RL; RU; WL; WU; RL], [RU; RU]. split; [reflexivity|cbn; lia].
    + right. right. left. reflexivity.
Qed.

Print Assumptions deadlock_exact.
Print Assumptions calls_finish.
Print Assumptions concurrent_calls_block_refuted.
