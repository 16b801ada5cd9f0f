From Coq Require Import List Arith Bool Lia Permutation Sorted.
From Verif Require Import Base HeapModel.
Import ListNotations.

Section HP.
Context {A : Type}.
Variable less : A -> A -> bool.

Lemma set_nth_length i (x : A) l : length (set_nth i x l) = length l.
Proof. revert i; induction l as [|y l IH]; intros [|i]; cbn; auto. Qed.
Lemma set_nth_same i (x : A) l : i < length l -> nth_error (set_nth i x l) i = Some x.
Proof. revert i; induction l as [|y l IH]; intros [|i] H; cbn in *; try lia; auto. apply IH; lia. Qed.
Lemma set_nth_other i j (x : A) l : i <> j -> nth_error (set_nth i x l) j = nth_error l j.
Proof. revert i j; induction l as [|y l IH]; intros [|i] [|j] H; cbn in *; auto; try congruence. Qed.

Lemma nth_error_lt (l : list A) i : i < length l -> exists x, nth_error l i = Some x.
Proof. intros H. destruct (nth_error l i) eqn:E; eauto. apply nth_error_None in E. lia. Qed.

Lemma swap_length i j (l : list A) : length (swap i j l) = length l.
Proof. unfold swap. destruct (nth_error l i), (nth_error l j); auto. rewrite !set_nth_length; auto. Qed.
Lemma swap_nth i j (l : list A) k : i < length l -> j < length l ->
  nth_error (swap i j l) k = nth_error l (if Nat.eqb k i then j else if Nat.eqb k j then i else k).
Proof.
  intros Hi Hj. unfold swap. destruct (nth_error_lt l i Hi) as [a Ha]. destruct (nth_error_lt l j Hj) as [b Hb]. rewrite Ha, Hb.
  destruct (Nat.eqb_spec k i) as [->|N1].
  - rewrite set_nth_same by (rewrite set_nth_length; auto). auto.
  - rewrite set_nth_other by auto. destruct (Nat.eqb_spec k j) as [->|N2].
    + rewrite set_nth_same by auto. auto.
    + rewrite set_nth_other by auto. auto.
Qed.
Lemma swap_perm i j (l : list A) : Permutation l (swap i j l).
Proof.
  destruct (Nat.lt_ge_cases i (length l)) as [Hi|Hi]; [destruct (Nat.lt_ge_cases j (length l)) as [Hj|Hj]|].
  - apply Permutation_nth_error. split; [rewrite swap_length; auto|].
    exists (fun k => if Nat.eqb k i then j else if Nat.eqb k j then i else k). split.
    + intros x y. destruct (Nat.eqb_spec x i), (Nat.eqb_spec x j), (Nat.eqb_spec y i), (Nat.eqb_spec y j); intros; subst; congruence.
    + intros k. apply swap_nth; auto.
  - unfold swap. rewrite (proj2 (nth_error_None l j)) by auto. destruct (nth_error l i); auto.
  - unfold swap. rewrite (proj2 (nth_error_None l i)) by auto. auto.
Qed.

Lemma up_perm f : forall j l, Permutation l (up less f j l).
Proof.
  induction f as [|f IH]; intros j l; cbn [up]; auto. destruct (_ || _); auto.
  eapply perm_trans; [apply (swap_perm ((j-1)/2) j)|apply IH].
Qed.
Lemma down_perm f : forall i n l, Permutation l (down less f i n l).
Proof.
  induction f as [|f IH]; intros i n l; cbn [down]; auto. destruct (Nat.leb _ _); auto. destruct (negb _); auto.
  eapply perm_trans; [apply swap_perm|apply IH].
Qed.
Lemma up_length f j l : length (up less f j l) = length l.
Proof. symmetry. apply Permutation_length, up_perm. Qed.
Lemma down_length f i n l : length (down less f i n l) = length l.
Proof. symmetry. apply Permutation_length, down_perm. Qed.

Lemma push_perm x l : Permutation (x :: l) (heap_push less x l).
Proof. unfold heap_push. eapply perm_trans; [|apply up_perm]. apply Permutation_cons_append. Qed.

(** [down] on the first n entries leaves the rest. *)
Lemma down_beyond f : forall i n l k, i < n -> n <= length l -> n <= k -> nth_error (down less f i n l) k = nth_error l k.
Proof.
  induction f as [|f IH]; intros i n l k Hi Hn Hk; cbn [down]; auto.
  destruct (Nat.leb_spec n (2 * i + 1)); auto.
  set (j := if Nat.ltb (2*i+1+1) n && less_at less l (2*i+1+1) (2*i+1) then 2*i+1+1 else 2*i+1).
  assert (Hj : j < n). { unfold j. destruct (Nat.ltb_spec (2*i+1+1) n); cbn [andb]; [destruct (less_at _ _ _ _)|]; lia. }
  destruct (negb _); auto. rewrite IH; try lia; [|rewrite swap_length; auto].
  rewrite swap_nth by lia. destruct (Nat.eqb_spec k i); [lia|]. destruct (Nat.eqb_spec k j); [lia|]. auto.
Qed.

Lemma firstn_last_split (l : list A) n x : length l = S n -> nth_error l n = Some x -> l = firstn n l ++ [x].
Proof.
  intros H E. rewrite <- (firstn_skipn n l) at 1. f_equal.
  assert (L : length (skipn n l) = 1) by (rewrite skipn_length; lia).
  destruct (skipn n l) as [|y [|? ?]] eqn:S; cbn in L; try lia.
  rewrite <- (firstn_skipn n l), nth_error_app2 in E by (rewrite firstn_length; lia).
  rewrite firstn_length, S in E. replace (n - Nat.min n (length l)) with 0 in E by lia. cbn in E. congruence.
Qed.

Lemma pop_some l : l <> [] -> exists x l', heap_pop less l = Some (x, l') /\ hd_error l = Some x /\ Permutation l (x :: l').
Proof.
  intros H. assert (Hu : heap_pop less l = let n := length l - 1 in let l' := down less (length l) 0 n (swap 0 n l) in
    match nth_error l' n with Some x => Some (x, firstn n l') | None => None end) by (destruct l; [congruence|reflexivity]).
  rewrite Hu. cbv zeta. destruct l as [|a l0] eqn:El; [congruence|]. rewrite <- El in *.
  set (n := length l - 1). set (l1 := down less (length l) 0 n (swap 0 n l)).
  assert (Hl : length l = S n) by (unfold n; rewrite El; cbn; lia).
  assert (Hl1 : length l1 = S n) by (unfold l1; rewrite down_length, swap_length; auto).
  assert (E : nth_error l1 n = Some a).
  { destruct (Nat.eq_dec n 0) as [E0|N0].
    - unfold l1. rewrite E0. rewrite E0, El in Hl. destruct l0; [|discriminate Hl]. rewrite El. reflexivity.
    - unfold l1. rewrite down_beyond; [|lia|rewrite swap_length; lia|lia].
      rewrite swap_nth by lia. destruct (Nat.eqb_spec n 0); [lia|]. rewrite Nat.eqb_refl. rewrite El. reflexivity. }
  rewrite E. eexists. eexists. split; [reflexivity|]. split; [rewrite El; reflexivity|].
  assert (P : Permutation l l1) by (unfold l1; eapply perm_trans; [apply (swap_perm 0 n)|apply down_perm]).
  eapply perm_trans; [exact P|]. rewrite (firstn_last_split l1 n a Hl1 E) at 1. apply Permutation_sym, Permutation_cons_append.
Qed.
Lemma pop_none l : heap_pop less l = None -> l = [].
Proof. intros H. destruct l as [|a l]; auto. destruct (pop_some (a :: l)) as (x & l' & E & _); [discriminate|]. congruence. Qed.
Lemma pop_perm l x l' : heap_pop less l = Some (x, l') -> Permutation l (x :: l').
Proof.
  intros H. destruct l as [|a l]; [discriminate|]. destruct (pop_some (a :: l)) as (y & l2 & E & _ & P); [discriminate|].
  rewrite H in E. injection E as <- <-. exact P.
Qed.
Lemma pop_hd l x l' : heap_pop less l = Some (x, l') -> hd_error l = Some x.
Proof.
  intros H. destruct l as [|a l]; [discriminate|]. destruct (pop_some (a :: l)) as (y & l2 & E & Hh & P); [discriminate|].
  rewrite H in E. injection E as <- <-. exact Hh.
Qed.

Lemma drain_perm f : forall l, length l <= f -> Permutation l (heap_drain less f l).
Proof.
  induction f as [|f IH]; intros l H; cbn [heap_drain].
  - destruct l; [auto|cbn in H; lia].
  - destruct (heap_pop less l) as [[x l']|] eqn:E.
    + pose proof (pop_perm _ _ _ E) as P. eapply perm_trans; [exact P|]. constructor. apply IH.
      apply Permutation_length in P. cbn in P. lia.
    + apply pop_none in E. subst. auto.
Qed.

(** *** the heap order *)
Definition at_ (l : list A) (i : nat) (P : A -> Prop) : Prop := forall x, nth_error l i = Some x -> P x.
(** No entry before [n] is less than its parent. *)
Definition heap_upto (n : nat) (l : list A) : Prop :=
  forall j, 0 < j < n -> less_at less l j ((j - 1) / 2) = false.
Definition heap_ok (l : list A) : Prop := heap_upto (length l) l.

Variable dom : A -> Prop.
Hypothesis asym : forall x y, dom x -> dom y -> less x y = true -> less y x = false.
Hypothesis ntrans : forall x y z, dom x -> dom y -> dom z -> less y x = false -> less z y = false -> less z x = false.

Lemma irrefl x : dom x -> less x x = false.
Proof. intros H. destruct (less x x) eqn:E; auto. rewrite (asym x x H H E) in E. discriminate. Qed.

Lemma less_at_spec l i j a b : nth_error l i = Some a -> nth_error l j = Some b -> less_at less l i j = less a b.
Proof. unfold less_at. intros -> ->. auto. Qed.
Lemma dom_nth l i a : Forall dom l -> nth_error l i = Some a -> dom a.
Proof. intros H E. rewrite Forall_forall in H. apply H. eapply nth_error_In; eauto. Qed.
Lemma Forall_swap i j l : Forall dom l -> Forall dom (swap i j l).
Proof. intros H. eapply Permutation_Forall; [apply swap_perm|exact H]. Qed.

Lemma less_at_ntrans l i j k : Forall dom l -> i < length l -> j < length l -> k < length l ->
  less_at less l j i = false -> less_at less l k j = false -> less_at less l k i = false.
Proof.
  intros D Hi Hj Hk. destruct (nth_error_lt l i Hi) as [a Ha], (nth_error_lt l j Hj) as [b Hb], (nth_error_lt l k Hk) as [c Hc].
  rewrite (less_at_spec l j i b a), (less_at_spec l k j c b), (less_at_spec l k i c a) by auto.
  apply ntrans; eapply dom_nth; eauto.
Qed.
Lemma less_at_asym l i j : Forall dom l -> less_at less l i j = true -> less_at less l j i = false.
Proof.
  intros D. unfold less_at. destruct (nth_error l i) eqn:Ei, (nth_error l j) eqn:Ej; auto. apply asym; eapply dom_nth; eauto.
Qed.
Lemma less_at_irrefl l i : Forall dom l -> less_at less l i i = false.
Proof. intros D. unfold less_at. destruct (nth_error l i) eqn:Ei; auto. apply irrefl; eapply dom_nth; eauto. Qed.
Lemma less_at_swap i j l a b : i < length l -> j < length l ->
  less_at less (swap i j l) a b = less_at less l (if Nat.eqb a i then j else if Nat.eqb a j then i else a)
                                                 (if Nat.eqb b i then j else if Nat.eqb b j then i else b).
Proof. intros Hi Hj. unfold less_at. rewrite !swap_nth by auto. reflexivity. Qed.

Lemma parent_lt j : 0 < j -> (j - 1) / 2 < j.
Proof. intros. apply Nat.div_lt_upper_bound; lia. Qed.
Lemma parent_child j i : 0 < j -> (j - 1) / 2 = i -> j = 2 * i + 1 \/ j = 2 * i + 2.
Proof.
  intros H E. pose proof (Nat.div_mod (j - 1) 2 ltac:(lia)) as D. pose proof (Nat.mod_upper_bound (j-1) 2 ltac:(lia)). lia.
Qed.
Lemma child_parent i : (2 * i + 1 - 1) / 2 = i /\ (2 * i + 2 - 1) / 2 = i.
Proof.
  split.
  - replace (2 * i + 1 - 1) with (i * 2) by lia. apply Nat.div_mul; lia.
  - replace (2 * i + 2 - 1) with (1 + i * 2) by lia. rewrite Nat.div_add by lia. reflexivity.
Qed.

(** up: everything is in order except possibly between j and its parent; the
    children of j are not less than j's parent. *)
Lemma up_ok f : forall j l, Forall dom l -> j < length l -> j < f ->
  (forall k, 0 < k < length l -> k <> j -> less_at less l k ((k - 1) / 2) = false) ->
  (forall k, 0 < k < length l -> (k - 1) / 2 = j -> 0 < j -> less_at less l k ((j - 1) / 2) = false) ->
  heap_ok (up less f j l).
Proof.
  induction f as [|f IH]; intros j l D Hj Hf H1 H2; [lia|]. cbn [up].
  set (i := (j - 1) / 2). destruct (Nat.eqb_spec i j) as [E|N]; cbn [orb].
  - assert (j = 0). { destruct j; auto. pose proof (parent_lt (S j) ltac:(lia)). unfold i in E. lia. }
    intros k Hk. apply H1; lia.
  - assert (Hpos : 0 < j). { destruct j; [|lia]. unfold i in N. cbn in N. congruence. }
    pose proof (parent_lt j Hpos) as Hp. fold i in Hp.
    destruct (less_at less l j i) eqn:L; cbn [negb].
    + apply IH.
      * apply Forall_swap; auto.
      * rewrite swap_length; lia.
      * lia.
      * rewrite swap_length. intros k Hk Nk. rewrite less_at_swap by lia.
        destruct (Nat.eqb_spec k i); [lia|]. destruct (Nat.eqb_spec k j) as [->|Nkj].
        -- fold i. rewrite Nat.eqb_refl. apply less_at_asym; auto.
        -- destruct (Nat.eqb_spec ((k-1)/2) i) as [Ek|Nki].
           ++ assert (Lk : less_at less l k i = false) by (rewrite <- Ek; apply H1; auto).
              apply (less_at_ntrans l j i k); try lia; auto. apply less_at_asym; auto.
           ++ destruct (Nat.eqb_spec ((k-1)/2) j) as [Ekj|Nkj2].
              ** apply H2; auto.
              ** apply H1; auto.
      * rewrite swap_length. intros k Hk Ek Hi. rewrite less_at_swap by lia.
        pose proof (parent_lt i Hi) as Hpi.
        destruct (Nat.eqb_spec ((i-1)/2) i); [lia|]. destruct (Nat.eqb_spec ((i-1)/2) j); [lia|].
        assert (Li : less_at less l i ((i-1)/2) = false) by (apply H1; lia).
        destruct (Nat.eqb_spec k i) as [->|Nki]; [pose proof (parent_lt i Hi); lia|].
        destruct (Nat.eqb_spec k j) as [->|Nkj]; auto.
        assert (Lk : less_at less l k i = false) by (rewrite <- Ek; apply H1; auto).
        apply (less_at_ntrans l _ i k); auto; lia.
    + intros k Hk. destruct (Nat.eq_dec k j) as [->|Nk]; auto.
Qed.

Lemma push_heap x l : Forall dom (x :: l) -> heap_ok l -> heap_ok (heap_push less x l).
Proof.
  intros D H. unfold heap_push. set (l1 := l ++ [x]). assert (L : length l1 = S (length l)) by (unfold l1; rewrite app_length; cbn; lia).
  inversion D; subst. apply up_ok.
  - apply Forall_app. split; auto.
  - lia.
  - lia.
  - intros k Hk Nk. unfold less_at, l1. rewrite !nth_error_app1; try lia.
    + apply H. lia.
    + pose proof (parent_lt k ltac:(lia)). lia.
  - intros k Hk Ek _. pose proof (parent_lt k ltac:(lia)). lia.
Qed.

(** down. *)
Lemma down_ok f : forall i n l, Forall dom l -> n <= length l -> n - i <= f -> i < n ->
  (forall k, 0 < k < n -> (k - 1) / 2 <> i -> less_at less l k ((k - 1) / 2) = false) ->
  (forall k, 0 < k < n -> (k - 1) / 2 = i -> 0 < i -> less_at less l k ((i - 1) / 2) = false) ->
  heap_upto n (down less f i n l).
Proof.
  induction f as [|f IH]; intros i n l D Hn Hf Hi H1 H2; [lia|]. cbn [down].
  destruct (Nat.leb_spec n (2 * i + 1)) as [Hle|Hgt].
  - intros k Hk. apply H1; auto. intros E. apply parent_child in E; lia.
  - set (c1 := 2 * i + 1) in *.
    set (j := if Nat.ltb (c1+1) n && less_at less l (c1+1) c1 then c1 + 1 else c1).
    destruct (child_parent i) as [P1 P2].
    assert (Hj : j < n /\ 0 < j /\ (j - 1) / 2 = i /\ i < j).
    { unfold j. destruct (Nat.ltb_spec (c1+1) n); cbn [andb]; [destruct (less_at _ _ _ _)|]; unfold c1 in *; repeat split; try lia;
        try exact P1; replace (2*i+1+1) with (2*i+2) by lia; exact P2. }
    destruct Hj as (Hjn & Hj0 & Hjp & Hij).
    assert (Hmin : forall k, 0 < k < n -> (k - 1) / 2 = i -> less_at less l k j = false).
    { intros k Hk Ek. apply parent_child in Ek; [|lia]. unfold j.
      destruct (Nat.ltb_spec (c1+1) n); cbn [andb].
      - destruct (less_at less l (c1+1) c1) eqn:L; destruct Ek as [->| ->]; fold c1.
        + apply less_at_asym; auto.
        + replace (2*i+2) with (c1+1) by (unfold c1; lia). apply less_at_irrefl; auto.
        + apply less_at_irrefl; auto.
        + replace (2*i+2) with (c1+1) by (unfold c1; lia). auto.
      - destruct Ek as [->| ->]; [fold c1; apply less_at_irrefl; auto|unfold c1 in *; lia]. }
    destruct (less_at less l j i) eqn:L; cbn [negb].
    + apply IH.
      * apply Forall_swap; auto.
      * rewrite swap_length; auto.
      * lia.
      * auto.
      * intros k Hk Nk. rewrite less_at_swap by lia.
        destruct (Nat.eqb_spec ((k-1)/2) j); [lia|].
        destruct (Nat.eqb_spec k i) as [->|Nki].
        -- (* k = i: its parent is above *)
           pose proof (parent_lt i ltac:(lia)). destruct (Nat.eqb_spec ((i-1)/2) i); [lia|].
           apply H2; try lia; auto.
        -- destruct (Nat.eqb_spec ((k-1)/2) i) as [Ek|Nkp].
           ++ destruct (Nat.eqb_spec k j) as [->|Nkj]; [apply less_at_asym; auto|]. apply Hmin; auto.
           ++ destruct (Nat.eqb_spec k j) as [->|Nkj]; [congruence|]. apply H1; auto.
      * intros k Hk Ek _. rewrite less_at_swap by lia. rewrite Hjp, Nat.eqb_refl.
        destruct (Nat.eqb_spec k i); [pose proof (parent_lt k ltac:(lia)); lia|].
        destruct (Nat.eqb_spec k j); [pose proof (parent_lt k ltac:(lia)); lia|].
        rewrite <- Ek. apply H1; auto. lia.
    + intros k Hk. destruct (Nat.eq_dec ((k-1)/2) i) as [E|N]; [|apply H1; auto].
      rewrite E. apply (less_at_ntrans l i j k); auto; lia.
Qed.

Lemma heap_upto_ext n l l' : (forall k, k < n -> nth_error l k = nth_error l' k) -> heap_upto n l -> heap_upto n l'.
Proof.
  intros E H j Hj. pose proof (parent_lt j ltac:(lia)). unfold less_at. rewrite <- !E by lia. apply H; auto.
Qed.
Lemma nth_error_firstn (l : list A) : forall n k, k < n -> nth_error (firstn n l) k = nth_error l k.
Proof. induction l as [|x l IH]; intros [|n] [|k] H; cbn; auto; try lia. apply IH; lia. Qed.

Lemma pop_heap l x l' : Forall dom l -> heap_ok l -> heap_pop less l = Some (x, l') -> heap_ok l' /\ Forall dom l'.
Proof.
  intros D H E. pose proof (pop_perm _ _ _ E) as P. pose proof (Permutation_length P) as PL. cbn in PL.
  split; [|pose proof (Permutation_Forall P D) as D'; inversion D'; auto].
  destruct l as [|a l0] eqn:El; [discriminate|]. rewrite <- El in *. 
  assert (Hu : heap_pop less l = let n := length l - 1 in let l' := down less (length l) 0 n (swap 0 n l) in
    match nth_error l' n with Some x => Some (x, firstn n l') | None => None end) by (rewrite El; reflexivity).
  rewrite Hu in E. cbv zeta in E.
  set (n := length l - 1) in *. destruct (nth_error _ n) eqn:En; [|discriminate]. injection E as <- El'.
  assert (Hln : length l = S n) by (unfold n; rewrite El; cbn; lia).
  unfold heap_ok. replace (length l') with n by lia. destruct (Nat.eq_dec n 0) as [Z|NZ]; [rewrite Z; intros j Hj; lia|].
  eapply heap_upto_ext; [intros k Hk; rewrite <- El'; symmetry; apply nth_error_firstn; exact Hk|].
  apply down_ok.
  - apply Forall_swap; auto.
  - rewrite swap_length; lia.
  - lia.
  - lia.
  - intros k Hk Nk. rewrite less_at_swap by lia. pose proof (parent_lt k ltac:(lia)).
    destruct (Nat.eqb_spec k 0); [lia|]. destruct (Nat.eqb_spec k n); [lia|]. destruct (Nat.eqb_spec ((k-1)/2) 0); [lia|].
    destruct (Nat.eqb_spec ((k-1)/2) n); [lia|]. apply H. lia.
  - intros; lia.
Qed.

(** The root is a minimum. *)
Lemma heap_root l : Forall dom l -> heap_ok l -> forall j, j < length l -> less_at less l j 0 = false.
Proof.
  intros D H j. induction j as [j IH] using lt_wf_ind. intros Hj. destruct (Nat.eq_dec j 0) as [->|N]; [apply less_at_irrefl; auto|].
  pose proof (parent_lt j ltac:(lia)). apply (less_at_ntrans l 0 ((j-1)/2) j); auto; try lia; [apply IH; lia|]. apply H. lia.
Qed.
Lemma heap_min l r x : Forall dom l -> heap_ok l -> hd_error l = Some r -> In x l -> less x r = false.
Proof.
  intros D H Hr Hx. apply In_nth_error in Hx as [j Ej].
  assert (Hj : j < length l) by (apply nth_error_Some; congruence).
  pose proof (heap_root l D H j Hj) as L. rewrite (less_at_spec l j 0 x r) in L; auto. all: destruct l; auto.
Qed.

(** Popping until empty sorts. *)
Lemma drain_sorted f : forall l, Forall dom l -> heap_ok l -> length l <= f -> StronglySorted (fun a b => less b a = false) (heap_drain less f l).
Proof.
  induction f as [|f IH]; intros l D H Hl; cbn [heap_drain]; [constructor|].
  destruct (heap_pop less l) as [[x l']|] eqn:E; [|constructor].
  pose proof (pop_perm _ _ _ E) as P. pose proof (pop_heap _ _ _ D H E) as [H' D']. pose proof (Permutation_length P) as PL. cbn in PL.
  constructor; [apply IH; auto; lia|]. apply Forall_forall. intros y Hy.
  apply (Permutation_in y (Permutation_sym (drain_perm f l' ltac:(lia)))) in Hy.
  eapply heap_min; [exact D|exact H|eapply pop_hd; exact E|]. eapply Permutation_in; [apply Permutation_sym; exact P|right; auto].
Qed.
End HP.
