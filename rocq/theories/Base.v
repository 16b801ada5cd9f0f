(** Shared vocabulary of the model: outcomes, sorting and list facts.
    Nothing in this file models a particular function of /repo; it fixes how Go
    results, sort.Slice and hand-written exchange sorts are represented. *)
From Coq Require Import List Bool Arith Lia Permutation Sorted.
Import ListNotations.

(** Error values.  Sentinels of /repo/pkg/core/errors.go:9-33 plus one value
    for every other fmt.Errorf. *)
Inductive err :=
  EInvalidDim | ENotFound | EInvalidVector | EClosed | EInvalidConfig | EEmptyQuery | EOther.

(** Result of a Go call: a value, an error return, or a run-time panic. *)
Inductive outcome (A : Type) :=
| Ok (a : A)
| Err (e : err)
| Panic.
Arguments Ok {A} a.
Arguments Err {A} e.
Arguments Panic {A}.

Definition bind {A B} (x : outcome A) (f : A -> outcome B) : outcome B :=
  match x with Ok a => f a | Err e => Err e | Panic => Panic end.

(** ** Sorting *)

(** [lt] behaves as a strict weak order on the elements of [l]. *)
Definition weak_order_on {A} (lt : A -> A -> bool) (l : list A) : Prop :=
  (forall x y, In x l -> In y l -> lt x y = true -> lt y x = false) /\
  (forall x y z, In x l -> In y l -> In z l ->
     lt y x = false -> lt z y = false -> lt z x = false).

(** Sorted: no element is less than an earlier one. *)
Definition sorted_by {A} (lt : A -> A -> bool) (l : list A) : Prop :=
  StronglySorted (fun a b => lt b a = false) l.

(** What Go's sort.Slice(l, less) guarantees: some permutation of the input,
    sorted whenever [less] is a strict weak order on the input. Not stable. *)
Definition sort_ok {A} (lt : A -> A -> bool) (srt : list A -> list A) : Prop :=
  forall l, Permutation l (srt l) /\ (weak_order_on lt l -> sorted_by lt (srt l)).

(** What Go's sort.SliceStable / sort.Stable guarantees additionally is not
    needed anywhere; insertion sort is one instance of [sort_ok]. *)
Fixpoint insert {A} (lt : A -> A -> bool) (x : A) (l : list A) : list A :=
  match l with
  | [] => [x]
  | y :: l' => if lt x y then x :: l else y :: insert lt x l'
  end.
Definition isort {A} (lt : A -> A -> bool) (l : list A) : list A :=
  fold_right (insert lt) [] l.

(** sort.Slice on at most 12 elements is Go's insertionSort: each element in turn
    moves left past every predecessor it is less than. The prefix is kept reversed. *)
Fixpoint move_left {A} (lt : A -> A -> bool) (x : A) (prefix : list A) : list A :=
  match prefix with
  | [] => [x]
  | y :: p' => if lt x y then y :: move_left lt x p' else x :: prefix
  end.
Definition go_isort {A} (lt : A -> A -> bool) (l : list A) : list A :=
  rev (fold_left (fun p x => move_left lt x p) l []).

(** The hand-written sort used all over /repo:
    [for i..n-1 { for j := i+1..n { if less(a[j], a[i]) { swap } } }].
    [ex_pass] is the inner loop with the carried a[i]. *)
Fixpoint ex_pass {A} (lt : A -> A -> bool) (x : A) (ys : list A) : A * list A :=
  match ys with
  | [] => (x, [])
  | y :: ys' =>
      if lt y x
      then let (m, r) := ex_pass lt y ys' in (m, x :: r)
      else let (m, r) := ex_pass lt x ys' in (m, y :: r)
  end.
Fixpoint ex_sort_fuel {A} (lt : A -> A -> bool) (n : nat) (l : list A) : list A :=
  match n, l with
  | S n', x :: ys => let (m, r) := ex_pass lt x ys in m :: ex_sort_fuel lt n' r
  | _, _ => l
  end.
Definition ex_sort {A} (lt : A -> A -> bool) (l : list A) : list A :=
  ex_sort_fuel lt (length l) l.

(** Partial version: only the first [k] outer iterations. *)
Definition ex_sort_k {A} (lt : A -> A -> bool) (k : nat) (l : list A) : list A :=
  ex_sort_fuel lt k l.

(** ** Lemmas on sorting *)

Lemma weak_order_on_perm {A} (lt : A -> A -> bool) l l' :
  Permutation l l' -> weak_order_on lt l -> weak_order_on lt l'.
Proof.
  intros HP [H1 H2]; split.
  - intros x y Hx Hy; apply H1; eapply Permutation_in; try apply Permutation_sym; eassumption.
  - intros x y z Hx Hy Hz; apply H2; eapply Permutation_in; try apply Permutation_sym; eassumption.
Qed.

Lemma weak_order_on_incl {A} (lt : A -> A -> bool) l l' :
  incl l' l -> weak_order_on lt l -> weak_order_on lt l'.
Proof.
  intros HP [H1 H2]; split.
  - intros x y Hx Hy; apply H1; auto.
  - intros x y z Hx Hy Hz; apply H2; auto.
Qed.

Lemma insert_perm {A} (lt : A -> A -> bool) x l : Permutation (x :: l) (insert lt x l).
Proof.
  induction l as [|y l IH]; simpl; auto.
  destruct (lt x y); auto.
  eapply perm_trans; [apply perm_swap|]. constructor; exact IH.
Qed.

Lemma isort_perm {A} (lt : A -> A -> bool) l : Permutation l (isort lt l).
Proof.
  induction l as [|y l IH]; simpl; auto.
  eapply perm_trans; [|apply insert_perm]. constructor; exact IH.
Qed.

Lemma insert_sorted {A} (lt : A -> A -> bool) x l :
  weak_order_on lt (x :: l) -> sorted_by lt l -> sorted_by lt (insert lt x l).
Proof.
  intros HW HS; induction l as [|y l IH]; simpl.
  - constructor; constructor.
  - inversion HS as [|? ? HS' HF]; subst.
    destruct (lt x y) eqn:E.
    + constructor; [exact HS|]. constructor.
      * apply (proj1 HW); simpl; auto.
      * rewrite Forall_forall in HF |- *; intros z Hz.
        apply (proj2 HW) with y; simpl; auto.
        apply (proj1 HW); simpl; auto.
    + constructor.
      * apply IH; auto. eapply weak_order_on_incl; [|exact HW].
        intros z [<-|Hz]; simpl; auto.
      * rewrite Forall_forall in HF |- *; intros z Hz.
        apply (Permutation_in z (Permutation_sym (insert_perm lt x l))) in Hz.
        destruct Hz as [<-|Hz]; auto.
Qed.

Lemma isort_sorted {A} (lt : A -> A -> bool) l :
  weak_order_on lt l -> sorted_by lt (isort lt l).
Proof.
  induction l as [|x l IH]; simpl; intros HW; [constructor|].
  apply insert_sorted.
  - eapply weak_order_on_perm; [|exact HW]. constructor; apply isort_perm.
  - apply IH. eapply weak_order_on_incl; [|exact HW]. intros z Hz; simpl; auto.
Qed.

Lemma isort_ok {A} (lt : A -> A -> bool) : sort_ok lt (isort lt).
Proof. intros l; split; [apply isort_perm|apply isort_sorted]. Qed.

Lemma move_left_perm {A} (lt : A -> A -> bool) x l : Permutation (x :: l) (move_left lt x l).
Proof.
  induction l as [|y l IH]; simpl; auto. destruct (lt x y); auto.
  eapply perm_trans; [apply perm_swap|]. constructor; exact IH.
Qed.
Lemma go_fold_perm {A} (lt : A -> A -> bool) l : forall p, Permutation (l ++ p) (fold_left (fun p x => move_left lt x p) l p).
Proof.
  induction l as [|x l IH]; intros p; simpl; auto.
  eapply perm_trans; [|apply IH]. eapply perm_trans; [apply Permutation_middle|].
  apply Permutation_app_head. apply move_left_perm.
Qed.
Lemma move_left_sorted {A} (lt : A -> A -> bool) x l : weak_order_on lt (x :: l) ->
  StronglySorted (fun a b => lt a b = false) l -> StronglySorted (fun a b => lt a b = false) (move_left lt x l).
Proof.
  intros HW HS; induction l as [|y l IH]; simpl; [constructor; constructor|].
  inversion HS as [|? ? HS' HF]; subst. destruct (lt x y) eqn:E.
  - constructor.
    + apply IH; auto. eapply weak_order_on_incl; [|exact HW]. intros z [<-|Hz]; simpl; auto.
    + rewrite Forall_forall in HF |- *; intros z Hz.
      apply (Permutation_in z (Permutation_sym (move_left_perm lt x l))) in Hz. destruct Hz as [<-|Hz]; auto.
      apply (proj1 HW); simpl; auto.
  - constructor; [exact HS|]. constructor; auto. rewrite Forall_forall in HF |- *; intros z Hz.
    apply (proj2 HW) with y; simpl; auto.
Qed.
Lemma go_fold_sorted {A} (lt : A -> A -> bool) l : forall p, weak_order_on lt (l ++ p) ->
  StronglySorted (fun a b => lt a b = false) p -> StronglySorted (fun a b => lt a b = false) (fold_left (fun p x => move_left lt x p) l p).
Proof.
  induction l as [|x l IH]; intros p HW HS; simpl; auto. apply IH.
  - eapply weak_order_on_perm; [|exact HW]. eapply perm_trans; [apply Permutation_middle|]. apply Permutation_app_head. apply move_left_perm.
  - apply move_left_sorted; auto. eapply weak_order_on_incl; [|exact HW]. intros z [<-|Hz]; simpl; auto. right. apply in_or_app; auto.
Qed.
Lemma sorted_rev {A} (R : A -> A -> Prop) l : StronglySorted R l -> StronglySorted (fun a b => R b a) (rev l).
Proof.
  assert (K : forall l2 l1 : list A, StronglySorted (fun a b => R b a) l1 -> StronglySorted (fun a b => R b a) l2 ->
              (forall x y, In x l1 -> In y l2 -> R y x) -> StronglySorted (fun a b => R b a) (l1 ++ l2)).
  { intros l2 l1 H1 H2 H. induction H1 as [|a l1 Hs IH HF]; simpl; auto. constructor.
    - apply IH. intros; apply H; simpl; auto.
    - apply Forall_forall. intros y Hy. apply in_app_or in Hy as [Hy|Hy]; [rewrite Forall_forall in HF; auto|apply H; simpl; auto]. }
  induction 1 as [|a l Hs IH HF]; simpl; [constructor|]. apply K; auto; [repeat constructor|].
  intros x y Hx [<-|[]]. rewrite Forall_forall in HF. apply HF. apply in_rev; auto.
Qed.
Lemma go_isort_ok {A} (lt : A -> A -> bool) : sort_ok lt (go_isort lt).
Proof.
  intros l; split.
  - unfold go_isort. eapply perm_trans; [|apply Permutation_rev].
    pose proof (go_fold_perm lt l []) as P. rewrite app_nil_r in P. exact P.
  - intros HW. unfold go_isort, sorted_by. apply (sorted_rev (fun a b => lt a b = false)). apply go_fold_sorted; [rewrite app_nil_r; auto|constructor].
Qed.

Lemma ex_pass_perm {A} (lt : A -> A -> bool) ys : forall x m r,
  ex_pass lt x ys = (m, r) -> Permutation (x :: ys) (m :: r).
Proof.
  induction ys as [|y ys IH]; simpl; intros x m r H.
  - injection H as <- <-; auto.
  - destruct (lt y x).
    + destruct (ex_pass lt y ys) as [m' r'] eqn:E; injection H as <- <-.
      apply IH in E. eapply perm_trans; [|apply perm_swap].
      constructor. exact E.
    + destruct (ex_pass lt x ys) as [m' r'] eqn:E; injection H as <- <-.
      apply IH in E.
      eapply perm_trans; [apply perm_swap|].
      eapply perm_trans; [|apply perm_swap].
      constructor; exact E.
Qed.

Lemma ex_pass_length {A} (lt : A -> A -> bool) ys x m r :
  ex_pass lt x ys = (m, r) -> length r = length ys.
Proof.
  intros H; apply ex_pass_perm, Permutation_length in H; simpl in H; lia.
Qed.

Lemma weak_irrefl {A} (lt : A -> A -> bool) l x :
  weak_order_on lt l -> In x l -> lt x x = false.
Proof.
  intros [H _] Hx; destruct (lt x x) eqn:E; auto.
  pose proof (H x x Hx Hx E); congruence.
Qed.

Lemma ex_pass_min {A} (lt : A -> A -> bool) ys : forall x m r,
  weak_order_on lt (x :: ys) ->
  ex_pass lt x ys = (m, r) ->
  lt x m = false /\ Forall (fun b => lt b m = false) r.
Proof.
  induction ys as [|y ys IH]; simpl; intros x m r HW H.
  - injection H as <- <-; split; auto. eapply weak_irrefl; eauto; simpl; auto.
  - assert (HWy : weak_order_on lt (y :: ys)).
    { eapply weak_order_on_incl; [|exact HW]; intros z Hz; simpl in *; tauto. }
    assert (HWx : weak_order_on lt (x :: ys)).
    { eapply weak_order_on_incl; [|exact HW]; intros z Hz; simpl in *; tauto. }
    destruct (lt y x) eqn:Eyx.
    + destruct (ex_pass lt y ys) as [m' r'] eqn:E; injection H as <- <-.
      pose proof (ex_pass_perm _ _ _ _ _ E) as HP.
      destruct (IH _ _ _ HWy E) as [H1 H2].
      assert (Hm : In m' (y :: ys)) by (eapply Permutation_in; [apply Permutation_sym; exact HP|simpl; auto]).
      assert (Hx : lt x m' = false).
      { apply (proj2 HW) with y; simpl; auto.
        apply (proj1 HW); simpl; auto. }
      auto.
    + destruct (ex_pass lt x ys) as [m' r'] eqn:E; injection H as <- <-.
      pose proof (ex_pass_perm _ _ _ _ _ E) as HP.
      destruct (IH _ _ _ HWx E) as [H1 H2].
      assert (Hm : In m' (x :: ys)) by (eapply Permutation_in; [apply Permutation_sym; exact HP|simpl; auto]).
      split; auto. constructor; auto.
      apply (proj2 HW) with x; simpl; auto; simpl in Hm; tauto.
Qed.

Lemma ex_sort_fuel_perm {A} (lt : A -> A -> bool) n : forall l,
  Permutation l (ex_sort_fuel lt n l).
Proof.
  induction n as [|n IH]; intros [|x ys]; simpl; auto.
  destruct (ex_pass lt x ys) as [m r] eqn:E.
  eapply perm_trans; [eapply ex_pass_perm; exact E|]. constructor; apply IH.
Qed.

Lemma ex_sort_perm {A} (lt : A -> A -> bool) l : Permutation l (ex_sort lt l).
Proof. apply ex_sort_fuel_perm. Qed.

Lemma ex_sort_fuel_sorted {A} (lt : A -> A -> bool) n : forall l,
  length l <= n -> weak_order_on lt l -> sorted_by lt (ex_sort_fuel lt n l).
Proof.
  induction n as [|n IH]; intros [|x ys] Hn HW; simpl in *; try (constructor; fail); try lia.
  destruct (ex_pass lt x ys) as [m r] eqn:E.
  pose proof (ex_pass_perm _ _ _ _ _ E) as HP.
  pose proof (ex_pass_length _ _ _ _ _ E) as HL.
  destruct (ex_pass_min _ _ _ _ _ HW E) as [Hxm HF].
  constructor.
  - apply IH; [lia|]. eapply weak_order_on_incl; [|exact HW].
    intros z Hz. eapply Permutation_in; [apply Permutation_sym; exact HP|]; simpl; auto.
  - rewrite Forall_forall in HF |- *; intros z Hz.
    apply HF. eapply Permutation_in; [apply Permutation_sym, ex_sort_fuel_perm|exact Hz].
Qed.

Lemma ex_sort_sorted {A} (lt : A -> A -> bool) l :
  weak_order_on lt l -> sorted_by lt (ex_sort lt l).
Proof. apply ex_sort_fuel_sorted; auto. Qed.

Lemma ex_sort_ok {A} (lt : A -> A -> bool) : sort_ok lt (ex_sort lt).
Proof. intros l; split; [apply ex_sort_perm|apply ex_sort_sorted]. Qed.

(** The first [k] outer iterations bring the k smallest to the front, sorted,
    and nothing after them is smaller. *)
Lemma ex_sort_fuel_prefix {A} (lt : A -> A -> bool) n : forall l,
  weak_order_on lt l ->
  sorted_by lt (firstn n (ex_sort_fuel lt n l)) /\
  (forall x y, In x (firstn n (ex_sort_fuel lt n l)) ->
               In y (skipn n (ex_sort_fuel lt n l)) -> lt y x = false).
Proof.
  induction n as [|n IH]; intros l HW.
  - simpl; split; [constructor|]; tauto.
  - destruct l as [|x ys]; simpl.
    + split; [constructor|]; tauto.
    + destruct (ex_pass lt x ys) as [m r] eqn:E.
      pose proof (ex_pass_perm _ _ _ _ _ E) as HP.
      destruct (ex_pass_min _ _ _ _ _ HW E) as [Hxm HF].
      assert (HWr : weak_order_on lt r).
      { eapply weak_order_on_incl; [|exact HW].
        intros z Hz. eapply Permutation_in; [apply Permutation_sym; exact HP|]; simpl; auto. }
      destruct (IH r HWr) as [IH1 IH2]; simpl.
      rewrite Forall_forall in HF.
      assert (Hin : forall z, In z (ex_sort_fuel lt n r) -> lt z m = false).
      { intros z Hz; apply HF. eapply Permutation_in; [apply Permutation_sym, ex_sort_fuel_perm|exact Hz]. }
      split.
      * constructor; auto. apply Forall_forall; intros z Hz. apply Hin.
        rewrite <- (firstn_skipn n). apply in_or_app; auto.
      * intros a b [<-|Ha] Hb; [|eauto].
        apply Hin. rewrite <- (firstn_skipn n). apply in_or_app; auto.
Qed.

Lemma sorted_app_cross {A} (lt : A -> A -> bool) l1 l2 :
  sorted_by lt (l1 ++ l2) -> forall x y, In x l1 -> In y l2 -> lt y x = false.
Proof.
  induction l1 as [|a l1 IH]; simpl; [tauto|].
  intros H x y Hx Hy; inversion H as [|? ? HS HF]; subst.
  destruct Hx as [<-|Hx].
  - rewrite Forall_forall in HF; apply HF; apply in_or_app; auto.
  - apply IH; auto.
Qed.

Lemma sorted_app_l {A} (lt : A -> A -> bool) l1 l2 : sorted_by lt (l1 ++ l2) -> sorted_by lt l1.
Proof.
  induction l1 as [|a l1 IH]; simpl; intros H; [constructor|].
  inversion H as [|? ? HS HF]; subst. constructor; [apply IH; exact HS|].
  rewrite Forall_forall in HF |- *; intros x Hx; apply HF; apply in_or_app; auto.
Qed.

Lemma sorted_app_r {A} (lt : A -> A -> bool) l1 l2 : sorted_by lt (l1 ++ l2) -> sorted_by lt l2.
Proof.
  induction l1 as [|a l1 IH]; simpl; intros H; [exact H|].
  inversion H; subst; auto.
Qed.

Lemma sorted_firstn {A} (lt : A -> A -> bool) n l : sorted_by lt l -> sorted_by lt (firstn n l).
Proof. intros H; rewrite <- (firstn_skipn n l) in H; apply sorted_app_l in H; exact H. Qed.

Lemma sorted_top {A} (lt : A -> A -> bool) n l :
  sorted_by lt l -> forall x y, In x (firstn n l) -> In y (skipn n l) -> lt y x = false.
Proof. intros H; rewrite <- (firstn_skipn n l) in H; eapply sorted_app_cross; exact H. Qed.

(** ** Small list facts *)

Lemma in_firstn {A} n (l : list A) x : In x (firstn n l) -> In x l.
Proof. intros H; rewrite <- (firstn_skipn n l); apply in_or_app; auto. Qed.

Lemma in_skipn {A} n (l : list A) x : In x (skipn n l) -> In x l.
Proof. intros H; rewrite <- (firstn_skipn n l); apply in_or_app; auto. Qed.

Lemma NoDup_app_l {A} (l1 l2 : list A) : NoDup (l1 ++ l2) -> NoDup l1.
Proof.
  induction l1; simpl; intros H; [constructor|]. inversion H; subst.
  constructor; auto. intros Hin; apply H2; apply in_or_app; auto.
Qed.

Lemma NoDup_app_r {A} (l1 l2 : list A) : NoDup (l1 ++ l2) -> NoDup l2.
Proof. induction l1; simpl; intros H; auto. inversion H; auto. Qed.

Lemma NoDup_app_disj {A} (l1 l2 : list A) : NoDup (l1 ++ l2) -> forall x, In x l1 -> In x l2 -> False.
Proof.
  induction l1; simpl; intros H x H1 H2; [tauto|]. inversion H; subst.
  destruct H1 as [->|H1]; eauto. apply H4; apply in_or_app; auto.
Qed.

Lemma NoDup_app_intro {A} (l1 l2 : list A) :
  NoDup l1 -> NoDup l2 -> (forall x, In x l1 -> In x l2 -> False) -> NoDup (l1 ++ l2).
Proof.
  induction l1; simpl; intros H1 H2 H; auto. inversion H1; subst.
  constructor.
  - intros Hin; apply in_app_or in Hin; destruct Hin; eauto.
  - apply IHl1; auto. intros x Ha Hb; eapply H; eauto.
Qed.

Lemma NoDup_firstn {A} n (l : list A) : NoDup l -> NoDup (firstn n l).
Proof. intros H; rewrite <- (firstn_skipn n l) in H; eapply NoDup_app_l; exact H. Qed.

Lemma NoDup_map_inj {A B} (f : A -> B) l :
  (forall x y, In x l -> In y l -> f x = f y -> x = y) -> NoDup l -> NoDup (map f l).
Proof.
  induction l as [|a l IH]; simpl; intros Hf H; [constructor|].
  inversion H; subst. constructor.
  - rewrite in_map_iff; intros (y & Hy & Hin). assert (y = a) by (apply Hf; auto). congruence.
  - apply IH; auto.
Qed.

Lemma NoDup_map_filter {A B} (f : A -> B) p l : NoDup (map f l) -> NoDup (map f (filter p l)).
Proof.
  induction l as [|a l IH]; simpl; intros H; [constructor|].
  inversion H; subst. destruct (p a); simpl; auto.
  constructor; auto. intros Hin; apply H2. rewrite in_map_iff in *.
  destruct Hin as (y & ? & Hy); apply filter_In in Hy; exists y; tauto.
Qed.

Lemma NoDup_map_NoDup {A B} (f : A -> B) l : NoDup (map f l) -> NoDup l.
Proof.
  induction l as [|a l IH]; simpl; intros H; [constructor|].
  inversion H; subst. constructor; auto. intros Hin; apply H2; apply in_map; auto.
Qed.

Lemma NoDup_map_eq {A B} (f : A -> B) l x y :
  NoDup (map f l) -> In x l -> In y l -> f x = f y -> x = y.
Proof.
  induction l as [|a l IH]; simpl; intros H Hx Hy E; [tauto|].
  inversion H; subst.
  destruct Hx as [->|Hx], Hy as [->|Hy]; auto.
  - exfalso; apply H2; rewrite E; apply in_map; auto.
  - exfalso; apply H2; rewrite <- E; apply in_map; auto.
Qed.

Lemma filter_all {A} (p : A -> bool) l : (forall x, In x l -> p x = true) -> filter p l = l.
Proof.
  induction l as [|a l IH]; simpl; intros H; auto.
  rewrite (H a); auto. f_equal; auto.
Qed.

Lemma filter_none {A} (p : A -> bool) l : (forall x, In x l -> p x = false) -> filter p l = [].
Proof.
  induction l as [|a l IH]; simpl; intros H; auto. rewrite (H a); auto.
Qed.

Lemma filter_filter {A} (p q : A -> bool) l : filter p (filter q l) = filter (fun x => q x && p x) l.
Proof.
  induction l as [|a l IH]; simpl; auto.
  destruct (q a); simpl; [destruct (p a)|]; simpl; rewrite ?IH; auto.
Qed.

Lemma Permutation_filter {A} (p : A -> bool) l l' :
  Permutation l l' -> Permutation (filter p l) (filter p l').
Proof.
  induction 1; simpl; auto.
  - destruct (p x); auto.
  - destruct (p x), (p y); auto. constructor.
  - eapply perm_trans; eauto.
Qed.

Lemma find_some_iff {A} (p : A -> bool) l x : find p l = Some x -> In x l /\ p x = true.
Proof. apply find_some. Qed.
