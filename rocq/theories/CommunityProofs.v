(** Proofs about CommunityDetection. *)
From Coq Require Import String List NArith ZArith QArith Bool Permutation Lia Sorted.
From Coq Require Import Floats.SpecFloat.
From Verif Require Import Base Floats64 StoreModel GraphModel GraphSpec GraphProofs GraphAlgoModel GraphAlgoSpec PageRankProofs.
Import ListNotations.
Open Scope string_scope.
Open Scope list_scope.
Open Scope nat_scope.

(** * joined is an equivalence *)
Lemma joined_refl g x : joined g x x.
Proof. exists 0. constructor. Qed.
Lemma hops_app g dir ts n m x y z : hops g dir ts n x y -> hops g dir ts m y z -> hops g dir ts (n + m) x z.
Proof. induction 1; cbn; auto. intros H'. econstructor; eauto. Qed.
Lemma joined_trans g x y z : joined g x y -> joined g y z -> joined g x z.
Proof. intros [n H] [m H']. exists (n + m). eapply hops_app; eauto. Qed.
Lemma hop_both_sym g x y : hop g "both" [] x y -> hop g "both" [] y x.
Proof. intros [e [He [_ H]]]. exists e. split; auto. split; auto. destruct H as [[_ [A B]]|[_ [A B]]]; [right|left]; split; auto; discriminate. Qed.
Lemma joined_sym g x y : joined g x y -> joined g y x.
Proof.
  intros [n H]. induction H as [x|n x y z H1 H2 IH]; [apply joined_refl|].
  eapply joined_trans; [exact IH|]. exists 1. econstructor; [apply hop_both_sym; exact H1|constructor].
Qed.
Lemma joined_edge g e : In e (g_edges g) -> joined g (ge_from e) (ge_to e).
Proof. intros H. exists 1. econstructor; [|constructor]. exists e. split; auto. split; auto. left. split; [discriminate|auto]. Qed.

(** * lists *)
Lemma update_nth_length {A} i (f : A -> A) l : length (update_nth i f l) = length l.
Proof. unfold update_nth. rewrite map_length, combine_length, seq_length. lia. Qed.
Lemma nth_update_nth {A} i (f : A -> A) l j d : j < length l -> nth j (update_nth i f l) d = if Nat.eqb j i then f (nth j l d) else nth j l d.
Proof.
  intros L. unfold update_nth.
  set (h := fun p : nat * A => if Nat.eqb (fst p) i then f (snd p) else snd p).
  rewrite (nth_indep _ d (h (0, d))) by (rewrite map_length, combine_length, seq_length; lia).
  rewrite map_nth, combine_nth by (rewrite seq_length; auto). unfold h. cbn. rewrite seq_nth by auto. cbn. reflexivity.
Qed.

(** * bump *)
Lemma bump_keys k w m x : (exists v, In (x, v) (bump k w m)) <-> x = k \/ exists v, In (x, v) m.
Proof.
  induction m as [|[k' w'] m IH]; cbn.
  - split; [intros [v [E|[]]]; injection E as <- _; auto|]. intros [->|[v []]]. eauto.
  - destruct (Nat.eqb_spec k' k) as [->|E]; cbn.
    + split.
      * intros [v [E|H]]; [injection E as <- _; auto|]. right. eauto.
      * intros [->|[v [E|H]]]; [eauto| |eauto]. injection E as <- _. eauto.
    + split.
      * intros [v [E'|H]]; [injection E' as <- _; right; exists w'; auto|]. destruct (proj1 IH (ex_intro _ v H)) as [->|[u Hu]]; auto. right. eauto.
      * intros [->|[v [E'|H]]].
        -- destruct (proj2 IH (or_introl eq_refl)) as [v Hv]. eauto.
        -- injection E' as <- _. eauto.
        -- destruct (proj2 IH (or_intror (ex_intro _ v H))) as [u Hu]. eauto.
Qed.
Lemma bump_all (p : float -> Prop) k w m : (forall a, p a -> p (f64_add a w)) -> p (f64_add f_zero w) ->
  (forall q, In q m -> p (snd q)) -> forall q, In q (bump k w m) -> p (snd q).
Proof.
  intros A Z. induction m as [|[k' w'] m IH]; cbn; intros H q Hq; [destruct Hq as [<-|[]]; auto|].
  destruct (Nat.eqb k' k).
  - destruct Hq as [<-|Hq]; [cbn; apply A; apply (H (k', w')); auto|apply H; auto].
  - destruct Hq as [<-|Hq]; [apply (H (k', w')); auto|apply IH; auto].
Qed.
Definition keys_of (m : list (nat * float)) (x : nat) : Prop := exists v, In (x, v) m.

(** * adjacency *)
Section Adj.
Variable ids : list string.
Hypothesis Nd : NoDup ids.
Definition at_ (u : nat) (x : string) : Prop := nth_error ids u = Some x.
Lemma add_edge_length adj e : length (add_edge ids adj e) = length adj.
Proof. unfold add_edge. destruct (index_of _ _); auto. destruct (index_of _ _); auto. rewrite !update_nth_length. auto. Qed.
Lemma at_lt u x : at_ u x -> u < length ids.
Proof. intros H. apply nth_error_Some. unfold at_ in H. congruence. Qed.
Lemma add_edge_keys adj e : length adj = length ids -> forall u v, u < length ids ->
  (keys_of (nth u (add_edge ids adj e) []) v <->
   keys_of (nth u adj []) v \/ (at_ u (ge_from e) /\ at_ v (ge_to e)) \/ (at_ v (ge_from e) /\ at_ u (ge_to e))).
Proof.
  intros L u v Lu. unfold add_edge, at_.
  destruct (index_of (ge_from e) ids) as [a|] eqn:A.
  2: { apply index_of_none in A. split; auto. intros [H|[[H _]|[H _]]]; auto; exfalso; apply A; eapply nth_error_In; eauto. }
  destruct (index_of (ge_to e) ids) as [b|] eqn:B.
  2: { apply index_of_none in B. split; auto. intros [H|[[_ H]|[_ H]]]; auto; exfalso; apply B; eapply nth_error_In; eauto. }
  assert (Eu : forall x i, index_of x ids = Some i -> forall j, nth_error ids j = Some x <-> j = i).
  { intros x i Hi j. rewrite <- (index_of_some ids Nd). split; [congruence|intros ->; auto]. }
  rewrite !(Eu _ _ A), !(Eu _ _ B). unfold keys_of.
  rewrite nth_update_nth by (rewrite update_nth_length; lia). rewrite nth_update_nth by lia.
  assert (G : forall c k w m, (exists v0, In (v, v0) (if Nat.eqb u c then bump k w m else m)) <-> (u = c /\ v = k) \/ exists v0, In (v, v0) m).
  { intros c k w m. destruct (Nat.eqb_spec u c) as [E|E]; [rewrite bump_keys|]; tauto. }
  rewrite !G. tauto.
Qed.
Lemma add_edge_weights (p : float -> Prop) adj e : (forall a, p a -> p (f64_add a (ge_weight e))) -> p (f64_add f_zero (ge_weight e)) ->
  length adj = length ids ->
  (forall u q, In q (nth u adj []) -> p (snd q)) -> forall u q, In q (nth u (add_edge ids adj e) []) -> p (snd q).
Proof.
  intros A Z L H u q. unfold add_edge. destruct (index_of _ _) as [a|]; [|apply H]. destruct (index_of _ _) as [b|]; [|apply H].
  destruct (Nat.ltb_spec u (length adj)) as [Lu|Lu].
  - rewrite nth_update_nth by (rewrite update_nth_length; lia). rewrite nth_update_nth by lia.
    intros Hq. destruct (Nat.eqb u b).
    + eapply bump_all; [exact A|exact Z| |exact Hq]. destruct (Nat.eqb u a); [|apply H]. apply bump_all; auto. apply H.
    + destruct (Nat.eqb u a); [|eapply H; eauto]. eapply bump_all; [exact A|exact Z| |exact Hq]. apply H.
  - rewrite nth_overflow by (rewrite !update_nth_length; lia). intros [].
Qed.
Lemma adj_keys es : forall adj, length adj = length ids ->
  length (fold_left (add_edge ids) es adj) = length ids /\
  forall u v, u < length ids ->
    (keys_of (nth u (fold_left (add_edge ids) es adj) []) v <->
     keys_of (nth u adj []) v \/ exists e, In e es /\ ((at_ u (ge_from e) /\ at_ v (ge_to e)) \/ (at_ v (ge_from e) /\ at_ u (ge_to e)))).
Proof.
  induction es as [|e es IH]; intros adj L; cbn [fold_left].
  - split; auto. intros u v _. split; auto. intros [H|[e [[] _]]]; auto.
  - destruct (IH (add_edge ids adj e)) as [L' K]; [rewrite add_edge_length; auto|]. split; auto. intros u v Lu. rewrite (K u v Lu), (add_edge_keys adj e L u v Lu). split.
    + intros [[H|H]|[e' [He H]]]; auto; right; [exists e|exists e']; cbn; auto.
    + intros [H|[e' [[<-|He] H]]]; auto. right. eauto.
Qed.
Lemma adj_weights (p : float -> Prop) es : (forall e, In e es -> (forall a, p a -> p (f64_add a (ge_weight e))) /\ p (f64_add f_zero (ge_weight e))) ->
  forall adj, length adj = length ids -> (forall u q, In q (nth u adj []) -> p (snd q)) ->
  forall u q, In q (nth u (fold_left (add_edge ids) es adj) []) -> p (snd q).
Proof.
  induction es as [|e es IH]; intros Hp adj L H; cbn [fold_left]; auto.
  apply IH; [intros e' He; apply Hp; right; auto|rewrite add_edge_length; auto|].
  destruct (Hp e (or_introl eq_refl)) as [A Z]. apply add_edge_weights; auto.
Qed.
End Adj.
Lemma nth_repeat_nil {A} n u (x : list A) : nth u (repeat x n) x = x.
Proof. revert u. induction n; destruct u; cbn; auto. Qed.

(** * moving nodes *)
Section Moves.
Variable o_adj o_weights : nat -> nat -> list (nat * float) -> list (nat * float).
Hypothesis Oa : forall r i l, Permutation (o_adj r i l) l.
Hypothesis Ow : forall r i l, Permutation (o_weights r i l) l.
Variable adj : list (list (nat * float)).

Lemma comm_weights_keys r i comms c : keys_of (comm_weights o_adj r i adj comms) c <-> exists j, keys_of (nth i adj []) j /\ nth j comms 0 = c.
Proof.
  unfold comm_weights.
  assert (G : forall l m, keys_of (fold_left (fun m p => bump (nth (fst p) comms 0) (snd p) m) l m) c <-> keys_of m c \/ exists j v, In (j, v) l /\ nth j comms 0 = c).
  { induction l as [|[j v] l IH]; intros m; cbn [fold_left].
    - split; auto. intros [H|[j [v [[] _]]]]; auto.
    - rewrite IH. unfold keys_of at 1. rewrite bump_keys. cbn [fst snd]. split.
      + intros [[->|H]|[j' [v' [H E]]]]; auto; right; [exists j, v|exists j', v']; cbn; auto.
      + intros [H|[j' [v' [[E'|H] E]]]]; auto; [injection E' as -> ->; auto|]. right. eauto. }
  rewrite G. split.
  - intros [[v []]|[j [v [H E]]]]. exists j. split; auto. exists v. apply (Permutation_in _ (Oa r i _)). auto.
  - intros [j [[v H] E]]. right. exists j, v. split; auto. apply (Permutation_in _ (Permutation_sym (Oa r i _))). auto.
Qed.
Lemma comm_weights_all (p : float -> Prop) r i comms : (forall q, In q (nth i adj []) -> (forall a, p a -> p (f64_add a (snd q))) /\ p (f64_add f_zero (snd q))) ->
  forall q, In q (comm_weights o_adj r i adj comms) -> p (snd q).
Proof.
  intros H. unfold comm_weights.
  assert (G : forall l m, incl l (nth i adj []) -> (forall q, In q m -> p (snd q)) ->
    forall q, In q (fold_left (fun m p => bump (nth (fst p) comms 0) (snd p) m) l m) -> p (snd q)).
  { induction l as [|x l IH]; intros m I Hm; cbn [fold_left]; auto. apply IH; [intros y Hy; apply I; right; auto|].
    destruct (H x (I x (or_introl eq_refl))). apply bump_all; auto. }
  apply G; [|intros q []]. intros x Hx. apply (Permutation_in _ (Oa r i _)). auto.
Qed.

(** The best community is the node's own one or that of a neighbour; it is its own one
    only if nothing ties it to another. *)
Lemma best_fold cur l : forall b, let r := fold_left (fun b p => if negb (Nat.eqb (fst p) cur) && flt (snd b) (snd p) then p else b) l b in
  (r = b \/ (In r l /\ fst r <> cur)) /\
  (b = (cur, f_zero) -> fst r = cur -> forall p : nat * float, In p l -> fst p <> cur -> flt f_zero (snd p) = false).
Proof.
  induction l as [|x l IH]; intros b; cbn [fold_left]; [split; [auto|intros _ _ p []]|].
  set (b' := if negb (Nat.eqb (fst x) cur) && flt (snd b) (snd x) then x else b).
  destruct (IH b') as [A B]. cbv zeta. split.
  - destruct A as [->|[A A']]; [|right; cbn; auto]. unfold b'. destruct (Nat.eqb_spec (fst x) cur); cbn [negb andb]; auto. destruct (flt _ _); auto. right. cbn. auto.
  - intros -> E p Hp Np. unfold b' in *. cbn [snd] in *. destruct (Nat.eqb_spec (fst x) cur) as [Ex|Ex]; cbn [negb andb] in *.
    + destruct Hp as [<-|Hp]; [contradiction|]. apply B; auto.
    + destruct (flt f_zero (snd x)) eqn:F.
      * exfalso. destruct A as [A|[_ A]]; [rewrite A in E; auto|auto].
      * destruct Hp as [<-|Hp]; [auto|]. apply B; auto.
Qed.
Lemma best_comm_from r i comms : best_comm o_adj o_weights r i adj comms = nth i comms 0 \/
  exists j, keys_of (nth i adj []) j /\ best_comm o_adj o_weights r i adj comms = nth j comms 0.
Proof.
  unfold best_comm. set (cur := nth i comms 0). destruct (best_fold cur (o_weights r i (comm_weights o_adj r i adj comms)) (cur, f_zero)) as [[A|[A _]] _].
  - left. rewrite A. auto.
  - right. apply (Permutation_in _ (Ow r i _)) in A. match goal with H : In ?x _ |- _ => destruct x as [c v] eqn:X end.
    destruct (proj1 (comm_weights_keys r i comms c) (ex_intro _ v A)) as [j [H1 H2]]. exists j. split; auto. 
Qed.
Lemma best_comm_settled (p : float -> Prop) r i comms : (forall a, p a -> flt f_zero a = true) ->
  (forall q, In q (nth i adj []) -> (forall a, p a -> p (f64_add a (snd q))) /\ p (f64_add f_zero (snd q))) ->
  best_comm o_adj o_weights r i adj comms = nth i comms 0 -> forall j, keys_of (nth i adj []) j -> nth j comms 0 = nth i comms 0.
Proof.
  intros Pp Ha E j Hj. destruct (Nat.eq_dec (nth j comms 0) (nth i comms 0)) as [|Ne]; auto. exfalso.
  destruct (proj2 (comm_weights_keys r i comms (nth j comms 0)) (ex_intro _ j (conj Hj eq_refl))) as [w Hw].
  unfold best_comm in E. set (cur := nth i comms 0) in *.
  destruct (best_fold cur (o_weights r i (comm_weights o_adj r i adj comms)) (cur, f_zero)) as [_ B].
  specialize (B eq_refl E (nth j comms 0, w) (Permutation_in _ (Permutation_sym (Ow r i _)) Hw) Ne). cbn in B.
  rewrite (Pp w (comm_weights_all p r i comms Ha _ Hw)) in B. discriminate.
Qed.

(** An equivalence that holds between neighbours holds between members of a community. *)
Variable C : nat -> nat -> Prop.
Hypothesis Ct : forall x y z, C x y -> C y z -> C x z.
Hypothesis Ca : forall i j, keys_of (nth i adj []) j -> C i j.
Hypothesis Clt : forall i j, keys_of (nth i adj []) j -> j < length adj.
Definition labels_ok (comms : list nat) : Prop := length comms = length adj /\ forall i, i < length comms -> C i (nth i comms 0).
Definition one_move (r : nat) (s : list nat * bool) (i : nat) : list nat * bool :=
  if Nat.eqb (best_comm o_adj o_weights r i adj (fst s)) (nth i (fst s) 0) then s else (update_nth i (fun _ => best_comm o_adj o_weights r i adj (fst s)) (fst s), true).
Lemma one_move_ok r s i : labels_ok (fst s) -> labels_ok (fst (one_move r s i)).
Proof.
  intros [L H]. unfold one_move. destruct (Nat.eqb _ _); [split; auto|]. cbn [fst]. split; [rewrite update_nth_length; auto|].
  rewrite update_nth_length. intros k Lk. rewrite nth_update_nth by auto. destruct (Nat.eqb_spec k i) as [->|]; auto.
  destruct (best_comm_from r i (fst s)) as [->|[j [K ->]]]; auto. eapply Ct; [apply Ca; exact K|]. apply H. rewrite L. eapply Clt; eauto.
Qed.
Lemma moves_ok r l : forall s, labels_ok (fst s) -> labels_ok (fst (fold_left (one_move r) l s)).
Proof. induction l as [|i l IH]; intros s H; cbn [fold_left]; auto. apply IH. apply one_move_ok. auto. Qed.
Lemma moves_settled r l : forall s, snd (fold_left (one_move r) l s) = false ->
  fold_left (one_move r) l s = s /\ forall i, In i l -> best_comm o_adj o_weights r i adj (fst s) = nth i (fst s) 0.
Proof using Type.
  induction l as [|i l IH]; intros s H; cbn [fold_left] in *; [split; [auto|intros i []]|].
  destruct (IH _ H) as [E K]. rewrite E in H |- *. clear IH. unfold one_move in *. destruct (Nat.eqb_spec (best_comm o_adj o_weights r i adj (fst s)) (nth i (fst s) 0)) as [B|B].
  - split; auto. intros j [<-|Hj]; auto.
  - discriminate H.
Qed.
Lemma move_nodes_fold r comms : move_nodes o_adj o_weights r adj comms = fold_left (one_move r) (seq 0 (length comms)) (comms, false).
Proof using Type. reflexivity. Qed.
Lemma rounds_ok k : forall r comms, labels_ok comms -> labels_ok (fst (comm_rounds o_adj o_weights k r adj comms)).
Proof.
  induction k as [|k IH]; intros r comms H; cbn [comm_rounds fst]; auto. rewrite move_nodes_fold.
  pose proof (moves_ok r (seq 0 (length comms)) (comms, false) H) as H'. destruct (snd _); auto.
Qed.
Lemma rounds_settled k : forall r comms, snd (comm_rounds o_adj o_weights k r adj comms) = false ->
  exists r', forall i, i < length (fst (comm_rounds o_adj o_weights k r adj comms)) ->
    best_comm o_adj o_weights r' i adj (fst (comm_rounds o_adj o_weights k r adj comms)) = nth i (fst (comm_rounds o_adj o_weights k r adj comms)) 0.
Proof using Type.
  induction k as [|k IH]; intros r comms H; cbn [comm_rounds fst snd] in H |- *; [discriminate|]. rewrite move_nodes_fold in H |- *.
  destruct (snd (fold_left (one_move r) (seq 0 (length comms)) (comms, false))) eqn:E; [apply IH; auto|].
  destruct (moves_settled r _ _ E) as [F K]. rewrite F. cbn [fst]. exists r. intros i Li. apply (K i). apply in_seq. clear - Li. rewrite Nat.add_0_l. split; [apply Nat.le_0_l|exact Li].
Qed.
Lemma rounds_length k : forall r comms, length (fst (comm_rounds o_adj o_weights k r adj comms)) = length comms.
Proof using Type.
  assert (G : forall r l s, length (fst (fold_left (one_move r) l s)) = length (fst s)).
  { induction l as [|i l IH]; intros s; cbn [fold_left]; auto. rewrite IH. unfold one_move. destruct (Nat.eqb _ _); auto. cbn. apply update_nth_length. }
  induction k as [|k IH]; intros r comms; cbn [comm_rounds fst]; auto. rewrite move_nodes_fold. destruct (snd _); [rewrite IH|]; rewrite G; auto.
Qed.
End Moves.

(** * groups *)
Definition group_of (l : list (string * nat)) (c : nat) : list string := map fst (filter (fun p => Nat.eqb (snd p) c) l).
Definition groups_ok (l : list (string * nat)) (m : list (nat * list string)) : Prop :=
  NoDup (map fst m) /\ (forall c, In c (map fst m) <-> exists x, In (x, c) l) /\ (forall c g, In (c, g) m -> g = group_of l c).
Lemma bump_group_ok l m c id : groups_ok l m -> groups_ok (l ++ [(id, c)]) (bump_group c id m).
Proof.
  intros [N [K G]].
  assert (Go : forall c', group_of (l ++ [(id, c)]) c' = if Nat.eqb c c' then group_of l c' ++ [id] else group_of l c').
  { intros c'. unfold group_of. rewrite filter_app, map_app. cbn. destruct (Nat.eqb c c'); cbn; auto. rewrite app_nil_r. auto. }
  assert (Ks : forall m, map fst (bump_group c id m) = if existsb (Nat.eqb c) (map fst m) then map fst m else map fst m ++ [c]).
  { clear. induction m as [|[c' g] m IH]; cbn; auto. rewrite (Nat.eqb_sym c c'). destruct (Nat.eqb_spec c' c); cbn; auto. rewrite IH. destruct (existsb _ _); auto. }
  assert (Ex : existsb (Nat.eqb c) (map fst m) = true <-> In c (map fst m)).
  { rewrite existsb_exists. split; [intros [y [H E]]; apply Nat.eqb_eq in E; congruence|]. intros H. exists c. split; auto. apply Nat.eqb_refl. }
  split; [|split].
  - rewrite Ks. destruct (existsb (Nat.eqb c) (map fst m)) eqn:E; auto. apply NoDup_app_intro; auto; [repeat constructor; auto|].
    intros x Hx [<-|[]]. apply Ex in Hx. congruence.
  - intros c'. rewrite Ks. split.
    + intros H. assert (In c' (map fst m) \/ c' = c) as [H'| ->].
      { destruct (existsb _ _); auto. apply in_app_or in H as [H|[<-|[]]]; auto. }
      * apply K in H' as [x Hx]. exists x. apply in_or_app. auto.
      * exists id. apply in_or_app. right. left. auto.
    + intros [x Hx]. destruct (existsb (Nat.eqb c) (map fst m)) eqn:E.
      * apply in_app_or in Hx as [Hx|[E'|[]]]; [apply K; eauto|]. injection E' as <- <-. apply Ex. auto.
      * apply in_or_app. apply in_app_or in Hx as [Hx|[E'|[]]]; [left; apply K; eauto|]. injection E' as <- <-. right. left. auto.
  - assert (Gm : forall m, NoDup (map fst m) -> (forall c' g, In (c', g) m -> g = group_of l c') -> (~ In c (map fst m) -> group_of l c = []) ->
      forall c' g, In (c', g) (bump_group c id m) -> g = group_of (l ++ [(id, c)]) c').
    { clear - Go. induction m as [|[c1 g1] m IH]; cbn; intros N G E c' g H.
      - destruct H as [H|[]]. injection H as <- <-. rewrite Go, Nat.eqb_refl, E by auto. auto.
      - inversion N as [|? ? N1 N2]; subst. destruct (Nat.eqb_spec c1 c) as [->|Nc]; cbn in H.
        + destruct H as [H|H].
          * injection H as <- <-. rewrite Go, Nat.eqb_refl. f_equal. apply G. auto.
          * rewrite Go. destruct (Nat.eqb_spec c c') as [->|]; [exfalso; apply N1; apply in_map_iff; exists (c', g); auto|]. apply G. auto.
        + destruct H as [H|H].
          * injection H as <- <-. rewrite Go. destruct (Nat.eqb_spec c c1); [congruence|]. apply G. auto.
          * apply IH; auto. intros Hc. apply E. intros [?|?]; auto. }
    apply Gm; auto. intros Hc. unfold group_of. rewrite filter_none; auto. intros [x c'] Hx. cbn. apply Nat.eqb_neq. intros ->. apply Hc. apply K. eauto.
Qed.
Lemma groups_fold_ok l : groups_ok l (fold_left (fun m p => bump_group (snd p) (fst p) m) l []).
Proof.
  assert (G : forall l2 l1 m, groups_ok l1 m -> groups_ok (l1 ++ l2) (fold_left (fun m p => bump_group (snd p) (fst p) m) l2 m)).
  { induction l2 as [|[x c] l2 IH]; intros l1 m H; cbn [fold_left fst snd]; [rewrite app_nil_r; auto|].
    replace (l1 ++ (x, c) :: l2) with ((l1 ++ [(x, c)]) ++ l2) by (rewrite <- app_assoc; auto). apply IH. apply bump_group_ok. auto. }
  apply (G l [] []). split; [constructor|]. split; [intros c; split; [intros []|intros [x []]]|intros c g []].
Qed.
Lemma groups_concat l m : groups_ok l m -> Permutation (concat (map snd m)) (map fst l).
Proof.
  intros [N [K G]].
  assert (E : map snd m = map (group_of l) (map fst m)).
  { rewrite map_map. apply map_ext_in. intros [c g] H. cbn. apply G. auto. }
  rewrite E. assert (K' : forall c, (exists x, In (x, c) l) -> In c (map fst m)) by (intros c H; apply K; auto).
  clear E G K. revert N K'. generalize (map fst m). clear m. intros ks N. induction l as [|[x c] l IH]; intros K'.
  - cbn. clear N K'. induction ks; cbn; auto.
  - assert (Hc : In c ks) by (apply K'; exists x; left; auto). apply in_split in Hc as [k1 [k2 ->]].
    assert (Same : forall k, ~ In c k -> map (group_of ((x, c) :: l)) k = map (group_of l) k).
    { intros k Hk. apply map_ext_in. intros y Hy. unfold group_of. cbn. destruct (Nat.eqb_spec c y); subst; [contradiction|auto]. }
    apply NoDup_remove_2 in N as N'. rewrite map_app, concat_app. cbn [map concat].
    rewrite !Same by (intros H; apply N'; apply in_or_app; auto).
    unfold group_of at 2. cbn [filter snd]. rewrite Nat.eqb_refl. cbn [map fst app]. symmetry. apply Permutation_cons_app.
    symmetry. rewrite <- IH; [|intros y [z Hz]; apply K'; exists z; right; auto].
    rewrite map_app, concat_app. cbn [map concat]. reflexivity.
Qed.

(** * the whole call *)
Definition comm_adj (ids : list string) (es : list gedge) : list (list (nat * float)) := fold_left (add_edge ids) es (repeat [] (length ids)).
Lemma comm_adj_ok ids es : NoDup ids -> length (comm_adj ids es) = length ids /\
  forall u v, keys_of (nth u (comm_adj ids es) []) v <->
    exists e, In e es /\ ((nth_error ids u = Some (ge_from e) /\ nth_error ids v = Some (ge_to e)) \/ (nth_error ids v = Some (ge_from e) /\ nth_error ids u = Some (ge_to e))).
Proof.
  intros N. destruct (adj_keys ids N es (repeat [] (length ids)) (repeat_length _ _)) as [L K]. split; auto. intros u v.
  destruct (Nat.ltb_spec u (length ids)) as [Lu|Lu].
  - rewrite (K u v Lu). rewrite nth_repeat_nil. unfold at_. split; [intros [[w []]|H]; auto|auto].
  - unfold comm_adj. rewrite nth_overflow by lia. split; [intros [w []]|]. intros [e [_ H]]. exfalso. assert (nth_error ids u = None) by (apply nth_error_None; auto). destruct H as [[H _]|[_ H]]; congruence.
Qed.

(** Two nodes are joined exactly if the adjacency leads from one to the other. *)
Lemma nth_error_inj {A} (l : list A) i j x : NoDup l -> nth_error l i = Some x -> nth_error l j = Some x -> i = j.
Proof. intros N Hi Hj. eapply NoDup_nth_error; eauto; [apply nth_error_Some|]; congruence. Qed.

(** A property of labels that neighbours share is shared by joined nodes: the path stays
    within the stored nodes when no edge dangles. *)
Lemma joined_same g ids (lab : nat -> nat) : no_dangling g -> (forall x, has_node g x -> In x ids) -> NoDup ids ->
  (forall e u v, In e (g_edges g) -> nth_error ids u = Some (ge_from e) -> nth_error ids v = Some (ge_to e) -> lab u = lab v) ->
  forall x y, joined g x y -> forall u v, nth_error ids u = Some x -> nth_error ids v = Some y -> lab u = lab v.
Proof.
  intros D St N H x y [k Hk]. induction Hk as [x|k x m y Hop Hk IH]; intros u v Hu Hv.
  - f_equal. eapply nth_error_inj; eauto.
  - destruct Hop as [e [He [_ Hc]]]. destruct (D e He) as [D1 D2].
    assert (has_node g m) as Hm by (destruct Hc as [[_ [_ <-]]|[_ [_ <-]]]; auto).
    destruct (In_nth_error _ _ (St m Hm)) as [w Hw]. rewrite <- (IH w v Hw Hv).
    destruct Hc as [[_ [E1 E2]]|[_ [E1 E2]]]; subst; [|symmetry]; eapply H; eauto.
Qed.

Lemma combine_in_nth {A B} (l : list A) (l' : list B) d x y : length l = length l' ->
  (In (x, y) (List.combine l l') <-> exists i, nth_error l i = Some x /\ i < length l' /\ nth i l' d = y).
Proof.
  revert l'. induction l as [|a l IH]; intros [|b l'] L; try discriminate.
  - cbn. split; [intros []|]. intros [i [H _]]. destruct i; discriminate.
  - cbn. cbn in L. rewrite (IH l') by lia. split.
    + intros [E|[i [H1 [H2 H3]]]]; [injection E as <- <-; exists 0; cbn; split; [auto|split; [lia|auto]]|]. exists (S i). cbn. split; [auto|split; [lia|auto]].
    + intros [[|i] [H1 [H2 H3]]]; cbn in *; [left; congruence|]. right. exists i. split; [auto|split; [lia|auto]].
Qed.
Lemma map_fst_combine {A B} (l : list A) (l' : list B) : length l = length l' -> map fst (List.combine l l') = l.
Proof. revert l'. induction l as [|a l IH]; intros [|b l'] L; try discriminate; cbn; auto. f_equal. apply IH. cbn in L. lia. Qed.
Lemma map_snd_combine {A B} (l : list A) (l' : list B) : length l = length l' -> map snd (List.combine l l') = l'.
Proof. revert l'. induction l as [|a l IH]; intros [|b l'] L; try discriminate; cbn; auto. f_equal. apply IH. cbn in L. lia. Qed.
Lemma group_of_in l c x : In x (group_of l c) <-> In (x, c) l.
Proof.
  unfold group_of. rewrite in_map_iff. split.
  - intros [[y c'] [<- H]]. apply filter_In in H as [H E]. apply Nat.eqb_eq in E. cbn in *. subst. auto.
  - intros H. exists (x, c). split; auto. apply filter_In. split; auto. apply Nat.eqb_refl.
Qed.
