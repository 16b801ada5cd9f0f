(** Proofs about GetGraphStatistics. *)
From Coq Require Import String List NArith ZArith Bool Permutation Lia.
From Coq Require Import Floats.SpecFloat.
From Verif Require Import Base Floats64 StoreModel GraphModel GraphSpec GraphProofs GraphAlgoModel GraphAlgoSpec CommunityProofs.
Import ListNotations.
Open Scope string_scope.
Open Scope list_scope.
Open Scope nat_scope.

Lemma adjacent_in es x y : In y (adjacent es x) <-> exists e, In e es /\ ((ge_from e = x /\ ge_to e = y) \/ (ge_to e = x /\ ge_from e = y)).
Proof.
  unfold adjacent. rewrite in_flat_map. split.
  - intros [e [He H]]. exists e. split; auto. apply in_app_or in H as [H|H].
    + destruct (String.eqb_spec (ge_from e) x); [|destruct H]. destruct H as [<-|[]]. auto.
    + destruct (String.eqb_spec (ge_to e) x); [|destruct H]. destruct H as [<-|[]]. auto.
  - intros [e [He H]]. exists e. split; auto. apply in_or_app. destruct H as [[A B]|[A B]]; [left|right]; rewrite (proj2 (String.eqb_eq _ _) A); left; auto.
Qed.

Lemma filter_len {A} (f : A -> bool) l : length (filter f l) <= length l.
Proof. induction l as [|x l IH]; cbn; auto. destruct (f x); cbn; lia. Qed.

Section Explore.
Variable es : list gedge.
Definition ends : list string := flat_map (fun e => [ge_from e; ge_to e]) es.
Lemma ends_length : length ends = 2 * length es.
Proof. unfold ends. induction es as [|e l IH]; auto. cbn [flat_map length app]. rewrite IH. lia. Qed.
Lemma adjacent_ends x y : In y (adjacent es x) -> In y ends.
Proof. intros H. apply adjacent_in in H as [e [He H]]. apply in_flat_map. exists e. split; auto. destruct H as [[_ <-]|[_ <-]]; cbn; auto. Qed.
Definition pool : list string := nodup string_dec ends.
Definition todo (V : list string) : list string := filter (fun x => negb (in_ids V x)) pool.
Lemma todo_cons V y : In y pool -> ~ In y V -> length (todo V) = S (length (todo (y :: V))).
Proof.
  intros Hy Hn. unfold todo. assert (N : NoDup pool) by apply NoDup_nodup. revert N Hy. generalize pool. induction l as [|x l IH]; intros N Hy; [destruct Hy|].
  inversion N as [|? ? N1 N2]; subst. cbn [filter]. destruct Hy as [->|Hy].
  - assert (E1 : in_ids V y = false) by (apply in_ids_false; auto). assert (E2 : in_ids (y :: V) y = true) by (apply in_ids_iff; left; auto). rewrite E1, E2. cbn [negb length]. f_equal.
    f_equal. apply filter_ext_in. intros z Hz. f_equal. destruct (in_ids V z) eqn:Z; symmetry.
    + apply in_ids_iff. right. apply in_ids_iff. auto.
    + apply in_ids_false. intros [->|C]; [contradiction|]. apply in_ids_false in Z. contradiction.
  - assert (E : in_ids (y :: V) x = in_ids V x).
    { destruct (in_ids V x) eqn:Z; [apply in_ids_iff; right; apply in_ids_iff; auto|]. apply in_ids_false. intros [->|C]; [contradiction|]. apply in_ids_false in Z. contradiction. }
    rewrite E. destruct (in_ids V x); cbn [negb length]; rewrite (IH N2 Hy); auto.
Qed.
Definition reached (S0 : list string) (x : string) : Prop := exists s, In s S0 /\ exists k, hops {| g_nodes := []; g_edges := es |} "both" [] k s x.
Lemma adjacent_hop x y : In y (adjacent es x) <-> hop {| g_nodes := []; g_edges := es |} "both" [] x y.
Proof.
  rewrite adjacent_in. unfold hop. cbn. split; intros [e H]; exists e.
  - destruct H as [He [[A B]|[A B]]]; (split; [auto|split; [auto|]]); [left|right]; split; auto; discriminate.
  - destruct H as [He [_ [[_ [A B]]|[_ [A B]]]]]; auto.
Qed.

Lemma visit_all l : (forall y, In y l -> In y pool) -> forall V q,
  let s := fold_left visit l (V, q) in
  (forall x, In x (fst s) <-> In x V \/ In x l) /\
  (forall x, In x (snd s) -> In x q \/ (In x l /\ ~ In x V)) /\ (forall x, In x q -> In x (snd s)) /\
  (forall x, In x l -> ~ In x V -> In x (snd s)) /\
  length (snd s) + length (todo (fst s)) = length q + length (todo V).
Proof.
  induction l as [|y l IH]; intros Hl V q; cbn [fold_left].
  - split; [intros x; split; [auto|intros [H|[]]; auto]|]. split; [auto|]. split; [auto|]. split; [intros x []|auto].
  - assert (Hl' : forall z, In z l -> In z pool) by (intros z Hz; apply Hl; right; auto). unfold visit at 2 4 6 8 10 12. cbn [fst snd]. destruct (in_ids V y) eqn:E.
    + apply in_ids_iff in E. destruct (IH Hl' V q) as [A [B [C [D F]]]]. cbv zeta. split.
      { intros x. rewrite A. split; [intros [H|H]; auto; right; right; auto|]. intros [H|[<-|H]]; auto. }
      split; [intros x H; destruct (B x H) as [H'|[H' Hn]]; [auto|right; split; [right; auto|auto]]|]. split; [auto|].
      split; [intros x [<-|H] Hn; [contradiction|auto]|auto].
    + apply in_ids_false in E. destruct (IH Hl' (y :: V) (q ++ [y])) as [A [B [C [D F]]]]. cbv zeta. split.
      { intros x. rewrite A. cbn. tauto. }
      split; [intros x H; destruct (B x H) as [H'|[H' Hn]]|].
      { apply in_app_or in H' as [H'|[<-|[]]]; auto. right. split; [left; auto|auto]. }
      { right. split; [right; auto|]. intros C'. apply Hn. right. auto. }
      split; [intros x H; apply C; apply in_or_app; auto|].
      split; [intros x H Hn|].
      { destruct (string_dec y x) as [->|Ne]; [apply C; apply in_or_app; right; left; auto|]. destruct H as [H|H]; [contradiction|]. apply D; auto. intros [H'|H']; auto. }
      rewrite F, app_length. cbn [length]. rewrite (todo_cons V y); [lia|apply Hl; left; auto|auto].
Qed.
Lemma explore_spec fuel : forall V q, length q + length (todo V) < fuel -> incl q V ->
  (forall x, In x V -> ~ In x q -> incl (adjacent es x) V) ->
  let V' := explore fuel es (V, q) in
  incl V V' /\ (forall x, In x V' -> incl (adjacent es x) V') /\ (forall x, In x V' -> In x V \/ reached q x).
Proof.
  induction fuel as [|fuel IH]; intros V q L Iq Cl; [lia|]. cbn [explore fst snd]. destruct q as [|x q].
  - cbv zeta. split; [apply incl_refl|]. split; [|auto]. intros x Hx. apply Cl; auto.
  - destruct (visit_all (adjacent es x)) with (V := V) (q := q) as [A [B [C [D F]]]].
    { intros y Hy. apply nodup_In. eapply adjacent_ends; eauto. }
    set (s := fold_left visit (adjacent es x) (V, q)) in *. destruct s as [V1 q1]. cbn [fst snd] in *.
    destruct (IH V1 q1) as [R1 [R2 R3]].
    + cbn [length] in L. lia.
    + intros y Hy. apply A. destruct (B y Hy) as [H|[H _]]; [left; apply Iq; right; auto|auto].
    + intros y Hy Ny z Hz. apply A. apply A in Hy as [Hy|Hy].
      * destruct (string_dec x y) as [->|Ne]; [auto|]. left. apply (Cl y); auto. intros [H|H]; [auto|apply Ny; auto].
      * destruct (in_dec string_dec y V) as [Hv|Hv]; [|exfalso; apply Ny; auto].
        destruct (string_dec x y) as [->|Ne]; [auto|]. left. apply (Cl y); auto. intros [H|H]; [auto|apply Ny; auto].
    + cbv zeta. split; [intros y Hy; apply R1, A; auto|]. split; [auto|]. intros y Hy.
      assert (Hx1 : forall z, In z (adjacent es x) -> forall w, (exists k, hops {| g_nodes := []; g_edges := es |} "both" [] k z w) -> reached (x :: q) w).
      { intros z Hz w [k Hk]. exists x. split; [left; auto|]. exists (S k). econstructor; [apply adjacent_hop; exact Hz|exact Hk]. }
      destruct (R3 y Hy) as [H|[s0 [Hs [k Hk]]]].
      * apply A in H as [H|H]; auto. right. apply (Hx1 y H). exists 0. constructor.
      * right. destruct (B s0 Hs) as [H|[H _]]; [exists s0; split; [right; auto|eauto]|]. apply (Hx1 s0 H). eauto.
Qed.
End Explore.

(** * Counting *)
Lemma count_loop es ids : forall V k reps,
  (forall x, In x V -> incl (adjacent es x) V) -> (forall x, In x V -> exists r, In r reps /\ reached es [r] x) -> (forall r, In r reps -> In r V) ->
  NoDup reps -> (forall r r', In r reps -> In r' reps -> reached es [r] r' -> r = r') -> Z.of_nat (length reps) = k ->
  let s := fold_left (fun s id => if in_ids (fst s) id then s else (explore (2 + 2 * length es) es (id :: fst s, [id]), (snd s + 1)%Z)) ids (V, k) in
  exists reps', Z.of_nat (length reps') = snd s /\ NoDup reps' /\ (forall r, In r reps' -> In r reps \/ In r ids) /\
    (forall r r', In r reps' -> In r' reps' -> reached es [r] r' -> r = r') /\
    (forall x, In x V \/ In x ids -> exists r, In r reps' /\ reached es [r] x).
Proof.
  assert (Tr : forall a b c, reached es [a] b -> reached es [b] c -> reached es [a] c).
  { intros a b c [s [[<-|[]] [k Hk]]] [s' [[<-|[]] [k' Hk']]]. exists a. split; [left; auto|]. exists (k + k'). eapply hops_app; eauto. }
  assert (Sy : forall a b, reached es [a] b -> reached es [b] a).
  { intros a b [s [[<-|[]] Hk]]. exists b. split; [left; auto|]. exact (joined_sym _ _ _ Hk). }
  assert (Rf : forall a, reached es [a] a) by (intros a; exists a; split; [left; auto|exists 0; constructor]).
  induction ids as [|id ids IH]; intros V k reps Cl Cov Rv N Un K; cbn [fold_left].
  - exists reps. cbv zeta. cbn [snd]. split; [auto|]. split; [auto|]. split; [auto|]. split; [auto|]. intros x [H|[]]. auto.
  - destruct (in_ids (fst (V, k)) id) eqn:E; cbn [fst snd] in E |- *.
    + apply in_ids_iff in E. destruct (IH V k reps Cl Cov Rv N Un K) as [reps' [A [B [C [D F]]]]]. exists reps'. split; [exact A|]. split; [exact B|]. split; [|split; [exact D|]].
      * intros r Hr. destruct (C r Hr); auto. right. right. auto.
      * intros x [H|[<-|H]]; apply F; auto.
    + apply in_ids_false in E.
      destruct (explore_spec es (2 + 2 * length es) (id :: V) [id]) as [X1 [X2 X3]].
      * cbn [length]. assert (length (todo es (id :: V)) <= 2 * length es); [|lia].
        rewrite <- ends_length. unfold todo. etransitivity; [apply (filter_len (fun x => negb (in_ids (id :: V) x)))|]. unfold pool. clear. induction (ends es) as [|x l IHl]; cbn; auto. destruct (in_dec string_dec x l); cbn; lia.
      * intros x [<-|[]]. left. auto.
      * intros x [<-|Hx] Nx; [exfalso; apply Nx; left; auto|]. intros y Hy. right. apply (Cl x); auto.
      * set (V' := explore (2 + 2 * length es) es (id :: V, [id])) in *.
        assert (Far : forall r, In r reps -> reached es [r] id -> False).
        { intros r Hr H. apply E. destruct H as [s [[<-|[]] [n Hn]]].
          assert (forall n a b, hops {| g_nodes := []; g_edges := es |} "both" [] n a b -> In a V -> In b V) as W.
          { clear - Cl. intros n a b H. induction H as [|n a m b Hop Hn IHn]; auto. intros Ha. apply IHn. apply (Cl a Ha). apply adjacent_hop. auto. }
          eapply W; [exact Hn|]. auto. }
        destruct (IH V' (k + 1)%Z (id :: reps)) as [reps' [A [B [C [D F]]]]]; auto.
        -- intros x Hx. destruct (X3 x Hx) as [[<-|H]|H].
           ++ exists id. split; [left; auto|auto].
           ++ destruct (Cov x H) as [r [Hr H']]. exists r. split; [right; auto|auto].
           ++ exists id. split; [left; auto|auto].
        -- intros r [<-|Hr]; apply X1; [left; auto|right; auto].
        -- constructor; auto. 
        -- intros r r' [<-|Hr] [<-|Hr'] H; auto; exfalso; [apply (Far r' Hr'); auto|apply (Far r Hr); auto].
        -- cbn [length]. lia.
        -- exists reps'. split; [exact A|]. split; [exact B|]. split; [|split; [exact D|]].
           ++ intros r Hr. destruct (C r Hr) as [[<-|H]|H]; auto; right; [left|right]; auto.
           ++ intros x [H|[<-|H]]; apply F; auto; left; apply X1; [right|left]; auto.
Qed.
