(** The scan shared by several searches in /repo: keep the k best items met so far in a
    heap whose root is the worst of them, e.g. /repo/pkg/index/flat.go:82-101. *)
From Coq Require Import List Arith Bool Lia Permutation Sorted.
From Verif Require Import Base TopK HeapModel HeapProofs.
Import ListNotations.

Section S.
Context {A : Type}.
Variable better : A -> A -> bool.
Definition worse (a b : A) : bool := better b a.

(** The loop of flat.go:86-95; [None] is the panic of reading h[0] on an empty heap. *)
Fixpoint heap_scan (k : nat) (l h : list A) : option (list A) :=
  match l with
  | [] => Some h
  | x :: l' =>
      if Nat.ltb (length h) k then heap_scan k l' (heap_push worse x h)
      else match h with
           | [] => None
           | r :: _ => if better x r
                       then match heap_pop worse h with
                            | Some (_, h') => heap_scan k l' (heap_push worse x h')
                            | None => None
                            end
                       else heap_scan k l' h
           end
  end.
(** flat.go:98-101: results filled from the end while popping. *)
Definition heap_results (h : list A) : list A := rev (heap_drain worse (length h) h).

Lemma scan_inv (dom : A -> Prop) k l :
  (forall x y, dom x -> dom y -> better x y = true -> better y x = false) ->
  (forall x y z, dom x -> dom y -> dom z -> better y x = false -> better z y = false -> better z x = false) ->
  1 <= k -> Forall dom l -> forall h rest seen,
  Forall dom h -> heap_ok worse h -> Permutation seen (h ++ rest) -> length h = Nat.min k (length seen) -> Forall dom rest ->
  (forall x y, In x h -> In y rest -> better y x = false) ->
  exists h' rest', heap_scan k l h = Some h' /\ Forall dom h' /\ heap_ok worse h' /\
    Permutation (seen ++ l) (h' ++ rest') /\ length h' = Nat.min k (length (seen ++ l)) /\
    (forall x y, In x h' -> In y rest' -> better y x = false).
Proof.
  intros Asym Nt Hk. pose proof (fun x y Hx Hy => Asym y x Hy Hx) as Wa.
  assert (Wn : forall x y z, dom x -> dom y -> dom z -> worse y x = false -> worse z y = false -> worse z x = false).
  { intros x y z Hx Hy Hz H1 H2. unfold worse in *. apply (Nt z y x); auto. }
  induction l as [|x l IH]; intros Dl h rest seen Dh Hh P L Dr Hb; cbn [heap_scan].
  - exists h, rest. rewrite app_nil_r. repeat (split; [solve [auto]|]). auto.
  - assert (Dx : dom x) by (inversion Dl; auto). assert (Dl' : Forall dom l) by (inversion Dl; auto).
    replace (seen ++ x :: l) with ((seen ++ [x]) ++ l) by (rewrite <- app_assoc; auto).
    pose proof (Permutation_length P) as PL. rewrite app_length in PL.
    destruct (Nat.ltb_spec (length h) k) as [Hlt|Hge].
    + assert (rest = []) by (apply length_zero_iff_nil; lia). subst rest. rewrite app_nil_r in P.
      pose proof (push_perm worse x h) as Pp. apply (IH Dl' _ []).
      * eapply Permutation_Forall; [exact Pp|constructor; auto].
      * apply push_heap with (dom := dom); auto.
      * rewrite app_nil_r. eapply perm_trans; [apply Permutation_app_comm|]. cbn. eapply perm_trans; [apply perm_skip; exact P|exact Pp].
      * rewrite <- (Permutation_length Pp). cbn. rewrite app_length. cbn. lia.
      * constructor.
      * intros ? ? _ [].
    + destruct h as [|r h0]; [cbn in Hge; lia|]. set (h := r :: h0) in *. destruct (better x r) eqn:Ex.
      * destruct (pop_some worse h ltac:(discriminate)) as (r' & h' & E & Hd & Pp). rewrite E. cbn in Hd. injection Hd as <-.
        pose proof (pop_heap worse dom Wa Wn h r h' Dh Hh E) as [Hh' Dh'].
        assert (Dr0 : dom r) by (inversion Dh; auto).
        pose proof (push_perm worse x h') as Pq. pose proof (Permutation_length Pp) as PL2. cbn [length] in PL2.
        apply (IH Dl' _ (r :: rest)).
        -- eapply Permutation_Forall; [exact Pq|constructor; auto].
        -- apply push_heap with (dom := dom); auto.
        -- eapply perm_trans; [apply Permutation_app_comm|]. cbn [app]. eapply perm_trans; [apply perm_skip; exact P|].
           eapply perm_trans; [apply perm_skip; apply Permutation_app_tail; exact Pp|]. cbn [app].
           eapply perm_trans; [|apply Permutation_app_tail; exact Pq]. cbn [app]. apply perm_skip. apply Permutation_middle.
        -- rewrite <- (Permutation_length Pq). cbn [length]. rewrite app_length. cbn. lia.
        -- constructor; auto.
        -- intros z y Hz Hy. apply (Permutation_in z (Permutation_sym Pq)) in Hz.
           assert (Hrest : forall w, In w h -> In y (r :: rest) -> w = x \/ (In w h' -> better y w = false)).
           { intros w Hw [<-|Hy']; right; intros Hw'; [|apply Hb; auto].
             exact (heap_min worse dom Wa Wn h r w Dh Hh eq_refl Hw). }
           destruct Hz as [<-|Hz].
           ++ destruct Hy as [<-|Hy]; [apply Asym; auto|].
              assert (Hyr : better y r = false) by (apply Hb; auto; left; auto).
              assert (Dy : dom y) by (rewrite Forall_forall in Dr; auto).
              apply (Nt x r y); auto.
           ++ assert (Hzh : In z h) by (eapply Permutation_in; [apply Permutation_sym; exact Pp|right; auto]).
              destruct Hy as [<-|Hy]; [exact (heap_min worse dom Wa Wn h r z Dh Hh eq_refl Hzh)|apply Hb; auto].
      * assert (Dr0 : dom r) by (inversion Dh; auto).
        apply (IH Dl' _ (x :: rest)); auto.
        -- eapply perm_trans; [apply Permutation_app_comm|]. cbn [app]. eapply perm_trans; [apply perm_skip; exact P|]. apply Permutation_middle.
        -- rewrite app_length. cbn [length]. lia.
        -- intros z y Hz [<-|Hy]; [|auto]. assert (Dz : dom z) by (rewrite Forall_forall in Dh; auto).
           apply (Nt z r x); auto. exact (heap_min worse dom Wa Wn h r z Dh Hh eq_refl Hz).
Qed.

Lemma heap_topk k l : weak_order_on better l -> 1 <= k ->
  exists h, heap_scan k l [] = Some h /\ is_topk better k l (heap_results h).
Proof.
  intros [Asym Nt] Hk. set (dom := fun x => In x l).
  destruct (scan_inv dom k l) with (h := @nil A) (rest := @nil A) (seen := @nil A) as (h & rest & E & D & H & P & L & B); try solve [auto | intros ? ? []].
  - apply Forall_forall. auto.
  - unfold heap_ok, heap_upto. cbn. intros i Hi. lia.
  - cbn. lia.
  - exists h. split; auto. cbn [app] in *. unfold heap_results.
    pose proof (drain_perm worse (length h) h (le_n _)) as Pd. exists rest. split; [|split; [|split]].
    + eapply perm_trans; [exact P|]. apply Permutation_app_tail. eapply perm_trans; [exact Pd|apply Permutation_rev].
    + rewrite rev_length, <- (Permutation_length Pd). auto.
    + pose proof (drain_sorted worse dom (fun x y Hx Hy => Asym y x Hy Hx)) as S.
      assert (S' : StronglySorted (fun a b => worse b a = false) (heap_drain worse (length h) h)).
      { apply S; auto. intros x y z Hx Hy Hz H1 H2. unfold worse in *. apply (Nt z y x); auto. }
      apply sorted_rev in S'. unfold worse in S'. exact S'.
    + intros x y Hx Hy. apply B; auto. apply in_rev in Hx. eapply Permutation_in; [apply Permutation_sym; exact Pd|auto].
Qed.
End S.
