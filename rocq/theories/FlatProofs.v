(** Proofs for C42. *)
From Coq Require Import String List NArith ZArith Bool Lia Permutation Sorted.
From Coq Require Import Floats.SpecFloat.
From Verif Require Import Base Floats64 TopK HeapModel HeapTopK FlatModel FlatSpec.
Import ListNotations.

Notation pairs := (list (string * list N)).

Lemma get_set id v l i : map_get i (map_set id v l) = if String.eqb id i then Some v else map_get i l.
Proof.
  unfold map_get, map_set. cbn [find fst]. destruct (String.eqb_spec id i) as [->|N]; cbn; auto. f_equal.
  unfold map_del. induction l as [|p l IH]; cbn; auto. destruct (String.eqb_spec (fst p) id) as [E|E]; cbn; rewrite ?IH; auto.
  destruct (String.eqb_spec (fst p) i); auto. congruence.
Qed.
Lemma get_del id l i : map_get i (map_del id l) = if String.eqb id i then None else map_get i l.
Proof.
  unfold map_get, map_del. induction l as [|p l IH]; cbn; [destruct (String.eqb id i); auto|].
  destruct (String.eqb_spec (fst p) id) as [E|E]; cbn; destruct (String.eqb_spec (fst p) i) as [E'|E']; rewrite ?IH; auto.
  - subst. rewrite String.eqb_refl. auto.
  - destruct (String.eqb_spec id i); auto. congruence.
Qed.
Lemma keys_del id l : NoDup (map fst l) -> NoDup (map fst (map_del id l)).
Proof. unfold map_del. apply NoDup_map_filter. Qed.
Lemma keys_set id v l : NoDup (map fst l) -> NoDup (map fst (map_set id v l)).
Proof.
  intros H. unfold map_set. cbn. constructor; [|apply keys_del; auto]. intros H'. apply in_map_iff in H' as (p & E & Hp). unfold map_del in Hp.
  apply filter_In in Hp as [_ Hp]. rewrite E, String.eqb_refl in Hp. discriminate.
Qed.
Lemma get_in l id v : NoDup (map fst l) -> (map_get id l = Some v <-> In (id, v) l).
Proof.
  intros H. unfold map_get. induction l as [|[i w] l IH]; cbn [find fst]; [split; [discriminate|intros []]|].
  inversion H as [|? ? Ni Nd]; subst. destruct (String.eqb_spec i id) as [->|N]; cbn [option_map snd].
  - split; [intros [= ->]; left; auto|]. intros [[= ->]|Hi]; auto. exfalso. apply Ni. apply in_map_iff. exists (id, v). auto.
  - rewrite IH by auto. split; [right; auto|]. intros [[= ? ?]|?]; [congruence|auto].
Qed.

Record Keeps (dim : nat) (norm : bool) (x : flat) (h : string -> option (list N)) : Prop := {
  kp_dim : fl_dim x = dim; kp_norm : fl_normalized x = norm; kp_uniq : NoDup (map fst (fl_vecs x));
  kp_get : forall id, map_get id (fl_vecs x) = h id }.

Section F.
Variable dim : nat.
Variable norm : bool.
Lemma keeps_insert x h id v : Keeps dim norm x h ->
  match flat_insert x id v with
  | Ok y => length v = dim /\ Keeps dim norm y (fun i => after_insert dim norm i (h i) (id, v))
  | Err _ => length v <> dim
  | Panic => False end.
Proof.
  intros [D Nm U G]. unfold flat_insert. rewrite D. destruct (Nat.eqb_spec (length v) dim) as [E|E]; cbn [negb]; auto. split; auto.
  split; cbn [with_vecs fl_vecs fl_dim fl_normalized]; auto; [apply keys_set; auto|]. intros i. unfold after_insert. cbn [fst snd]. rewrite get_set, G, Nm. destruct (Nat.eqb_spec (length v) dim); [|contradiction]. auto.
Qed.
Lemma keeps_ext x h h' : Keeps dim norm x h -> (forall i, h i = h' i) -> Keeps dim norm x h'.
Proof. intros [D Nm U G] E. split; auto. intros i. rewrite G. auto. Qed.
Lemma keeps_batch l : forall x h, Keeps dim norm x h ->
  Keeps dim norm (fst (flat_batch_loop x l)) (fun i => fold_left (after_insert dim norm i) (good_prefix dim l) (h i)) /\
  (snd (flat_batch_loop x l) = true <-> forall p, In p l -> length (snd p) = dim).
Proof.
  induction l as [|[id v] l IH]; intros x h K; cbn [flat_batch_loop good_prefix snd fold_left fst]; [split; auto; split; [intros _ ? []|auto]|].
  pose proof (keeps_insert x h id v K) as Hi. destruct (flat_insert x id v) as [y|e|]; try contradiction.
  - destruct Hi as [E K']. destruct (Nat.eqb_spec (length v) dim); [|contradiction]. cbn [fold_left]. destruct (IH y _ K') as [A B]. split; auto.
    rewrite B. split; [intros H p [<-|Hp]; auto|intros H p Hp; apply H; right; auto].
  - destruct (Nat.eqb_spec (length v) dim); [contradiction|]. cbn. split; auto. split; [discriminate|]. intros H. specialize (H (id, v) (or_introl eq_refl)). contradiction.
Qed.
Lemma keeps_step x h o : Keeps dim norm x h -> Keeps dim norm (fstep x o) (fun i => after dim norm i (h i) o).
Proof.
  intros K. destruct o as [id v|ids vs|id|]; cbn [fstep after].
  - pose proof (keeps_insert x h id v K) as Hi. destruct (flat_insert x id v) as [y|e|]; try contradiction; [apply Hi|].
    eapply keeps_ext; [exact K|]. intros i. unfold after_insert. cbn. destruct (Nat.eqb_spec (length v) dim); [contradiction|]. auto.
  - unfold flat_batch. destruct (Nat.eqb (length ids) (length vs)); cbn [negb]; [|exact K]. apply keeps_batch; auto.
  - unfold flat_delete. rewrite (kp_get _ _ _ _ K). destruct (h id) eqn:E; cbn [fst].
    + destruct K as [D Nm U G]. split; cbn [with_vecs fl_vecs fl_dim fl_normalized]; auto; [apply keys_del; auto|]. intros i. rewrite get_del, G. auto.
    + eapply keeps_ext; [exact K|]. intros i. destruct (String.eqb_spec id i) as [->|]; auto.
  - destruct K as [D Nm U G]. split; cbn; auto. constructor.
Qed.
Lemma keeps_run ops : forall x h, Keeps dim norm x h -> Keeps dim norm (frun x ops) (fun i => fold_left (after dim norm i) ops (h i)).
Proof.
  induction ops as [|o ops IH]; intros x h K; cbn [frun fold_left]; auto. apply (IH _ _ (keeps_step x h o K)).
Qed.
Lemma keeps_new ops : Keeps dim norm (frun (new_flat dim norm) ops) (holds dim norm ops).
Proof. apply (keeps_run ops (new_flat dim norm) (fun _ => None)). split; cbn; auto. constructor. Qed.
End F.

Section S.
Variable dist : list N -> list N -> float.
Lemma measured_lists dim norm x h order q : visits_all order -> Keeps dim norm x h ->
  lists_distances dist q h (measured dist q (order (fl_vecs x))).
Proof.
  intros Ho [D Nm U G]. assert (P : Permutation (fl_vecs x) (order (fl_vecs x))) by apply Ho. split.
  - unfold measured. rewrite map_map. cbn [snd]. eapply Permutation_NoDup; [apply Permutation_map; exact P|]. exact U.
  - intros d id. unfold measured. rewrite in_map_iff. split.
    + intros ([i v] & [= <- <-] & Hi). exists v. split; auto. rewrite <- G. apply get_in; auto. eapply Permutation_in; [apply Permutation_sym; exact P|exact Hi].
    + intros (v & Hv & ->). exists (id, v). split; auto. eapply Permutation_in; [exact P|]. apply get_in; auto. rewrite G. auto.
Qed.
Lemma lists_numbers h q all : lists_distances dist q h all -> (forall id v, h id = Some v -> not_nan (dist q v)) ->
  forall p, In p all -> not_nan (fst p).
Proof. intros [_ L] H [d id] Hp. apply L in Hp as (v & Hv & ->). cbn. eauto. Qed.

Lemma flat_search_lemma dim norm x h order q k : visits_all order -> Keeps dim norm x h -> length q = dim -> (1 <= k)%Z ->
  (forall id v, h id = Some v -> not_nan (dist (prepare norm q) v)) ->
  exists all out, flat_search dist order x q k = Ok out /\ lists_distances dist (prepare norm q) h all /\ is_topk nearer (Z.to_nat k) all out.
Proof.
  intros Ho K Lq Hk Nn. pose proof (measured_lists dim norm x h order (prepare norm q) Ho K) as L.
  exists (measured dist (prepare norm q) (order (fl_vecs x))). unfold flat_search. rewrite (kp_dim _ _ _ _ K), (kp_norm _ _ _ _ K), Lq, Nat.eqb_refl. cbn [negb].
  destruct (fl_vecs x) as [|p l] eqn:E.
  - exists []. split; auto. split; auto. pose proof (Ho []) as P. apply Permutation_nil in P. rewrite P. exists []. cbn. rewrite Nat.min_0_r. split; [constructor|]. split; [reflexivity|]. split; [constructor|intros ? ? []].
  - rewrite <- E in *. destruct (heap_topk flat_better (Z.to_nat k) (measured dist (prepare norm q) (order (fl_vecs x)))) as (hp & -> & T).
    + apply weak_order_asc. eapply lists_numbers; eauto.
    + lia.
    + exists (heap_results flat_better hp). auto.
Qed.

(** quick sort *)
Lemma rotate_perm {A} (l : list A) : Permutation l (rotate l).
Proof. destruct l as [|x l]; cbn; auto. apply (Permutation_app_comm [x] l). Qed.
Lemma partition_ok pivot l : forall le gt le' gt', partition pivot l le gt = (le', gt') ->
  Permutation (l ++ le ++ gt) (le' ++ gt') /\ (Forall (fun p => fle (fst p) pivot = true) le -> Forall (fun p => fle (fst p) pivot = true) le') /\
  (Forall (fun p => fle (fst p) pivot = false) gt -> Forall (fun p => fle (fst p) pivot = false) gt').
Proof.
  induction l as [|x l IH]; cbn [partition]; intros le gt le' gt' E; [injection E as <- <-; auto|].
  destruct (fle (fst x) pivot) eqn:Ex; apply IH in E as (P & A & B).
  - split; [|split].
    + eapply perm_trans; [|exact P]. cbn [app]. eapply perm_trans; [apply Permutation_middle|]. apply Permutation_app_head. rewrite <- app_assoc. cbn [app].
      eapply perm_trans; [apply Permutation_middle|]. apply Permutation_app_head. apply perm_skip. apply rotate_perm.
    + intros H. apply A. apply Forall_app. auto.
    + intros H. apply B. eapply Permutation_Forall; [apply rotate_perm|]. exact H.
  - split; [|split]; auto.
    + eapply perm_trans; [|exact P]. cbn [app]. eapply perm_trans; [apply Permutation_middle|]. apply Permutation_app_head.
      eapply perm_trans; [apply Permutation_middle|]. apply Permutation_app_head. apply (Permutation_app_comm [x] gt).
    + intros H. apply B. apply Forall_app. auto.
Qed.
Lemma quick_ok f : forall l, length l <= f -> Permutation l (quick_sort f l) /\
  ((forall p, In p l -> not_nan (fst p)) -> StronglySorted (fun a b => nearer b a = false) (quick_sort f l)).
Proof.
  induction f as [|f IH]; intros l Hl; cbn [quick_sort]; [destruct l; [|cbn in Hl; lia]; split; auto; constructor|].
  destruct (rev l) as [|pv before] eqn:E.
  - apply (f_equal (@rev _)) in E. rewrite rev_involutive in E. subst. split; [constructor|intros _; constructor].
  - assert (El : l = rev before ++ [pv]) by (apply (f_equal (@rev _)) in E; rewrite rev_involutive in E; exact E).
    destruct (partition (fst pv) (rev before) [] []) as [le gt] eqn:Ep. apply partition_ok in Ep as (P & A & B). rewrite !app_nil_r in P.
    specialize (A (Forall_nil _)). specialize (B (Forall_nil _)). pose proof (Permutation_length P) as PL. rewrite app_length in PL.
    assert (Hlen : length l = S (length (rev before))) by (rewrite El, app_length; cbn; lia).
    pose proof (rotate_perm gt) as Pg. pose proof (Permutation_length Pg).
    destruct (IH le ltac:(lia)) as [P1 S1]. destruct (IH (rotate gt) ltac:(lia)) as [P2 S2]. split.
    + rewrite El. eapply perm_trans; [apply Permutation_app_comm|]. cbn [app]. eapply perm_trans; [apply perm_skip; exact P|].
      eapply perm_trans; [apply Permutation_middle|]. apply Permutation_app; auto. apply perm_skip. eapply perm_trans; [exact Pg|exact P2].
    + intros Nn. assert (Npv : not_nan (fst pv)) by (apply Nn; rewrite El; apply in_or_app; right; left; auto).
      assert (Nle : forall p, In p le -> not_nan (fst p)).
      { intros p Hp. apply Nn. rewrite El. apply in_or_app. left. eapply Permutation_in; [apply Permutation_sym; exact P|]. apply in_or_app; auto. }
      assert (Ngt : forall p, In p (rotate gt) -> not_nan (fst p)).
      { intros p Hp. apply Nn. rewrite El. apply in_or_app. left. eapply Permutation_in; [apply Permutation_sym; exact P|]. apply in_or_app. right.
        eapply Permutation_in; [apply Permutation_sym; exact Pg|auto]. }
      specialize (S1 Nle). specialize (S2 Ngt).
      assert (Hle : forall p, In p (quick_sort f le) -> flt (fst pv) (fst p) = false).
      { intros p Hp. apply (Permutation_in _ (Permutation_sym P1)) in Hp. rewrite Forall_forall in A. specialize (A p Hp). rewrite fle_flt in A by auto. apply negb_true_iff in A. auto. }
      assert (Hgt : forall p, In p (quick_sort f (rotate gt)) -> flt (fst pv) (fst p) = true).
      { intros p Hp. apply (Permutation_in _ (Permutation_sym P2)) in Hp. assert (Np := Ngt p Hp). apply (Permutation_in _ (Permutation_sym Pg)) in Hp.
        rewrite Forall_forall in B. specialize (B p Hp). rewrite fle_flt in B by auto. apply negb_false_iff in B. auto. }
      assert (Nq1 : forall p, In p (quick_sort f le) -> not_nan (fst p)) by (intros p Hp; apply Nle; eapply Permutation_in; [apply Permutation_sym; exact P1|auto]).
      clear - S1 S2 Hle Hgt Npv Nq1. induction S1 as [|a l1 S1' IH1 HF]; cbn [app].
      * constructor; auto. apply Forall_forall. intros p Hp. unfold nearer. apply flt_asym. auto.
      * constructor.
        -- apply IH1; intros p Hp; [apply Hle|apply Nq1]; right; auto.
        -- apply Forall_forall. intros p Hp. apply in_app_or in Hp as [Hp|[<-|Hp]].
           ++ rewrite Forall_forall in HF. auto.
           ++ apply Hle. left; auto.
           ++ unfold nearer. specialize (Hgt p Hp). apply (flt_ntrans (fst a) (fst pv) (fst p)); auto.
              ** apply Nq1; left; auto.
              ** apply flt_not_nan in Hgt. tauto.
              ** apply Hle; left; auto.
              ** apply flt_asym; auto.
Qed.
Lemma flat_range_lemma dim norm x h order q r : visits_all order -> Keeps dim norm x h -> length q = dim ->
  NoDup (map snd (flat_range dist order x q r)) /\
  (forall d id, In (d, id) (flat_range dist order x q r) <-> exists v, h id = Some v /\ d = dist (prepare norm q) v /\ fle d r = true) /\
  StronglySorted (fun a b => nearer b a = false) (flat_range dist order x q r).
Proof.
  intros Ho K Lq. pose proof (measured_lists dim norm x h order (prepare norm q) Ho K) as [Nd L].
  unfold flat_range. rewrite (kp_dim _ _ _ _ K), (kp_norm _ _ _ _ K), Lq, Nat.eqb_refl. cbn [negb].
  set (m := measured dist (prepare norm q) (order (fl_vecs x))) in *. set (found := filter _ m).
  destruct (quick_ok (length found) found (le_n _)) as [P S]. split; [|split].
  - eapply Permutation_NoDup; [apply Permutation_map; exact P|]. apply NoDup_map_filter. exact Nd.
  - intros d id. split.
    + intros Hi. apply (Permutation_in _ (Permutation_sym P)) in Hi. unfold found in Hi. apply filter_In in Hi as [Hi Hr]. apply L in Hi as (v & Hv & ->). exists v. auto.
    + intros (v & Hv & -> & Hr). eapply Permutation_in; [exact P|]. unfold found. apply filter_In. split; auto. apply L. exists v. auto.
  - apply S. intros p Hp. unfold found in Hp. apply filter_In in Hp as [_ Hp]. intros E. rewrite E in Hp. destruct r; discriminate.
Qed.
End S.
