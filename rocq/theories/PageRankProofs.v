(** Proofs about PageRank over the rationals. *)
From Coq Require Import String List NArith ZArith QArith Qabs Bool Permutation Lia Lqa Setoid.
From Verif Require Import Base Floats64 StoreModel GraphModel GraphSpec GraphProofs GraphAlgoModel GraphAlgoSpec.
Import ListNotations.
Open Scope string_scope.
Open Scope list_scope.
Open Scope Q_scope.

Local Arguments Qplus : simpl never.
Local Arguments Qmult : simpl never.
Local Arguments Qdiv : simpl never.
Local Arguments Qminus : simpl never.
Local Arguments inject_Z : simpl never.

(** * sums *)
Lemma qsum_app a b : qsum (a ++ b) == qsum a + qsum b.
Proof. induction a as [|x a IH]; cbn [qsum map app]; [ring|]. rewrite IH. ring. Qed.
Lemma qsum_perm a b : Permutation a b -> qsum a == qsum b.
Proof. induction 1; cbn [qsum map app]; try rewrite IHPermutation; try reflexivity; [ring|]. rewrite IHPermutation1. exact IHPermutation2. Qed.
Lemma qsum_ext {A} (f g : A -> Q) l : (forall x, In x l -> f x == g x) -> qsum (map f l) == qsum (map g l).
Proof. induction l as [|x l IH]; cbn [qsum map app]; intros H; [reflexivity|]. rewrite (H x (or_introl eq_refl)), IH by (intros y Hy; apply H; right; auto). reflexivity. Qed.
Lemma qsum_plus {A} (f g : A -> Q) l : qsum (map (fun x => f x + g x) l) == qsum (map f l) + qsum (map g l).
Proof. induction l as [|x l IH]; cbn [qsum map app]; [ring|]. rewrite IH. ring. Qed.
Lemma qsum_scale {A} c (f : A -> Q) l : qsum (map (fun x => c * f x) l) == c * qsum (map f l).
Proof. induction l as [|x l IH]; cbn [qsum map app]; [ring|]. rewrite IH. ring. Qed.
Lemma qsum_const {A} c (l : list A) : qsum (map (fun _ => c) l) == inject_Z (Z.of_nat (length l)) * c.
Proof. induction l as [|x l IH]; [cbn [qsum map length]; change (inject_Z (Z.of_nat 0)) with 0; ring|]. cbn [map length]. cbn [qsum]. rewrite IH, Nat2Z.inj_succ. unfold Z.succ. rewrite inject_Z_plus. change (inject_Z 1) with 1. ring. Qed.
Lemma qsum_nonneg {A} (f : A -> Q) l : (forall x, In x l -> 0 <= f x) -> 0 <= qsum (map f l).
Proof. induction l as [|x l IH]; cbn [qsum map app]; intros H; [lra|]. pose proof (H x (or_introl eq_refl)). assert (0 <= qsum (map f l)) by (apply IH; intros y Hy; apply H; right; auto). lra. Qed.
Lemma qsum_le {A} (f g : A -> Q) l : (forall x, In x l -> f x <= g x) -> qsum (map f l) <= qsum (map g l).
Proof. induction l as [|x l IH]; cbn [qsum map app]; intros H; [lra|]. pose proof (H x (or_introl eq_refl)). assert (qsum (map f l) <= qsum (map g l)) by (apply IH; intros y Hy; apply H; right; auto). lra. Qed.
Lemma qsum_one_key (k : string) c ids : NoDup ids -> In k ids -> qsum (map (fun x => if String.eqb k x then c else 0) ids) == c.
Proof.
  induction ids as [|y ids IH]; intros N H; [destruct H|]. inversion N as [|? ? Ny N']; subst. cbn [qsum map app filter length]. destruct (String.eqb_spec k y) as [->|E].
  - assert (Z : qsum (map (fun x => if String.eqb y x then c else 0) ids) == 0).
    { rewrite (qsum_ext _ (fun _ => 0)); [rewrite qsum_const; ring|]. intros x Hx. destruct (String.eqb_spec y x); subst; [contradiction|reflexivity]. }
    rewrite Z. ring.
  - destruct H as [->|H]; [contradiction|]. rewrite IH; auto. ring.
Qed.
(** Summing by key first changes nothing. *)
Lemma qsum_by_key {A} (key : A -> string) (h : A -> Q) ids (l : list A) : NoDup ids -> (forall a, In a l -> In (key a) ids) ->
  qsum (map (fun x => qsum (map h (filter (fun a => String.eqb (key a) x) l))) ids) == qsum (map h l).
Proof.
  intros N. induction l as [|a l IH]; intros H.
  - cbn [qsum map app filter length]. rewrite qsum_const. ring.
  - cbn [map]. change (qsum (h a :: map h l)) with (h a + qsum (map h l)). rewrite <- IH by (intros; apply H; right; auto).
    rewrite <- (qsum_one_key (key a) (h a) ids N (H a (or_introl eq_refl))). rewrite <- qsum_plus. apply qsum_ext. intros x _.
    cbn [filter]. destruct (String.eqb (key a) x); cbn [map qsum]; ring.
Qed.

(** * indices and ids *)
Lemma index_of_some ids : NoDup ids -> forall x u, index_of x ids = Some u <-> nth_error ids u = Some x.
Proof.
  induction ids as [|y ids IH]; intros N x u; cbn; [destruct u; split; discriminate|]. inversion N as [|? ? Ny N']; subst.
  destruct (String.eqb_spec y x) as [->|E].
  - destruct u; cbn; [tauto|]. split; [discriminate|]. intros H. exfalso. apply Ny. eapply nth_error_In; eauto.
  - destruct u; cbn.
    + destruct (index_of x ids); cbn; split; intros H; try discriminate; injection H as ->; contradiction.
    + rewrite <- IH by auto. destruct (index_of x ids); cbn; split; intros H; try discriminate; injection H as ->; auto.
Qed.
Lemma index_of_none x ids : index_of x ids = None <-> ~ In x ids.
Proof.
  induction ids as [|y ids IH]; cbn; [tauto|]. destruct (String.eqb_spec y x) as [->|E]; [split; [discriminate|intros H; exfalso; auto]|].
  destruct (index_of x ids); cbn; split; try discriminate.
  - intros H. exfalso. apply H. right. destruct (in_dec string_dec x ids); auto. exfalso. assert (Some n = None) by (apply IH; auto). discriminate.
  - intros _ [?|H]; [auto|]. apply IH in H; auto.
  - auto.
Qed.

Section Rank.
Variable ids : list string.
Hypothesis Nd : NoDup ids.
Definition pairs (es : list gedge) : list (string * string) := map (fun e => (ge_from e, ge_to e)) es.
Definition mem (x : string) : bool := existsb (String.eqb x) ids.
Lemma mem_iff x : mem x = true <-> In x ids.
Proof. unfold mem. rewrite existsb_exists. split; [intros [y [H E]]; apply String.eqb_eq in E; congruence|]. intros H. exists x. split; auto. apply String.eqb_refl. Qed.
Lemma index_eqb x u y i : nth_error ids u = Some x -> index_of y ids = Some i -> Nat.eqb i u = String.eqb y x.
Proof.
  intros H1 H2. apply index_of_some in H2; auto. destruct (String.eqb_spec y x) as [->|E].
  - apply Nat.eqb_eq. apply index_of_some in H1, H2; auto. congruence.
  - apply Nat.eqb_neq. intros ->. congruence.
Qed.
Lemma links_cons e es : links ids (pairs (e :: es)) =
  match index_of (ge_from e) ids, index_of (ge_to e) ids with Some u, Some v => [(u, v)] | _, _ => [] end ++ links ids (pairs es).
Proof. reflexivity. Qed.
Lemma out_degree_ids es u x : nth_error ids u = Some x ->
  out_degree (links ids (pairs es)) u = Z.of_nat (length (filter (fun e => String.eqb (ge_from e) x && mem (ge_to e)) es)).
Proof.
  intros H. unfold out_degree. f_equal. induction es as [|e es IH]; [reflexivity|].
  rewrite links_cons, filter_app, app_length, IH. cbn [filter]. clear IH.
  destruct (index_of (ge_from e) ids) as [i|] eqn:F.
  - destruct (index_of (ge_to e) ids) as [j|] eqn:T.
    + assert (M : mem (ge_to e) = true) by (apply mem_iff; destruct (in_dec string_dec (ge_to e) ids) as [|C]; auto; apply index_of_none in C; congruence).
      cbn. rewrite (index_eqb x u _ i H F), M, andb_true_r. destruct (String.eqb (ge_from e) x); reflexivity.
    + assert (M : mem (ge_to e) = false) by (apply not_true_iff_false; rewrite mem_iff; apply index_of_none; auto).
      rewrite M, andb_false_r. reflexivity.
  - apply index_of_none in F. destruct (String.eqb_spec (ge_from e) x) as [<-|]; [|reflexivity]. exfalso. apply F. eapply nth_error_In; eauto.
Qed.
(** The score of [x] in a list of scores along [ids]. *)
Variable d : Q.
Definition along (f : string -> Q) (scores : list Q) : Prop := length scores = length ids /\ forall u x, nth_error ids u = Some x -> nth u scores 0 == f x.

Lemma rank_ids es scores f i x : along f scores -> nth_error ids i = Some x -> forall n,
  rank rational_numbers d n (links ids (pairs es)) scores i ==
  (1 - d) / inject_Z n + d * qsum (map (fun e => f (ge_from e) / inject_Z (Z.of_nat (length (filter (fun e' => String.eqb (ge_from e') (ge_from e) && mem (ge_to e')) es))))
                                     (filter (fun e => String.eqb (ge_to e) x && mem (ge_from e)) es)).
Proof.
  intros [L A] Hx n. unfold rank. cbn [num num_add num_div num_sub num_mul num_of rational_numbers].
  change (inject_Z 1) with 1. set (es0 := es) at 1 2 3. set (ls := links ids (pairs es0)).
  assert (G : forall es1 r, incl es1 es0 ->
    fold_left (fun r u => if (0 <? out_degree ls u)%Z then r + d * nth u scores (inject_Z 0) / inject_Z (out_degree ls u) else r) (in_links (links ids (pairs es1)) i) r ==
    r + d * qsum (map (fun e => f (ge_from e) / inject_Z (Z.of_nat (length (filter (fun e' => String.eqb (ge_from e') (ge_from e) && mem (ge_to e')) es0))))
                                     (filter (fun e => String.eqb (ge_to e) x && mem (ge_from e)) es1))).
  { induction es1 as [|e es1 IH]; intros r I; [cbn [in_links links pairs map flat_map filter fold_left qsum]; ring|]. unfold in_links in *. rewrite links_cons, filter_app, map_app, fold_left_app. cbn [filter].
    rewrite IH by (intros y Hy; apply I; right; auto). clear IH.
    destruct (index_of (ge_from e) ids) as [u|] eqn:F.
    - assert (M : mem (ge_from e) = true) by (apply mem_iff; destruct (in_dec string_dec (ge_from e) ids) as [|C]; auto; apply index_of_none in C; congruence).
      rewrite M, andb_true_r. destruct (index_of (ge_to e) ids) as [v|] eqn:T.
      + cbn. rewrite (index_eqb x i _ v Hx T). destruct (String.eqb_spec (ge_to e) x) as [E|E]; cbn; [|ring].
        assert (F' : nth_error ids u = Some (ge_from e)) by (apply index_of_some; auto).
        unfold ls at 1 2. rewrite (out_degree_ids es0 u (ge_from e) F').
        assert (P : (0 < Z.of_nat (length (filter (fun e' => String.eqb (ge_from e') (ge_from e) && mem (ge_to e')) es0)))%Z).
        { assert (In e (filter (fun e' => String.eqb (ge_from e') (ge_from e) && mem (ge_to e')) es0)) as Hi.
          { apply filter_In. split; [apply I; left; auto|]. rewrite String.eqb_refl. cbn. apply mem_iff. rewrite E. eapply nth_error_In; eauto. }
          destruct (filter _ es0); [destruct Hi|cbn; lia]. }
        rewrite (proj2 (Z.ltb_lt _ _) P). rewrite (A u (ge_from e) F'). unfold Qdiv. ring.
      + destruct (String.eqb_spec (ge_to e) x) as [E|E]; cbn; [|ring]. exfalso. apply index_of_none in T. apply T. rewrite E. eapply nth_error_In; eauto.
    - assert (M : mem (ge_from e) = false) by (apply not_true_iff_false; rewrite mem_iff; apply index_of_none; auto).
      rewrite M, andb_false_r. cbn. ring. }
  exact (G es ((1 - d) / inject_Z n) (incl_refl _)).
Qed.
End Rank.

(** * the iteration is the specified one *)
Lemma filter_length_perm {A} (p : A -> bool) l l' : Permutation l l' -> length (filter p l) = length (filter p l').
Proof. intros H. apply Permutation_length. apply Permutation_filter. auto. Qed.

Section Iterate.
Variables (g : gdb) (ids : list string) (es : list gedge) (d : Q).
Hypothesis U : unique_ids g.
Hypothesis Pi : Permutation ids (map n_id (g_nodes g)).
Hypothesis Pe : Permutation es (g_edges g).
Lemma ids_nodup : NoDup ids.
Proof. apply (Permutation_NoDup (Permutation_sym Pi)). exact (proj1 U). Qed.
Lemma mem_stored x : mem ids x = stored g x.
Proof.
  apply eq_true_iff_eq. rewrite mem_iff. unfold stored. rewrite existsb_exists. split.
  - intros H. apply (Permutation_in _ Pi) in H. apply in_map_iff in H as [n [<- Hn]]. exists n. split; auto. apply String.eqb_refl.
  - intros [n [Hn E]]. apply String.eqb_eq in E as <-. apply (Permutation_in _ (Permutation_sym Pi)). apply in_map. auto.
Qed.
Definition new_scores (scores : list Q) : list Q := map (rank rational_numbers d (Z.of_nat (length scores)) (links ids (pairs es)) scores) (seq 0 (length scores)).

Lemma nth_map_seq (f : nat -> Q) n u : (u < n)%nat -> nth u (map f (seq 0 n)) 0 = f u.
Proof. intros H. rewrite (nth_indep _ 0 (f 0%nat)) by (rewrite map_length, seq_length; auto). rewrite map_nth, seq_nth; auto. Qed.

Lemma surf_step k scores : along ids (surf g d k) scores -> along ids (surf g d (S k)) (new_scores scores).
Proof.
  intros A. pose proof A as [L A']. split; [unfold new_scores; rewrite map_length, seq_length; auto|].
  intros u x Hu. assert (Lu : (u < length scores)%nat) by (rewrite L; apply nth_error_Some; congruence).
  unfold new_scores. rewrite nth_map_seq by auto. rewrite (rank_ids ids ids_nodup d es scores (surf g d k) u x A Hu).
  assert (Ln : length scores = length (g_nodes g)) by (rewrite L, (Permutation_length Pi), map_length; auto).
  rewrite Ln. cbn [surf]. rewrite (qsum_perm (map _ (filter _ es)) (map (fun e => surf g d k (ge_from e) / inject_Z (Z.of_nat (length (edges_from g (ge_from e))))) (edges_to g x))); [reflexivity|].
  rewrite (map_ext _ (fun e => surf g d k (ge_from e) / inject_Z (Z.of_nat (length (edges_from g (ge_from e)))))).
  - apply Permutation_map. unfold edges_to. rewrite (filter_ext _ (fun e => String.eqb (ge_to e) x && stored g (ge_from e))); [apply Permutation_filter; auto|].
    intros e. rewrite mem_stored. auto.
  - intros e. unfold edges_from. rewrite (filter_length_perm _ _ _ Pe). do 4 f_equal. apply filter_ext. intros e'. rewrite mem_stored. auto.
Qed.


Definition small (k : nat) : Prop := forall x, In x ids -> Qabs (surf g d k x - surf g d (k - 1) x) < 1 # 1000000.
Lemma num_lt_iff a b : num_lt rational_numbers a b = true <-> a < b.
Proof. cbn [num_lt rational_numbers]. rewrite negb_true_iff. split; intros H; [apply Qnot_le_lt; rewrite <- Qle_bool_iff; congruence|]. apply not_true_iff_false. rewrite Qle_bool_iff. apply Qlt_not_le. exact H. Qed.
Lemma max_diff_lt e l : forall m, fold_left (fun m p => if num_lt rational_numbers m (Qabs (fst p - snd p)) then Qabs (fst p - snd p) else m) l m < e <->
  m < e /\ forall p : Q * Q, In p l -> Qabs (fst p - snd p) < e.
Proof.
  induction l as [|p l IH]; intros m; cbn [fold_left]; [split; [intros H; split; [auto|intros q []]|tauto]|].
  rewrite IH. destruct (num_lt rational_numbers m (Qabs (fst p - snd p))) eqn:E.
  - apply num_lt_iff in E. split.
    + intros [H1 H2]. split; [lra|]. intros q [<-|Hq]; auto.
    + intros [H1 H2]. split; [apply H2; left; auto|]. intros q Hq. apply H2. right; auto.
  - apply not_true_iff_false in E. rewrite num_lt_iff in E. apply Qnot_lt_le in E. split.
    + intros [H1 H2]. split; auto. intros q [<-|Hq]; [lra|auto].
    + intros [H1 H2]. split; auto. intros q Hq. apply H2. right; auto.
Qed.
Lemma max_diff_ids f f' a b e : along ids f a -> along ids f' b -> 0 < e ->
  (num_lt rational_numbers (max_diff rational_numbers a b) e = true <-> forall x, In x ids -> Qabs (f x - f' x) < e).
Proof.
  intros [La Ha] [Lb Hb] E. rewrite num_lt_iff. unfold max_diff. cbn [num_abs num_sub rational_numbers num_of]. rewrite (max_diff_lt e (List.combine a b) (inject_Z 0)).
  split.
  - intros [_ H] x Hx. apply In_nth_error in Hx as [u Hu]. rewrite <- (Ha u x Hu), <- (Hb u x Hu). assert (Lu : (u < length ids)%nat) by (apply nth_error_Some; congruence).
    specialize (H (nth u (List.combine a b) (0, 0))). rewrite combine_nth in H by congruence. cbn [fst snd] in H. apply H.
    rewrite <- combine_nth by congruence. apply nth_In. rewrite combine_length. lia.
  - intros H. split; [exact E|]. intros p Hp. apply In_nth with (d := (0, 0)) in Hp as [u [Lu <-]]. rewrite combine_length in Lu. rewrite combine_nth by congruence. cbn [fst snd].
    destruct (nth_error ids u) as [x|] eqn:Hu; [|apply nth_error_None in Hu; lia]. rewrite (Ha u x Hu), (Hb u x Hu). apply H. eapply nth_error_In; eauto.
Qed.

Lemma rank_rounds_S k scores : rank_rounds rational_numbers (S k) d (links ids (pairs es)) scores =
  if num_lt rational_numbers (max_diff rational_numbers (new_scores scores) scores) (num_1e6 rational_numbers) then new_scores scores
  else rank_rounds rational_numbers k d (links ids (pairs es)) (new_scores scores).
Proof. reflexivity. Qed.
Lemma rank_rounds_ids k : (0 < k)%nat -> forall j scores, along ids (surf g d j) scores ->
  exists m, (j < m <= j + k)%nat /\ along ids (surf g d m) (rank_rounds rational_numbers k d (links ids (pairs es)) scores) /\
    (m = (j + k)%nat \/ small m) /\ forall i, (j < i < m)%nat -> ~ small i.
Proof.
  induction k as [|k IH]; [lia|]. intros _ j scores A. rewrite rank_rounds_S.
  pose proof (surf_step j scores A) as A'.
  destruct (num_lt rational_numbers (max_diff rational_numbers (new_scores scores) scores) (num_1e6 rational_numbers)) eqn:E.
  - exists (S j). split; [lia|]. split; [exact A'|]. split; [right|lia]. intros x Hx.
    rewrite (max_diff_ids _ _ _ _ _ A' A) in E by reflexivity. cbn [Nat.sub]. rewrite Nat.sub_0_r. apply E; auto.
  - assert (Ns : ~ small (S j)).
    { intros Sm. apply not_true_iff_false in E. apply E. apply (max_diff_ids _ _ _ _ _ A' A); [reflexivity|].
      intros x Hx. specialize (Sm x Hx). cbn [Nat.sub] in Sm. rewrite Nat.sub_0_r in Sm. exact Sm. }
    destruct k as [|k].
    + exists (S j). split; [lia|]. split; [exact A'|]. split; [left; lia|lia].
    + destruct (IH ltac:(lia) (S j) (new_scores scores) A') as [m [M1 [M2 [M3 M4]]]]. exists m. split; [lia|]. split; auto. split; [destruct M3; [left; lia|auto]|].
      intros i Hi. destruct (Nat.eq_dec i (S j)) as [->|]; auto. apply M4. lia.
Qed.
End Iterate.

(** * bounds *)
Section Bounds.
Variables (g : gdb) (d : Q).
Hypothesis U : unique_ids g.
Hypothesis D0 : 0 <= d.
Hypothesis D1 : d <= 1.
Let n := inject_Z (Z.of_nat (length (g_nodes g))).
Let ids := map n_id (g_nodes g).
Lemma stored_in x : stored g x = true <-> In x ids.
Proof.
  unfold stored, ids. rewrite existsb_exists, in_map_iff. split; intros [y [A B]]; exists y; [apply String.eqb_eq in B; auto|split; auto; apply String.eqb_eq; auto].
Qed.
Lemma n_nonneg : 0 <= n.
Proof. unfold n. change 0 with (inject_Z 0). rewrite <- Zle_Qle. lia. Qed.
Lemma div_nonneg a b : 0 <= a -> 0 <= b -> 0 <= a / b.
Proof. intros A B. unfold Qdiv. apply Qmult_le_0_compat; auto. apply Qinv_le_0_compat. auto. Qed.
Lemma count_nonneg {A} (l : list A) : 0 <= inject_Z (Z.of_nat (length l)).
Proof. change 0 with (inject_Z 0). rewrite <- Zle_Qle. lia. Qed.
Lemma surf_nonneg k : forall x, 0 <= surf g d k x.
Proof.
  induction k as [|k IH]; intros x; cbn [surf]; fold n; pose proof n_nonneg.
  - apply div_nonneg; lra.
  - assert (0 <= (1 - d) / n) by (apply div_nonneg; lra).
    assert (0 <= d * qsum (map (fun e => surf g d k (ge_from e) / inject_Z (Z.of_nat (length (edges_from g (ge_from e))))) (edges_to g x))).
    { apply Qmult_le_0_compat; auto. apply qsum_nonneg. intros e _. apply div_nonneg; auto. apply count_nonneg. }
    lra.
Qed.
Lemma surf_lower k x : (1 - d) / n <= surf g d (S k) x.
Proof.
  cbn [surf]. fold n.
  assert (0 <= d * qsum (map (fun e => surf g d k (ge_from e) / inject_Z (Z.of_nat (length (edges_from g (ge_from e))))) (edges_to g x))).
  { apply Qmult_le_0_compat; auto. apply qsum_nonneg. intros e _. apply div_nonneg; [apply surf_nonneg|]. apply count_nonneg. }
  lra.
Qed.
Definition has_out (x : string) : Prop := edges_from g x <> [].
Lemma surf_sum_step k : ids <> [] ->
  qsum (map (surf g d (S k)) ids) == (1 - d) + d * qsum (map (fun x => if Nat.eqb (length (edges_from g x)) 0 then 0 else surf g d k x) ids).
Proof.
  intros Ne. set (h := fun e => surf g d k (ge_from e) / inject_Z (Z.of_nat (length (edges_from g (ge_from e))))).
  set (E := filter (fun e => stored g (ge_from e) && stored g (ge_to e)) (g_edges g)).
  assert (To : forall x, In x ids -> edges_to g x = filter (fun e => String.eqb (ge_to e) x) E).
  { intros x Hx. unfold edges_to, E. rewrite filter_filter. apply filter_ext. intros e. destruct (String.eqb_spec (ge_to e) x) as [->|]; cbn; [|rewrite ?andb_false_r; auto].
    rewrite (proj2 (stored_in x) Hx), ?andb_true_r. auto. }
  assert (From : forall x, In x ids -> edges_from g x = filter (fun e => String.eqb (ge_from e) x) E).
  { intros x Hx. unfold edges_from, E. rewrite filter_filter. apply filter_ext. intros e. destruct (String.eqb_spec (ge_from e) x) as [->|]; cbn; [|rewrite ?andb_false_r; auto].
    rewrite (proj2 (stored_in x) Hx), ?andb_true_r. auto. }
  assert (Nd : NoDup ids) by exact (proj1 U).
  rewrite (qsum_ext _ (fun x => (1 - d) / n + d * qsum (map h (filter (fun e => String.eqb (ge_to e) x) E)))).
  2: { intros x Hx. cbn [surf]. rewrite (To x Hx). reflexivity. }
  rewrite qsum_plus, qsum_const, (qsum_scale d (fun x => qsum (map h (filter (fun e => String.eqb (ge_to e) x) E)))).
  rewrite (qsum_by_key ge_to h ids E Nd) by (intros e He; apply filter_In in He as [_ He]; apply andb_true_iff in He as [_ He]; apply stored_in; auto).
  rewrite <- (qsum_by_key ge_from h ids E Nd) by (intros e He; apply filter_In in He as [_ He]; apply andb_true_iff in He as [He _]; apply stored_in; auto).
  rewrite (qsum_ext (fun x => qsum (map h (filter (fun e => String.eqb (ge_from e) x) E))) (fun x => if Nat.eqb (length (edges_from g x)) 0 then 0 else surf g d k x)).
  - assert (Pn : ~ n == 0).
    { unfold n. intros H. unfold ids in Ne. destruct (g_nodes g) eqn:G; [apply Ne; reflexivity|]. change 0 with (inject_Z 0) in H. rewrite inject_Z_injective in H. cbn [length] in H. lia. }
    unfold ids at 1. rewrite map_length. fold n. field. exact Pn.
  - intros x Hx. rewrite <- (From x Hx). rewrite (qsum_ext h (fun _ => surf g d k x / inject_Z (Z.of_nat (length (edges_from g x))))).
    + rewrite qsum_const. destruct (Nat.eqb_spec (length (edges_from g x)) 0) as [E0|E0]; [rewrite E0; change (inject_Z (Z.of_nat 0)) with 0; ring|].
      field. intros H. change 0 with (inject_Z 0) in H. rewrite inject_Z_injective in H. lia.
    + intros e He. apply filter_In in He as [_ He]. apply andb_true_iff in He as [He _]. apply String.eqb_eq in He. unfold h. rewrite He. reflexivity.
Qed.
Lemma surf_sum_start : ids <> [] -> qsum (map (surf g d 0) ids) == 1.
Proof.
  intros Ne. cbn [surf]. fold n. rewrite qsum_const. unfold ids at 1. rewrite map_length. fold n. field.
  unfold n. intros H. unfold ids in Ne. destruct (g_nodes g) eqn:G; [apply Ne; reflexivity|]. change 0 with (inject_Z 0) in H. rewrite inject_Z_injective in H. cbn [length] in H. lia.
Qed.
Lemma surf_sum_le k : ids <> [] -> qsum (map (surf g d k) ids) <= 1.
Proof.
  intros Ne. induction k as [|k IH]; [rewrite surf_sum_start; auto; lra|]. rewrite surf_sum_step by auto.
  assert (qsum (map (fun x => if Nat.eqb (length (edges_from g x)) 0 then 0 else surf g d k x) ids) <= qsum (map (surf g d k) ids)) as L.
  { apply qsum_le. intros x _. pose proof (surf_nonneg k x). destruct (Nat.eqb _ _); lra. }
  assert (d * qsum (map (fun x => if Nat.eqb (length (edges_from g x)) 0 then 0 else surf g d k x) ids) <= d * 1); [|lra].
  rewrite !(Qmult_comm d). apply Qmult_le_compat_r; lra.
Qed.
Lemma surf_sum_one k : ids <> [] -> (forall x, In x ids -> edges_from g x <> []) -> qsum (map (surf g d k) ids) == 1.
Proof.
  intros Ne Out. induction k as [|k IH]; [apply surf_sum_start; auto|]. rewrite surf_sum_step by auto.
  rewrite (qsum_ext _ (surf g d k)); [rewrite IH; ring|]. intros x Hx. specialize (Out x Hx). destruct (edges_from g x); [contradiction|reflexivity].
Qed.
End Bounds.
