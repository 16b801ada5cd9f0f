(** Proofs about quantisation inside the store. *)
From Coq Require Import String List NArith ZArith QArith Bool Lia Lqa Permutation.
From Verif Require Import Base QuantModel QuantSpec QuantProofs QStoreModel QStoreSpec.
Import ListNotations.
From Coq Require Import ZifyBool ZifyNat ZifyN.
Open Scope Q_scope.
Local Notation QA := Qarith.

(** * Training *)
Lemma zip_nth f : forall xs ys d z, nth_error (zip_with QA f xs ys) d = Some z -> exists x y, nth_error xs d = Some x /\ nth_error ys d = Some y /\ z = f x y.
Proof. induction xs as [|x xs IH]; intros [|y ys] [|d] z; cbn; try discriminate; [intros [= <-]; eauto|apply IH]. Qed.
Lemma train_attained dim vs : forall mn mx mn' mx', train_loop QA dim vs mn mx = Ok (mn', mx') ->
  (forall d x, nth_error mn' d = Some x -> nth_error mn d = Some x \/ exists v, In v vs /\ nth_error v d = Some x) /\
  (forall d x, nth_error mx' d = Some x -> nth_error mx d = Some x \/ exists v, In v vs /\ nth_error v d = Some x).
Proof.
  induction vs as [|v vs IH]; cbn [train_loop]; intros mn mx mn' mx' H; [injection H as <- <-; auto|].
  destruct (Nat.eqb_spec (length v) dim); cbn [negb] in H; [|discriminate]. apply IH in H as [H1 H2]. split; intros d x Hx.
  - destruct (H1 d x Hx) as [E|(w & Hw & E)]; [|right; exists w; split; [right|]; auto]. apply zip_nth in E as (a & b & Ea & Eb & ->). unfold min_step. destruct (a_lt QA b a); [right; exists v; split; [left|]; auto|left; auto].
  - destruct (H2 d x Hx) as [E|(w & Hw & E)]; [|right; exists w; split; [right|]; auto]. apply zip_nth in E as (a & b & Ea & Eb & ->). unfold max_step. destruct (a_lt QA a b); [right; exists v; split; [left|]; auto|left; auto].
Qed.
Lemma Forall2_nth {X Y} (P : X -> Y -> Prop) l l' : Forall2 P l l' -> forall d x y, nth_error l d = Some x -> nth_error l' d = Some y -> P x y.
Proof. induction 1 as [|a b l l' Hp HF IH]; intros [|d] x y; cbn; try discriminate; [intros [= <-] [= <-]; auto|apply IH]. Qed.
Lemma train_loop_ok dim vs : Forall (fun v => length v = dim) vs -> forall mn mx, exists r, train_loop QA dim vs mn mx = Ok r.
Proof. induction 1 as [|v vs Hv HF IH]; intros mn mx; cbn [train_loop]; eauto. cbn [num Qarith] in *. rewrite Hv, Nat.eqb_refl. cbn [negb]. apply IH. Qed.
Lemma train_ok q vs : vs <> [] -> Forall (fun v => length v = sq_dim QA q) vs -> exists q', sq_train QA q vs = Ok q'.
Proof.
  intros N F. unfold sq_train. destruct vs as [|v0 vs]; [congruence|]. pose proof (Forall_inv F) as L. cbv beta in L. cbn [num Qarith] in *. rewrite L, Nat.ltb_irrefl.
  destruct (train_loop_ok _ _ F (firstn (sq_dim QA q) v0) (firstn (sq_dim QA q) v0)) as [[mn mx] E]. cbn [num Qarith] in *. rewrite E. cbn [bind]. eauto.
Qed.
Lemma firstn_nth {X} n : forall (l : list X) d x, nth_error (firstn n l) d = Some x -> nth_error l d = Some x.
Proof. induction n as [|n IH]; intros [|a l] [|d] x; cbn; try discriminate; auto. Qed.
Lemma train_learnt q vs q' : sq_train QA q vs = Ok q' -> learnt vs (sq_min _ q') (sq_max _ q').
Proof.
  intros H. pose proof (sq_train_lengths _ _ _ _ H) as (_ & _ & _ & L1 & L2 & _). pose proof (sq_train_Q _ _ _ H) as [_ R2]. rewrite Forall_forall in R2. revert H.
  unfold sq_train. destruct vs as [|v0 vs]; [discriminate|]. destruct (Nat.ltb_spec (length v0) (sq_dim QA q)) as [|Hge]; [discriminate|].
  destruct (train_loop QA (sq_dim QA q) (v0 :: vs) (firstn (sq_dim QA q) v0) (firstn (sq_dim QA q) v0)) as [[mn mx]|e|] eqn:E; cbn [bind]; try discriminate.
  intros [= <-]. cbn [sq_min sq_max sq_dim] in *. destruct (train_attained _ _ _ _ _ _ E) as [A1 A2].
  apply train_loop_bounds in E as (_ & _ & E3); try (rewrite firstn_length; cbn [num Qarith] in *; lia). rewrite Forall_forall in E3.
  assert (A1' : forall d x, nth_error mn d = Some x -> exists v, In v (v0 :: vs) /\ nth_error v d = Some x).
  { intros d x Hx. destruct (A1 d x Hx) as [F|F]; auto. exists v0. split; [left; auto|]. eapply firstn_nth; eauto. }
  assert (A2' : forall d x, nth_error mx d = Some x -> exists v, In v (v0 :: vs) /\ nth_error v d = Some x).
  { intros d x Hx. destruct (A2 d x Hx) as [F|F]; auto. exists v0. split; [left; auto|]. eapply firstn_nth; eauto. }
  split; [exact (eq_trans L1 (eq_sym L2))|]. split.
  - intros d x Hx. split; auto. intros v y Hv Hy. destruct (E3 v Hv) as [F _]. eapply (Forall2_nth _ _ _ F); eauto.
  - intros d z Hz. split.
    + intros v y Hv Hy. destruct (R2 v Hv) as [_ F]. eapply (Forall2_nth _ _ _ F); eauto.
    + apply zip_nth in Hz as (hi & lo & Ehi & Elo & Ez). cbn [a_eq a_add a_eps Qarith] in Ez. destruct (Qeq_bool hi lo) eqn:Eq.
      * right. apply Qeq_bool_iff in Eq. exists lo. split; auto. split; [rewrite Ez, Eq; reflexivity|].
        intros v y Hv Hy. destruct (E3 v Hv) as [F1 F2]. pose proof (Forall2_nth _ _ _ F1 _ _ _ Elo Hy). pose proof (Forall2_nth _ _ _ F2 _ _ _ Hy Ehi). lra.
      * left. rewrite Ez. auto.
Qed.

(** * Runs of a trained store *)
Section Run.
Variable ord : list (string * list Q) -> list (string * list Q).
Lemma index_insert_all_in q l : forall ns id k, find (fun n => String.eqb (fst n) id) ns = Some k -> find (fun n => String.eqb (fst n) id) (fold_left (index_insert QA q) l ns) = Some k.
Proof.
  induction l as [|e l IH]; intros ns id k H; cbn [fold_left]; auto. apply IH. unfold index_insert. destruct (existsb _ ns); auto.
  clear IH. induction ns as [|n ns IHn]; cbn in *; [discriminate|]. destruct (String.eqb (fst n) id); auto.
Qed.
Lemma find_none_app {X} (f : X -> bool) a b : find f a = None -> find f (a ++ b) = find f b.
Proof. induction a as [|x a IH]; cbn; auto. destruct (f x); [discriminate|auto]. Qed.
Lemma exists_find {X} (f : X -> bool) l : existsb f l = true <-> find f l <> None.
Proof. induction l as [|x l IH]; cbn; [split; [discriminate|congruence]|]. destruct (f x); cbn; [split; [discriminate|auto]|auto]. Qed.
Lemma index_insert_first q l : forall ns id v, first_given l id v -> find (fun n => String.eqb (fst n) id) ns = None ->
  find (fun n => String.eqb (fst n) id) (fold_left (index_insert QA q) l ns) = Some (id, keep_of QA q v).
Proof.
  induction l as [|e l IH]; intros ns id v (l1 & l2 & E & N) F; [destruct l1; discriminate|]. cbn [fold_left]. destruct l1 as [|e1 l1].
  - injection E as -> ->. apply index_insert_all_in. unfold index_insert. cbn [fst snd].
    destruct (existsb (fun n => String.eqb (fst n) id) ns) eqn:X; [apply exists_find in X; congruence|]. rewrite find_none_app by auto. cbn. rewrite String.eqb_refl. reflexivity.
  - injection E as -> ->. cbn in N. apply IH; [exists l1, l2; auto|]. unfold index_insert. destruct (existsb _ ns); auto. rewrite find_none_app by auto. cbn.
    destruct (String.eqb_spec (fst e1) id); [exfalso; auto|reflexivity].
Qed.
Lemma trained_run ops : forall s, sq_trained QA (qs_quant QA s) = true -> all_sized (sq_dim QA (qs_quant QA s)) ops -> no_retraining ops ->
  exists s', qrun QA ord s ops = Ok s' /\ qs_quant QA s' = qs_quant QA s /\ qs_nodes QA s' = fold_left (index_insert QA (qs_quant QA s)) (accepted ops) (qs_nodes QA s).
Proof.
  induction ops as [|o ops IH]; intros s T S N; cbn [qrun]; [exists s; auto|].
  assert (S' : all_sized (sq_dim QA (qs_quant QA s)) ops) by (intros x v Hx; apply S; right; auto).
  assert (N' : no_retraining ops) by (intros Hx; apply N; right; auto).
  assert (Sz : forall v, In v (vectors_of o) -> sized QA (qs_quant QA s) v = true) by (intros v Hv; apply Nat.eqb_eq, (S o); [left|]; auto).
  assert (Step : exists s1, qstep QA ord s o = Ok s1 /\ qs_quant QA s1 = qs_quant QA s /\ qs_nodes QA s1 = fold_left (index_insert QA (qs_quant QA s)) (accepted [o]) (qs_nodes QA s)).
  { destruct o as [id v ok|l ok| |id].
    - cbn [qstep]. unfold auto_train. rewrite T. cbn [bind]. rewrite Sz by (left; auto). rewrite andb_true_r. destruct ok; eexists; split; try reflexivity; auto.
    - destruct l as [|e l]; [exists s; destruct ok; auto|]. cbn [qstep]. unfold auto_train_batch. rewrite T. cbn [bind].
      assert (F : forallb (fun x => sized QA (qs_quant QA s) (snd x)) (e :: l) = true) by (apply forallb_forall; intros x Hx; apply Sz, in_map; auto).
      rewrite F, andb_true_r. destruct ok; eexists; split; try reflexivity; split; auto. cbn [qs_nodes accepted flat_map]. rewrite app_nil_r. reflexivity.
    - exfalso. apply N. left. auto.
    - eexists. split; [reflexivity|]. auto. }
  destruct Step as (s1 & E1 & Q1 & N1). rewrite E1. cbn [bind]. destruct (IH s1) as (s' & E' & Q' & Nn); [congruence|rewrite Q1; auto|auto|].
  exists s'. split; auto. split; [congruence|]. rewrite Nn, Q1, N1. rewrite <- fold_left_app. f_equal. unfold accepted. cbn [flat_map]. now rewrite app_nil_r.
Qed.
End Run.
(** What a trained quantiser gives back. *)
Lemma trained_back dim bits vs v q0 q q' : sq_new QA dim bits = Ok q0 -> sq_dim QA q = dim -> sq_bits QA q = sq_bits QA q0 -> sq_train QA q vs = Ok q' -> length v = dim ->
  exists bs w, keep_of QA q' v = KCode QA bs /\ sq_decode QA q' bs = Ok w /\
    Forall4 (fun lo hi x y => y <= clampQ lo hi x /\ clampQ lo hi x < y + (hi - lo) / inject_Z (2 ^ bits - 1)) (sq_min _ q') (sq_max _ q') v w.
Proof.
  intros Hn D B T L. assert (T0 : sq_train QA q0 vs = Ok q').
  { rewrite <- T. unfold sq_train. assert (Hd : sq_dim QA q0 = dim) by (unfold sq_new in Hn; destruct (_ || _); [discriminate|]; injection Hn as <-; reflexivity). rewrite Hd, D, B. reflexivity. }
  destruct (sq_error_Q dim bits vs v q0 q' Hn T0 L) as (bs & w & E1 & E2 & E3). exists bs, w. split; [|auto]. unfold keep_of. now rewrite E1.
Qed.

(** *** What is stored *)
Definition apply_event (rows : list (string * list Q)) (e : string * option (list Q)) : list (string * list Q) :=
  match snd e with Some v => row_put QA rows (fst e, v) | None => filter (fun r => negb (String.eqb (fst r) (fst e))) rows end.
Lemma apply_in rows e id v : In (id, v) (apply_event rows e) <-> (fst e = id /\ snd e = Some v) \/ (fst e <> id /\ In (id, v) rows).
Proof.
  destruct e as [i [w|]]; unfold apply_event, row_put; cbn [fst snd].
  - rewrite in_app_iff, filter_In. cbn. rewrite negb_true_iff, String.eqb_neq. split; [intros [[H N]|[H|[]]]; [right; auto|left; split; congruence]|intros [[-> H]|[N H]]; [right; left; congruence|left; auto]].
  - rewrite filter_In. cbn. rewrite negb_true_iff, String.eqb_neq. split; [intros [H N]; right; auto|intros [[_ H]|[N H]]; [discriminate|auto]].
Qed.
Lemma apply_all_in l : forall rows id v, In (id, v) (fold_left apply_event l rows) <->
  (exists l1 l2, l = l1 ++ (id, Some v) :: l2 /\ ~ In id (map fst l2)) \/ (~ In id (map fst l) /\ In (id, v) rows).
Proof.
  induction l as [|e l IH]; intros rows id v; cbn [fold_left].
  - split; [intros H; right; auto|]. intros [(l1 & l2 & H & _)|[_ H]]; auto. destruct l1; discriminate.
  - rewrite IH, apply_in. split.
    + intros [(l1 & l2 & -> & N)|[N [[E1 E2]|[Ne H]]]].
      * left. exists (e :: l1), l2. auto.
      * left. exists [], l. split; auto. destruct e; cbn in *; congruence.
      * right. split; auto. intros [H1|H1]; auto.
    + intros [(l1 & l2 & E & N)|[N H]].
      * destruct l1 as [|x l1]; injection E as -> ->; [right; split; auto; left; auto|left; exists l1, l2; auto].
      * cbn in N. right. split; [auto|]. right. auto.
Qed.
Lemma apply_nodup l : forall rows, NoDup (map fst rows) -> NoDup (map fst (fold_left apply_event l rows)).
Proof.
  assert (F : forall (p : string * list Q -> bool) rows, NoDup (map fst rows) -> NoDup (map fst (filter p rows))).
  { intros p rows. induction rows as [|r rows IHr]; cbn; auto. intros H. inversion H as [|? ? Hn Hd]; subst. destruct (p r); cbn; auto. constructor; auto. intros Hi. apply Hn. apply in_map_iff in Hi as (x & E & Hx). apply filter_In in Hx as [Hx _]. apply in_map_iff. eauto. }
  induction l as [|[i [w|]] l IH]; intros rows N; cbn [fold_left]; auto; apply IH; unfold apply_event, row_put; cbn [fst snd]; auto.
  rewrite map_app. cbn. apply NoDup_Add with (a := i) (l := map fst (filter (fun r => negb (String.eqb (fst r) i)) rows)); [rewrite <- (app_nil_r (map fst _)) at 1; apply Add_app|].
  split; auto. intros Hi. apply in_map_iff in Hi as (x & E & Hx). apply filter_In in Hx as [_ Hx]. subst. rewrite String.eqb_refl in Hx. discriminate.
Qed.
Lemma train_with_ok q vs : Forall (fun v => length v = sq_dim QA q) vs -> exists q', train_with QA q vs = Ok q' /\ sq_dim QA q' = sq_dim QA q /\ sq_bits QA q' = sq_bits QA q.
Proof.
  intros F. unfold train_with. destruct vs as [|v vs]; [exists q; cbn; auto|]. destruct (train_ok q (v :: vs)) as [q' E]; [discriminate|auto|]. rewrite E. exists q'. pose proof (sq_train_lengths _ _ _ _ E) as (H1 & H2 & _). auto.
Qed.
Lemma insert_other q l : forall ns id, ~ In id (map fst l) -> find (fun n => String.eqb (fst n) id) ns = None -> find (fun n => String.eqb (fst n) id) (fold_left (index_insert QA q) l ns) = None.
Proof.
  induction l as [|e l IH]; intros ns id N F; cbn [fold_left]; auto. apply IH; [intros H; apply N; right; auto|]. unfold index_insert. destruct (existsb _ ns); auto.
  rewrite find_none_app; auto. cbn [find fst]. destruct (String.eqb (fst e) id) eqn:Ee; auto. exfalso. apply N. left. apply String.eqb_eq. exact Ee.
Qed.
Section Any.
Variable ord : list (string * list Q) -> list (string * list Q).
Hypothesis O : forall l, Permutation (ord l) l.
Lemma rows_trained dim rows : (forall r, In r rows -> length (snd r) = dim) -> Forall (fun v => length v = dim) (firstn 1000 (map snd (ord rows))).
Proof.
  intros H. apply Forall_forall. intros v Hv. assert (In v (map snd (ord rows))) as Hi by (rewrite <- (firstn_skipn 1000); apply in_or_app; auto).
  apply in_map_iff in Hi as (r & <- & Hr). apply H. apply (Permutation_in _ (O rows)). exact Hr.
Qed.
Lemma any_run dim ops : forall s, sq_dim QA (qs_quant QA s) = dim -> (forall r, In r (qs_rows QA s) -> length (snd r) = dim) -> all_sized dim ops ->
  exists s', qrun QA ord s ops = Ok s' /\ sq_dim QA (qs_quant QA s') = dim /\ sq_bits QA (qs_quant QA s') = sq_bits QA (qs_quant QA s) /\
    qs_rows QA s' = fold_left apply_event (events ops) (qs_rows QA s) /\ (forall r, In r (qs_rows QA s') -> length (snd r) = dim) /\
    (forall id, ~ In id (map fst (accepted ops)) -> find (fun n => String.eqb (fst n) id) (qs_nodes QA s) = None -> find (fun n => String.eqb (fst n) id) (qs_nodes QA s') = None).
Proof.
  induction ops as [|o ops IH]; intros s D R S; cbn [qrun]; [exists s; repeat split; auto|].
  assert (S' : all_sized dim ops) by (intros x v Hx; apply S; right; auto).
  assert (So : forall v, In v (vectors_of o) -> length v = dim) by (intros v; apply S; left; auto).
  assert (One : exists s1, qstep QA ord s o = Ok s1 /\ sq_dim QA (qs_quant QA s1) = dim /\ sq_bits QA (qs_quant QA s1) = sq_bits QA (qs_quant QA s) /\
    qs_rows QA s1 = fold_left apply_event (events [o]) (qs_rows QA s) /\ (forall r, In r (qs_rows QA s1) -> length (snd r) = dim) /\
    (forall id, ~ In id (map fst (accepted [o])) -> find (fun n => String.eqb (fst n) id) (qs_nodes QA s) = None -> find (fun n => String.eqb (fst n) id) (qs_nodes QA s1) = None)).
  { clear IH S S' ops. destruct s as [rows q ns]. cbn [qs_quant qs_rows qs_nodes] in *.
    assert (TR : exists q', train_rows QA ord {| qs_rows := rows; qs_quant := q; qs_nodes := ns |} = Ok q' /\ sq_dim QA q' = dim /\ sq_bits QA q' = sq_bits QA q).
    { unfold train_rows. cbn [qs_quant qs_rows]. destruct (train_with_ok q (firstn 1000 (map snd (ord rows)))) as (q' & E & D' & B'); [rewrite D; apply rows_trained; auto|]. exists q'. split; [auto|split; congruence]. }
    destruct o as [id v ok|l ok| |id]; cbn [qstep vectors_of] in *.
    - assert (AT : exists q', auto_train QA ord {| qs_rows := rows; qs_quant := q; qs_nodes := ns |} = Ok q' /\ sq_dim QA q' = dim /\ sq_bits QA q' = sq_bits QA q).
      { unfold auto_train. cbn [qs_quant]. destruct (sq_trained QA q); [exists q; auto|exact TR]. }
      destruct AT as (q' & E & D' & B'). rewrite E. cbn [bind]. assert (Sz : sized QA q' v = true) by (apply Nat.eqb_eq; rewrite D'; apply So; left; auto). rewrite Sz, andb_true_r.
      destruct ok; eexists; (split; [reflexivity|]); cbn [qs_quant qs_rows qs_nodes events accepted flat_map app fold_left]; repeat (split; [auto; fail|]); auto.
      split; [intros [i w] Hr; apply (apply_in rows (id, Some v)) in Hr as [[_ Hr]|[_ Hr]]; [injection Hr as <-; apply So; left; auto|apply (R _ Hr)]|].
      intros i Ni F. apply (insert_other q' [(id, v)] ns i); auto.
    - destruct l as [|e l]; [exists {| qs_rows := rows; qs_quant := q; qs_nodes := ns |}; destruct ok; cbn; repeat split; auto|].
      set (l0 := e :: l) in *. assert (AT : exists q', auto_train_batch QA {| qs_rows := rows; qs_quant := q; qs_nodes := ns |} l0 = Ok q' /\ sq_dim QA q' = dim /\ sq_bits QA q' = sq_bits QA q).
      { unfold auto_train_batch. cbn [qs_quant]. destruct (sq_trained QA q); [exists q; auto|]. destruct (train_with_ok q (firstn 1000 (map snd l0))) as (q' & E & D' & B').
        - rewrite D. apply Forall_forall. intros v Hv. apply So. rewrite <- (firstn_skipn 1000). apply in_or_app. auto.
        - exists q'. split; [auto|split; congruence]. }
      destruct AT as (q' & E & D' & B'). rewrite E. cbn [bind].
      assert (F : forallb (fun x => sized QA q' (snd x)) l0 = true) by (apply forallb_forall; intros x Hx; apply Nat.eqb_eq; rewrite D'; apply So, in_map; auto).
      rewrite F, andb_true_r. clearbody l0. clear E F. destruct ok; eexists; (split; [reflexivity|]); cbn [qs_quant qs_rows qs_nodes events accepted flat_map fold_left]; rewrite ?app_nil_r; repeat (split; [auto; fail|]); auto.
      assert (Fe : forall rs, fold_left (row_put QA) l0 rs = fold_left apply_event (map (fun e => (fst e, Some (snd e))) l0) rs).
      { clear. induction l0 as [|[i w] l0 IH]; intros rs; cbn [fold_left map]; [reflexivity|apply IH]. }
      split; [apply Fe|]. split.
      + intros [i w] Hr. rewrite Fe in Hr. apply apply_all_in in Hr as [(l1 & l2 & Em & _)|[_ Hr]]; [|apply (R _ Hr)]. assert (Hi : In (i, Some w) (map (fun e => (fst e, Some (snd e))) l0)) by (rewrite Em; apply in_elt).
        apply in_map_iff in Hi as ([i' w'] & Ex & Hx). injection Ex as -> ->. apply So. apply (in_map snd) in Hx. exact Hx.
      + intros i Ni Fi. apply insert_other; auto.
    - destruct TR as (q' & E & D' & B'). rewrite E. cbn [bind]. eexists. split; [reflexivity|]. cbn. repeat split; auto.
    - eexists. split; [reflexivity|]. cbn. repeat split; auto. intros r Hr. apply filter_In in Hr as [Hr _]. auto. }
  destruct One as (s1 & E1 & D1 & B1 & R1 & Z1 & N1). destruct (IH s1 D1 Z1 S') as (s' & E' & D' & B' & R' & Z' & N'). exists s'. rewrite E1. cbn [bind].
  split; [exact E'|]. split; [exact D'|]. split; [congruence|]. split; [rewrite R', R1, <- fold_left_app; f_equal; unfold events; cbn [flat_map]; now rewrite app_nil_r|]. split; [exact Z'|].
  intros id Ni F. unfold accepted in Ni. cbn [flat_map] in Ni. rewrite map_app, in_app_iff in Ni. apply N'; [tauto|]. apply N1; auto. unfold accepted. cbn [flat_map]. rewrite app_nil_r. tauto.
Qed.
End Any.
