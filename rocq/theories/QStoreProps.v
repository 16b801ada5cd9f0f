(** Theorems about quantisation inside the store. *)
From Coq Require Import String List NArith ZArith QArith Bool Lia Lqa Permutation.
From Verif Require Import Base QuantModel QuantSpec QuantProofs QStoreModel QStoreSpec QStoreProofs.
Import ListNotations.
From Coq Require Import ZifyBool ZifyNat ZifyN.
Open Scope string_scope.
Open Scope list_scope.
Open Scope Q_scope.
Local Notation QA := Qarith.

(** Runs a concrete example. *)
Ltac run := match goal with
            | |- ?a = ?b => let v := eval vm_compute in a in unify b v; vm_cast_no_check (eq_refl v)
            | |- ?a == ?b => vm_compute; reflexivity
            end.

Lemma sq_new_fields dim bits q0 : sq_new QA dim bits = Ok q0 -> sq_dim QA q0 = dim /\ sq_trained QA q0 = false /\ (1 <= bits)%Z /\ sq_bits QA q0 = Z.to_nat bits.
Proof. unfold sq_new. destruct (_ || _) eqn:E; [discriminate|]. intros [= <-]. cbn. repeat split; auto. lia. Qed.

(** *** C201 *)
(** A store whose first data come in a batch: whatever is stored, updated and deleted
    afterwards (without retraining), the index compares queries, for every id, with a vector
    that lies, in each component, at most one step of the learnt range below the first vector
    given for the id, cut to that range; the range is that of the first thousand vectors of
    the batch, and no step panics. *)
Theorem quantised_index_close : forall ord dim bits q0 l b ops, sq_new QA dim bits = Ok q0 -> l <> [] ->
  all_sized dim (QBatch QA l b :: ops) -> no_retraining ops ->
  exists s lo hi, qrun QA ord (new_qstore QA q0) (QBatch QA l b :: ops) = Ok s /\ learnt (firstn 1000 (map snd l)) lo hi /\
  forall id v, first_given (accepted (QBatch QA l b :: ops)) id v ->
  exists w, index_vector QA s id = Some w /\
    Forall4 (fun lo hi x y => y <= clampQ lo hi x /\ clampQ lo hi x < y + (hi - lo) / inject_Z (2 ^ bits - 1)) lo hi v w.
Proof.
  intros ord dim bits q0 l b ops Hn Hl S N. destruct (sq_new_fields _ _ _ Hn) as (D & T & Hb & Bq). set (vs := firstn 1000 (map snd l)).
  assert (Sl : forall v, In v (map snd l) -> length v = dim) by (intros v Hv; apply (S (QBatch QA l b)); [left|]; auto).
  destruct (train_ok q0 vs) as [q E].
  { unfold vs. destruct l; [congruence|]. discriminate. }
  { rewrite D. apply Forall_forall. intros v Hv. apply Sl. unfold vs in Hv. revert Hv. generalize (map snd l). intros m Hv. rewrite <- (firstn_skipn 1000 m). apply in_or_app. auto. }
  pose proof (sq_train_lengths _ _ _ _ E) as (Dq & Bqq & Tq & _). rewrite D in Dq.
  assert (E1 : exists s1, qstep QA ord (new_qstore QA q0) (QBatch QA l b) = Ok s1 /\ qs_quant QA s1 = q /\ qs_nodes QA s1 = fold_left (index_insert QA q) (accepted [QBatch QA l b]) []).
  { destruct l as [|e l]; [congruence|]. cbn [qstep]. unfold auto_train_batch, train_with. cbn [qs_quant new_qstore]. rewrite T. fold vs. rewrite E. cbn [bind].
    assert (F : forallb (fun x => sized QA q (snd x)) (e :: l) = true) by (apply forallb_forall; intros x Hx; apply Nat.eqb_eq; rewrite Dq; apply Sl, in_map; auto).
    rewrite F, andb_true_r. destruct b; eexists; split; try reflexivity; split; auto. cbn [qs_nodes accepted flat_map new_qstore]. rewrite app_nil_r. reflexivity. }
  destruct E1 as (s1 & E1 & Q1 & N1). destruct (trained_run ord ops s1) as (s & Es & Qs & Ns); [congruence| |auto|].
  { rewrite Q1, Dq. intros o v Ho. apply S. right. auto. }
  exists s, (sq_min _ q), (sq_max _ q). split; [cbn [qrun]; rewrite E1; exact Es|]. split; [exact (train_learnt _ _ _ E)|].
  intros id v Hf. assert (Lv : length v = dim).
  { destruct Hf as (l1 & l2 & El & _). assert (Ia : In (id, v) (accepted (QBatch QA l b :: ops))) by (rewrite El; apply in_elt). unfold accepted in Ia. apply in_flat_map in Ia as (o & Ho & Hv).
    apply (S o); auto. destruct o as [i w [|]|m [|]| |i]; cbn in *; try contradiction; [destruct Hv as [Hv|[]]; injection Hv as _ ->; auto|apply (in_map snd) in Hv; exact Hv]. }
  destruct (trained_back dim bits vs v q0 q0 q Hn D eq_refl E Lv) as (bs & w & K & Dw & F4). exists w. split; auto.
  unfold index_vector. rewrite Ns, N1, Q1, <- fold_left_app. change (accepted [QBatch QA l b] ++ accepted ops) with (accepted ([QBatch QA l b]) ++ accepted ops).
  assert (Ea : accepted [QBatch QA l b] ++ accepted ops = accepted (QBatch QA l b :: ops)) by (unfold accepted; cbn [flat_map]; now rewrite app_nil_r).
  rewrite Ea, (index_insert_first q _ [] id v Hf eq_refl), K, Qs, Q1, Dw. reflexivity.
Qed.
Example quantised_index_close_ex : exists q0 s w, sq_new QA 2 8 = Ok q0 /\
  qrun QA (fun l => l) (new_qstore QA q0) [QBatch QA [("a", [0; 0]); ("b", [10; 1])] true; QUpsert QA "c" [5; 2 # 3] true; QDelete QA "a"] = Ok s /\
  index_vector QA s "c" = Some w /\ w <> [5; 2 # 3].
Proof. do 3 eexists. split; [run|]. split; [run|]. split; [run|discriminate]. Qed.
Print Assumptions quantised_index_close.

(** *** C202 *)
Lemma train_one q v : length v = sq_dim QA q -> exists q', sq_train QA q [v] = Ok q' /\ sq_min _ q' = v /\ sq_max _ q' = map (fun x => x + (1 # 1000000)) v.
Proof.
  intros L. unfold sq_train. cbn [num Qarith] in *. rewrite L, Nat.ltb_irrefl. cbn [train_loop]. cbn [num Qarith] in *. rewrite L, Nat.eqb_refl. cbn [negb bind].
  rewrite <- L, firstn_all. eexists. split; [reflexivity|]. cbn [sq_min sq_max].
  assert (M : zip_with QA (min_step QA) v v = v).
  { clear. induction v as [|x v IH]; cbn; auto. f_equal; auto. unfold min_step. destruct (a_lt QA x x); auto. }
  assert (X : zip_with QA (max_step QA) v v = v).
  { clear. induction v as [|x v IH]; cbn; auto. f_equal; auto. unfold max_step. destruct (a_lt QA x x); auto. }
  cbn [num Qarith] in *. rewrite M, X. split; auto. clear. induction v as [|x v IH]; cbn; auto. assert (E : Qeq_bool x x = true) by (apply Qeq_bool_iff; reflexivity). rewrite E. f_equal. auto.
Qed.
Definition close_to (x y : Q) : Prop := x - (1 # 1000000) < y /\ y <= x + (1 # 1000000).
(** Embeddings stored one at a time from the start: the quantiser is trained on the first one
    alone, so that for every embedding but the first the index holds a vector within 10^-6 of
    the first one, whatever was stored. *)
Theorem quantised_one_by_one : forall ord dim bits q0 id1 v1 id2 v2 b ops, (forall l, Permutation (ord l) l) -> sq_new QA dim bits = Ok q0 ->
  all_sized dim (QUpsert QA id1 v1 true :: QUpsert QA id2 v2 b :: ops) -> no_retraining ops ->
  exists s, qrun QA ord (new_qstore QA q0) (QUpsert QA id1 v1 true :: QUpsert QA id2 v2 b :: ops) = Ok s /\
  forall id v, id <> id1 -> In (id, v) (accepted (QUpsert QA id2 v2 b :: ops)) -> exists w, index_vector QA s id = Some w /\ Forall2 close_to v1 w.
Proof.
  intros ord dim bits q0 id1 v1 id2 v2 b ops O Hn S N. destruct (sq_new_fields _ _ _ Hn) as (D & T & Hb & Bq).
  assert (L1 : length v1 = dim) by (apply (S (QUpsert QA id1 v1 true)); cbn; auto).
  destruct (train_one q0 v1) as (q & E & Mn & Mx); [congruence|]. pose proof (sq_train_lengths _ _ _ _ E) as (Dq & _ & Tq & _). rewrite D in Dq.
  assert (O0 : ord [] = []) by (apply Permutation_nil, Permutation_sym, O).
  assert (O1 : ord [(id1, v1)] = [(id1, v1)]) by (apply Permutation_length_1_inv, Permutation_sym, O).
  set (s1 := {| qs_rows := [(id1, v1)]; qs_quant := q0; qs_nodes := [(id1, KFull QA v1)] |}).
  assert (E1 : qstep QA ord (new_qstore QA q0) (QUpsert QA id1 v1 true) = Ok s1).
  { cbn [qstep]. unfold auto_train, train_rows, train_with. cbn [qs_quant qs_rows new_qstore]. rewrite T, O0. cbn [map firstn sq_train bind].
    assert (Sz : sized QA q0 v1 = true) by (apply Nat.eqb_eq; congruence). rewrite Sz. cbn [andb row_put filter app index_insert existsb qs_nodes fst snd].
    unfold index_insert, keep_of, sq_encode. cbn [new_qstore qs_nodes existsb snd fst app]. rewrite T. reflexivity. }
  set (s1t := {| qs_rows := qs_rows QA s1; qs_quant := q; qs_nodes := qs_nodes QA s1 |}).
  assert (E2 : qstep QA ord s1 (QUpsert QA id2 v2 b) = qstep QA ord s1t (QUpsert QA id2 v2 b)).
  { cbn [qstep]. assert (A1 : auto_train QA ord s1 = Ok q) by (unfold auto_train, train_rows, train_with; cbn [qs_quant qs_rows s1]; rewrite T, O1; cbn [map snd firstn]; rewrite E; reflexivity).
    assert (A2 : auto_train QA ord s1t = Ok q) by (unfold auto_train; cbn [qs_quant s1t]; rewrite Tq; reflexivity). rewrite A1, A2. reflexivity. }
  destruct (trained_run ord (QUpsert QA id2 v2 b :: ops) s1t) as (s & Es & Qs & Ns); [exact Tq| | |].
  { cbn [qs_quant s1t]. rewrite Dq. intros o v Ho. apply S. right. auto. }
  { intros [H|H]; [discriminate|]. apply N. auto. }
  exists s. split. { cbn [qrun]. rewrite E1. cbn [bind]. rewrite E2. exact Es. }
  intros id v Ne Hi.
  (* the first vector given for the id *)
  assert (Hf : exists v', first_given (accepted (QUpsert QA id2 v2 b :: ops)) id v').
  { revert Hi. generalize (accepted (QUpsert QA id2 v2 b :: ops)). intros l. clear -Ne. induction l as [|[i x] l IH]; intros Hi; [destruct Hi|].
    destruct (String.eqb_spec i id) as [->|Hne]; [exists x, [], l; auto|]. destruct Hi as [Hi|Hi]; [injection Hi as -> _; congruence|].
    destruct (IH Hi) as (v' & l1 & l2 & -> & Nn). exists v', ((i, x) :: l1), l2. split; auto. cbn. intros [H|H]; auto. }
  destruct Hf as (v' & Hf).
  assert (Lv : length v' = dim).
  { destruct Hf as (l1 & l2 & El & _). assert (Ia : In (id, v') (accepted (QUpsert QA id2 v2 b :: ops))) by (rewrite El; apply in_elt). unfold accepted in Ia. apply in_flat_map in Ia as (o & Ho & Hv).
    apply (S o); [right; auto|]. destruct o as [i w [|]|m [|]| |i]; cbn in *; try contradiction; [destruct Hv as [Hv|[]]; injection Hv as _ ->; auto|apply (in_map snd) in Hv; exact Hv]. }
  destruct (trained_back dim bits [v1] v' q0 q0 q Hn D eq_refl E Lv) as (bs & w & K & Dw & F4). exists w. split.
  - unfold index_vector. rewrite Ns. cbn [qs_quant qs_nodes s1t s1]. rewrite (index_insert_first q _ _ id v' Hf), K, Qs; [cbn [qs_quant s1t]; rewrite Dw; reflexivity|]. cbn. destruct (String.eqb_spec id1 id); congruence.
  - rewrite Mn, Mx in F4. assert (P : (1 <= 2 ^ bits - 1)%Z) by (assert (2 ^ 1 <= 2 ^ bits)%Z by (apply Z.pow_le_mono_r; lia); change (2 ^ 1)%Z with 2%Z in H; lia).
    clear -F4 P. revert v' w F4. induction v1 as [|x v1 IH]; intros v' w F4; cbn in F4; inversion F4 as [|a1 b1 c1 d1 la lb lc ld [Hp1 Hp2] HF]; subst; constructor; eauto.
    set (h := x + (1 # 1000000)) in *. assert (C : x <= clampQ x h c1 /\ clampQ x h c1 <= h).
    { unfold clampQ. destruct (Qle_bool c1 x) eqn:Q1; [unfold h; split; lra|]. destruct (Qle_bool h c1) eqn:Q2; [unfold h; split; lra|].
      assert (~ c1 <= x) by (intros H; apply Qle_bool_iff in H; congruence). assert (~ h <= c1) by (intros H0; apply Qle_bool_iff in H0; congruence). lra. }
    assert (Dv : (h - x) / inject_Z (2 ^ bits - 1) <= h - x).
    { apply Qle_shift_div_r; [change 0 with (inject_Z 0); rewrite <- Zlt_Qlt; lia|]. assert (I1 : 1 <= inject_Z (2 ^ bits - 1)) by (change 1 with (inject_Z 1); rewrite <- Zle_Qle; lia). unfold h in *. nra. }
    unfold close_to. unfold h in *. split; lra.
Qed.
Print Assumptions quantised_one_by_one.
(** So the index does not hold every embedding up to a step of the range of the data: after
    0 and 100 it holds 10^-6 for the second. *)
Theorem quantised_one_by_one_refuted : exists q0 s w, sq_new QA 1 8 = Ok q0 /\
  qrun QA (fun l => l) (new_qstore QA q0) [QUpsert QA "a" [0] true; QUpsert QA "b" [100] true] = Ok s /\
  index_vector QA s "b" = Some [w] /\ w <= 1 # 1000000.
Proof. do 3 eexists. split; [run|]. split; [run|]. split; [run|]. vm_compute. discriminate. Qed.
Print Assumptions quantised_one_by_one_refuted.
(** *** C203 *)
(** Training again changes what the codes of the embeddings stored before mean: 1, stored
    with the range from 0 to 1, is 100 in the index after training with 100 among the data. *)
Theorem quantised_retraining_refuted : exists q0 s s' w w', sq_new QA 1 8 = Ok q0 /\
  qrun QA (fun l => l) (new_qstore QA q0) [QBatch QA [("a", [0]); ("b", [1])] true; QUpsert QA "c" [100] true] = Ok s /\
  qstep QA (fun l => l) s (QTrain QA) = Ok s' /\
  index_vector QA s "b" = Some [w] /\ w == 1 /\ index_vector QA s' "b" = Some [w'] /\ w' == 100.
Proof. do 5 eexists. split; [run|]. split; [run|]. split; [run|]. split; [run|]. split; [run|]. split; run. Qed.
Print Assumptions quantised_retraining_refuted.
(** *** C204 *)
(** Whatever is stored, updated, deleted and trained, nothing panics, and training learns
    from what is stored at that time: an embedding stored under a new id right afterwards is
    held by the index up to one step of the range of the first thousand stored vectors, in
    the order in which the database gives them. *)
Theorem quantised_after_training : forall ord dim bits q0 ops id v, (forall l, Permutation (ord l) l) -> sq_new QA dim bits = Ok q0 ->
  all_sized dim ops -> length v = dim -> ~ In id (map fst (accepted ops)) ->
  exists rows s, qrun QA ord (new_qstore QA q0) (ops ++ [QTrain QA; QUpsert QA id v true]) = Ok s /\
    NoDup (map fst rows) /\ (forall i w, In (i, w) rows <-> stored_after ops i w) /\
    (rows <> [] -> exists lo hi w, learnt (firstn 1000 (map snd (ord rows))) lo hi /\ index_vector QA s id = Some w /\
       Forall4 (fun lo hi x y => y <= clampQ lo hi x /\ clampQ lo hi x < y + (hi - lo) / inject_Z (2 ^ bits - 1)) lo hi v w).
Proof.
  intros ord dim bits q0 ops id v O Hn S Lv Ni. destruct (sq_new_fields _ _ _ Hn) as (D & T & Hb & Bq).
  destruct (any_run ord O dim ops (new_qstore QA q0)) as (s & E & Ds & Bs & Rs & Zs & Ns); [exact D|intros r []|exact S|]. cbn [qs_rows qs_nodes qs_quant new_qstore] in *.
  exists (qs_rows QA s).
  assert (App : forall a b s0, qrun QA ord s0 (a ++ b) = bind (qrun QA ord s0 a) (fun s1 => qrun QA ord s1 b)).
  { induction a as [|o a IH]; intros b s0; cbn [app qrun bind]; auto. destruct (qstep QA ord s0 o); cbn [bind]; auto. }
  pose proof (rows_trained ord O dim (qs_rows QA s) Zs) as F.
  destruct (train_with_ok (qs_quant QA s) (firstn 1000 (map snd (ord (qs_rows QA s))))) as (q & Eq & Dq & Bqq); [rewrite Ds; exact F|].
  assert (Dq' : sq_dim QA q = dim) by congruence.
  set (s1 := {| qs_rows := qs_rows QA s; qs_quant := q; qs_nodes := qs_nodes QA s |}).
  assert (E1 : qstep QA ord s (QTrain QA) = Ok s1) by (cbn [qstep]; unfold train_rows; rewrite Eq; reflexivity).
  destruct (any_run ord O dim [QUpsert QA id v true] s1) as (s2 & E2 & _); [exact Dq'|exact Zs| |].
  { intros o w [<-|[]] [<-|[]]. exact Lv. }
  exists s2. split; [rewrite App, E; cbn [bind]; cbn [qrun]; rewrite E1; exact E2|]. split; [rewrite Rs; apply apply_nodup; constructor|]. split.
  { intros i w. rewrite Rs, apply_all_in. unfold stored_after. split; [intros [H|[_ []]]; exact H|auto]. }
  intros Hne. assert (Nv : firstn 1000 (map snd (ord (qs_rows QA s))) <> []).
  { destruct (ord (qs_rows QA s)) as [|r rs] eqn:Eo; [|discriminate]. exfalso. apply Hne. apply Permutation_nil. pose proof (O (qs_rows QA s)) as P0. rewrite Eo in P0. exact P0. }
  destruct (train_ok (qs_quant QA s) _ Nv) as [q' Et]; [rewrite Ds; exact F|]. assert (q' = q) by (unfold train_with in Eq; rewrite Et in Eq; congruence). subst q'.
  pose proof (sq_train_lengths _ _ _ _ Et) as (_ & _ & Tq & _).
  destruct (trained_back dim bits _ v q0 (qs_quant QA s) q Hn Ds Bs Et Lv) as (bs & w & K & Dw & F4).
  exists (sq_min _ q), (sq_max _ q), w. split; [exact (train_learnt _ _ _ Et)|]. split; [|exact F4].
  cbn [qrun qstep] in E2. unfold auto_train in E2. cbn [qs_quant s1] in E2. rewrite Tq in E2. cbn [bind] in E2. assert (Sz : sized QA q v = true) by (apply Nat.eqb_eq; congruence). rewrite Sz in E2. cbn [andb bind] in E2.
  assert (Es : s2 = {| qs_rows := row_put QA (qs_rows QA s1) (id, v); qs_quant := q; qs_nodes := index_insert QA q (qs_nodes QA s1) (id, v) |}) by congruence.
  rewrite Es. unfold index_vector. cbn [qs_nodes qs_quant s1]. assert (Fi : find (fun n => String.eqb (fst n) id) (index_insert QA q (qs_nodes QA s) (id, v)) = Some (id, keep_of QA q v)).
  { apply (index_insert_first q [(id, v)] (qs_nodes QA s) id v); [exists [], []; auto|]. apply Ns; auto. }
  rewrite Fi, K, Dw. reflexivity.
Qed.
Example quantised_after_training_ex : exists q0 s w, sq_new QA 1 8 = Ok q0 /\
  qrun QA (fun l => l) (new_qstore QA q0) ([QUpsert QA "a" [0] true; QUpsert QA "b" [100] true; QUpsert QA "a" [50] true; QDelete QA "b"; QUpsert QA "d" [70] true] ++ [QTrain QA; QUpsert QA "c" [60] true]) = Ok s /\
  index_vector QA s "c" = Some [w] /\ 59 < w /\ w <= 60.
Proof. do 3 eexists. split; [run|]. split; [run|]. split; [run|]. vm_compute. split; congruence. Qed.
Print Assumptions quantised_after_training.

(** *** C212 *)
(** Closing a store and opening it again, with any configuration that allows a quantiser,
    enabled or not and with any number of bits: the index compares queries with the same
    vectors as before. *)
Theorem quantised_reopen : forall ord c s rows q0, sq_new QA (qc_dim c) (qc_bits c) = Ok q0 ->
  exists r, reopen QA ord c (Some (qs_quant QA s)) (Some (qs_nodes QA s)) rows = Ok r /\
  forall id, reopened_vector QA r id = index_vector QA s id.
Proof.
  intros ord c s rows q0 H. unfold reopen, load_quant. rewrite H. eexists. split; [reflexivity|]. intros id. reflexivity.
Qed.
Example quantised_reopen_ex : exists q0 s r w, sq_new QA 1 8 = Ok q0 /\
  qrun QA (fun l => l) (new_qstore QA q0) [QBatch QA [("a", [0]); ("b", [255])] true; QUpsert QA "c" [7] true] = Ok s /\
  reopen QA (fun l => l) {| qc_enabled := false; qc_dim := 1; qc_bits := 4 |} (Some (qs_quant QA s)) (Some (qs_nodes QA s)) [] = Ok r /\
  reopened_vector QA r "c" = Some [w] /\ w == 7.
Proof. do 4 eexists. split; [run|]. split; [run|]. split; [run|]. split; [run|]. run. Qed.
Print Assumptions quantised_reopen.
(** Without a snapshot of the nodes the index is rebuilt from what is stored: every stored
    embedding is held up to one step of the range of the first thousand rows, whatever the
    quantiser had learnt before. *)
Theorem quantised_rebuild : forall ord c q0 rows saved, (forall l, Permutation (ord l) l) -> qc_enabled c = true ->
  sq_new QA (qc_dim c) (qc_bits c) = Ok q0 -> (0 < qc_dim c)%nat ->
  (forall q, saved = Some q -> sq_dim QA q = qc_dim c /\ sq_bits QA q = sq_bits QA q0) ->
  rows <> [] -> NoDup (map fst rows) -> (forall id v, In (id, v) rows -> length v = qc_dim c) ->
  exists r lo hi, reopen QA ord c saved None rows = Ok r /\ learnt (firstn 1000 (map snd (ord rows))) lo hi /\
  forall id v, In (id, v) rows -> exists w, reopened_vector QA r id = Some w /\
    Forall4 (fun lo hi x y => y <= clampQ lo hi x /\ clampQ lo hi x < y + (hi - lo) / inject_Z (2 ^ qc_bits c - 1)) lo hi v w.
Proof.
  intros ord c q0 rows saved O En Hn Hd Hs Hne Nd Sz. destruct (sq_new_fields _ _ _ Hn) as (D & T & Hb & Bq).
  assert (Q : exists q, load_quant QA c saved (init_quant QA c) = Some q /\ sq_dim QA q = qc_dim c /\ sq_bits QA q = sq_bits QA q0).
  { unfold load_quant, init_quant. rewrite Hn, En. destruct saved as [q|]; [exists q; split; auto|]. destruct (Nat.ltb_spec 0 (qc_dim c)); [cbn; exists q0; auto|lia]. }
  destruct Q as (q & Eq & Dq & Bqq). unfold reopen. rewrite Eq.
  assert (Nv : firstn 1000 (map snd (ord rows)) <> []).
  { destruct (ord rows) as [|r rs] eqn:Eo; [|discriminate]. exfalso. apply Hne. apply Permutation_nil. pose proof (O rows) as P0. rewrite Eo in P0. exact P0. }
  assert (F : Forall (fun v => length v = sq_dim QA q) (firstn 1000 (map snd (ord rows)))) by (rewrite Dq; apply rows_trained; [exact O|intros [id v] Hr; apply (Sz id v Hr)]).
  destruct (train_ok q _ Nv F) as [q' E]. unfold train_with. cbn [num Qarith] in *. rewrite E. cbn [bind]. eexists. exists (sq_min _ q'), (sq_max _ q'). split; [reflexivity|]. split; [exact (train_learnt _ _ _ E)|].
  intros id v Hi. destruct (trained_back (qc_dim c) (qc_bits c) _ v q0 q q' Hn Dq Bqq E (Sz id v Hi)) as (bs & w & K & Dw & F4). exists w. split; [|exact F4].
  assert (Hf : first_given (ord rows) id v).
  { assert (Ho : In (id, v) (ord rows)) by (apply (Permutation_in _ (Permutation_sym (O rows))); exact Hi). apply in_split in Ho as (l1 & l2 & El). exists l1, l2. split; [exact El|].
    assert (Nd' : NoDup (map fst (ord rows))) by (eapply Permutation_NoDup; [apply Permutation_map, Permutation_sym, O|exact Nd]). rewrite El, map_app in Nd'. cbn in Nd'. apply NoDup_remove_2 in Nd'. intros H. apply Nd'. apply in_or_app. auto. }
  pose proof (index_insert_first q' (ord rows) [] id v Hf eq_refl) as Fi. rewrite K in Fi.
  unfold reopened_vector. cbn [ro_nodes ro_quant]. cbn [num Qarith] in *. rewrite Fi, Dw. reflexivity.
Qed.
Example quantised_rebuild_ex : exists r w, reopen QA (@rev _) {| qc_enabled := true; qc_dim := 1; qc_bits := 8 |} None None [("a", [0]); ("b", [255]); ("c", [7])] = Ok r /\
  reopened_vector QA r "c" = Some [w] /\ w == 7.
Proof. do 2 eexists. split; [run|]. split; [run|]. run. Qed.
Print Assumptions quantised_rebuild.
(** *** C213 *)
(** With a configuration that sets no number of bits (as cortexdb.Open makes it) the
    quantiser is lost while the codes are loaded: the index has no vector for any embedding
    stored in coded form, so that all of them are equally far from every query. *)
Theorem quantised_reopen_refuted : forall ord c s rows, (qc_bits c < 1)%Z ->
  exists r, reopen QA ord c (Some (qs_quant QA s)) (Some (qs_nodes QA s)) rows = Ok r /\
  forall id bs, find (fun n => String.eqb (fst n) id) (qs_nodes QA s) = Some (id, KCode QA bs) -> reopened_vector QA r id = None.
Proof.
  intros ord c s rows H. unfold reopen, load_quant, init_quant, sq_new. destruct (Z.ltb_spec (qc_bits c) 1) as [H1|H1]; [|lia]. cbn [orb].
  eexists. split; [reflexivity|]. intros id bs F. unfold reopened_vector. cbn [ro_nodes ro_quant]. rewrite F. destruct (qc_enabled c && _)%bool; reflexivity.
Qed.
Example quantised_reopen_refuted_ex : exists q0 s bs, sq_new QA 1 8 = Ok q0 /\
  qrun QA (fun l => l) (new_qstore QA q0) [QBatch QA [("a", [0]); ("b", [255])] true; QUpsert QA "c" [7] true] = Ok s /\
  find (fun n => String.eqb (fst n) "c") (qs_nodes QA s) = Some ("c", KCode QA bs).
Proof. do 3 eexists. split; [run|]. split; run. Qed.
Print Assumptions quantised_reopen_refuted.

(** *** C219 *)
(** A save that is interrupted, or of which a statement fails: as long as the quantiser was
    not trained again after the save before, a store opened afterwards compares queries with
    the vectors of the one or the other save, never with a mixture. *)
Lemma trained_stays ord ops : forall s s', qrun QA ord s ops = Ok s' -> no_retraining ops -> sq_trained QA (qs_quant QA s) = true -> qs_quant QA s' = qs_quant QA s.
Proof.
  induction ops as [|o ops IH]; intros s s' E N T; cbn [qrun] in E; [congruence|]. destruct (qstep QA ord s o) as [s1| |] eqn:E1; cbn [bind] in E; try discriminate.
  assert (Q1 : qs_quant QA s1 = qs_quant QA s).
  { destruct o as [id v ok|l ok| |id]; cbn [qstep] in E1.
    - unfold auto_train in E1. rewrite T in E1. cbn [bind] in E1. destruct (_ && _)%bool; injection E1 as <-; reflexivity.
    - destruct l as [|x l]; [injection E1 as <-; reflexivity|]. unfold auto_train_batch in E1. rewrite T in E1. cbn [bind] in E1. destruct (_ && _)%bool; injection E1 as <-; reflexivity.
    - exfalso. apply N. left. reflexivity.
    - injection E1 as <-. reflexivity. }
  rewrite <- Q1. apply (IH s1 s' E); [intros H; apply N; right; exact H|]. rewrite Q1. exact T.
Qed.
Theorem interrupted_save : forall ord c q0 s ops s' nodes_ok quant_ok old rows, sq_new QA (qc_dim c) (qc_bits c) = Ok q0 ->
  qrun QA ord s ops = Ok s' -> no_retraining ops -> sq_trained QA (qs_quant QA s) = true ->
  exists r, reopen QA ord c (fst (save_both QA nodes_ok quant_ok s' (save_both QA true true s old))) (snd (save_both QA nodes_ok quant_ok s' (save_both QA true true s old))) rows = Ok r /\
    forall id, reopened_vector QA r id = index_vector QA (if nodes_ok then s' else s) id.
Proof.
  intros ord c q0 s ops s' nodes_ok quant_ok old rows H E N T. pose proof (trained_stays ord ops s s' E N T) as Q1.
  unfold save_both. destruct nodes_ok; cbn [fst snd]; unfold reopen, load_quant; [destruct quant_ok|]; rewrite H; eexists; (split; [reflexivity|]); intros id; unfold reopened_vector, index_vector; cbn [ro_nodes ro_quant]; rewrite ?Q1; reflexivity.
Qed.
Example interrupted_save_ex : exists q0 s s' r w, sq_new QA 1 8 = Ok q0 /\ qrun QA (fun l => l) (new_qstore QA q0) [QBatch QA [("a", [0]); ("b", [255])] true] = Ok s /\
  sq_trained QA (qs_quant QA s) = true /\ qrun QA (fun l => l) s [QUpsert QA "c" [7] true; QDelete QA "a"] = Ok s' /\
  reopen QA (fun l => l) {| qc_enabled := true; qc_dim := 1; qc_bits := 8 |} (fst (save_both QA true false s' (save_both QA true true s (None, None)))) (snd (save_both QA true false s' (save_both QA true true s (None, None)))) [] = Ok r /\
  reopened_vector QA r "c" = Some [w] /\ w == 7.
Proof. do 5 eexists. split; [run|]. split; [run|]. split; [run|]. split; [run|]. split; [run|]. split; [run|]. run. Qed.
Print Assumptions interrupted_save.
(** Refuted without that condition: interrupted between its statements, the first save of a
    store leaves codes that the reopened store cannot read, and a save after retraining leaves
    codes that are read with the wrong range: 2550 reads as 255. *)
Theorem interrupted_save_refuted :
  (exists q0 s r, sq_new QA 1 8 = Ok q0 /\ qrun QA (fun l => l) (new_qstore QA q0) [QBatch QA [("a", [0]); ("b", [255])] true] = Ok s /\
     index_vector QA s "b" <> None /\
     reopen QA (fun l => l) {| qc_enabled := true; qc_dim := 1; qc_bits := 8 |} (fst (save_both QA true false s (None, None))) (snd (save_both QA true false s (None, None))) [("a", [0]); ("b", [255])] = Ok r /\
     reopened_vector QA r "b" = None) /\
  (exists q0 s s' r w w', sq_new QA 1 8 = Ok q0 /\ qrun QA (fun l => l) (new_qstore QA q0) [QBatch QA [("a", [0]); ("b", [255])] true] = Ok s /\
     qrun QA (fun l => l) s [QDelete QA "b"; QUpsert QA "d" [2550] true; QTrain QA; QUpsert QA "c" [2550] true] = Ok s' /\
     index_vector QA s' "c" = Some [w'] /\ w' == 2550 /\
     reopen QA (fun l => l) {| qc_enabled := true; qc_dim := 1; qc_bits := 8 |} (fst (save_both QA true false s' (save_both QA true true s (None, None)))) (snd (save_both QA true false s' (save_both QA true true s (None, None)))) [] = Ok r /\
     reopened_vector QA r "c" = Some [w] /\ w == 255).
Proof.
  split.
  - do 3 eexists. split; [run|]. split; [run|]. split; [vm_compute; discriminate|]. split; [run|]. run.
  - do 6 eexists. split; [run|]. split; [run|]. split; [run|]. split; [run|]. split; [run|]. split; [run|].
    split; [run|]. run.
Qed.
Print Assumptions interrupted_save_refuted.
