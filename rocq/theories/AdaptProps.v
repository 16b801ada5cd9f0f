(** Properties of SetAutoDimAdapt. *)
From Coq Require Import List String ZArith.
From Verif Require Import Base DimensionModel StoreModel StoreSpec StoreProps AdaptModel.
Import ListNotations.
Local Open Scope string_scope.

(** *** C225 *)
Definition sets (o : aop) : list policy := match o with ASet p => [p] | AUpsert _ _ => [] end.
Definition upserts (o : aop) : bool := match o with ASet _ => false | AUpsert _ _ => true end.
Lemma last_first {T} (l : list T) : forall a d, last (a :: l) d = last l a.
Proof. induction l as [|y l IH]; intros a d; [reflexivity|]. transitivity (last (y :: l) d); [reflexivity|]. rewrite (IH y d). symmetry. apply IH. Qed.
(** Config reports the policy set last, whatever was stored in between. *)
Theorem set_policy_reported : forall I p s ops,
  config_policy I (fst (a_run I (new_cstore I p s) ops)) = last (flat_map sets ops) p.
Proof.
  intros I p s ops. change p with (cs_config I (new_cstore I p s)) at 2. generalize (new_cstore I p s). clear.
  induction ops as [|[q|ev e] ops IH]; intros c; [reflexivity| |]; cbn [a_run flat_map sets app].
  - rewrite IH. cbn [cs_config set_auto_dim_adapt]. symmetry. apply last_first.
  - unfold c_upsert. destruct (upsert I ev (cs_store I c) e) as [s1 x]. destruct (a_run I _ ops) as [c2 xs] eqn:E. cbn [fst]. specialize (IH {| cs_config := cs_config I c; cs_store := s1 |}). rewrite E in IH. exact IH.
Qed.
(** Finding, for every store and history: embeddings are accepted, refused and adapted as if
    SetAutoDimAdapt had never been called. *)
Theorem set_policy_refuted : forall I p s ops,
  let with_sets := a_run I (new_cstore I p s) ops in
  let without := a_run I (new_cstore I p s) (filter upserts ops) in
  snd with_sets = snd without /\ cs_store I (fst with_sets) = cs_store I (fst without).
Proof.
  intros I p s ops. cbv zeta. generalize (new_cstore I p s).
  assert (H : forall ops c c', cs_store I c = cs_store I c' -> snd (a_run I c ops) = snd (a_run I c' (filter upserts ops)) /\ cs_store I (fst (a_run I c ops)) = cs_store I (fst (a_run I c' (filter upserts ops)))).
  { clear. induction ops as [|[q|ev e] ops IH]; intros c c' H; [split; auto| |]; cbn [a_run filter upserts].
    - apply IH. exact H.
    - unfold c_upsert. rewrite H. destruct (upsert I ev (cs_store I c') e) as [s1 x].
      destruct (IH {| cs_config := cs_config I c; cs_store := s1 |} {| cs_config := cs_config I c'; cs_store := s1 |} eq_refl) as [A B].
      destruct (a_run I _ ops) as [c2 xs]. destruct (a_run I _ (filter upserts ops)) as [c3 ys]. cbn in *. split; congruence. }
  intros c. apply H. reflexivity.
Qed.
(** So a strict store told to pad goes on refusing what a store created to pad stores. *)
Example set_policy_refuted_ex :
  let strict := new_cstore no_index StrictMode (new_store 3 StrictMode) in
  let told := set_auto_dim_adapt no_index AutoPad strict in
  let padding := new_cstore no_index AutoPad (new_store 3 StrictMode) in
  config_policy no_index told = config_policy no_index padding /\
  snd (c_upsert no_index good_env told (emb "a" one_half)) = Err EOther /\
  snd (c_upsert no_index good_env padding (emb "a" one_half)) = Ok tt.
Proof. repeat split; vm_compute; reflexivity. Qed.
Print Assumptions set_policy_reported.
Print Assumptions set_policy_refuted.
