From Coq Require Import String List NArith ZArith Bool Lia Permutation.
From Coq Require Import Floats.SpecFloat.
From Verif Require Import Base Floats64 StoreModel StoreSpec GraphModel GraphSpec.
Import ListNotations.
Open Scope string_scope.
Open Scope list_scope.
From Coq Require Import ZifyBool ZifyNat ZifyN.

(** * Replacing rows *)
Section Put.
Context {A : Type} (k : A -> string).
Definition gput (x : A) (l : list A) : list A :=
  if existsb (fun y => String.eqb (k y) (k x)) l then map (fun y => if String.eqb (k y) (k x) then x else y) l else l ++ [x].
Lemma key_stored l id : existsb (fun y => String.eqb (k y) id) l = true <-> exists y, In y l /\ k y = id.
Proof. rewrite existsb_exists. split; intros [y [H E]]; exists y; split; auto; apply String.eqb_eq; auto. Qed.
Lemma key_missing l id : existsb (fun y => String.eqb (k y) id) l = false <-> forall y, In y l -> k y <> id.
Proof.
  split.
  - intros H y Hy E. assert (existsb (fun y => String.eqb (k y) id) l = true) by (apply key_stored; eauto). congruence.
  - intros H. destruct (existsb _ l) eqn:E; auto. apply key_stored in E as [y [Hy Ey]]. destruct (H y Hy Ey).
Qed.
Lemma gput_in x l y : In y (gput x l) <-> y = x \/ (In y l /\ k y <> k x).
Proof.
  unfold gput. destruct (existsb _ l) eqn:E.
  - rewrite in_map_iff. split.
    + intros [z [Hz H]]. destruct (String.eqb_spec (k z) (k x)); subst; auto.
    + intros [->|[H D]].
      * apply key_stored in E as [z [Hz Ez]]. exists z. rewrite Ez, String.eqb_refl. auto.
      * exists y. destruct (String.eqb_spec (k y) (k x)); [contradiction|auto].
  - rewrite in_app_iff. cbn. pose proof (proj1 (key_missing _ _) E) as M. split.
    + intros [H|[->|[]]]; auto.
    + intros [->|[H _]]; auto.
Qed.
Lemma gput_ids x l : map k (gput x l) = if existsb (fun y => String.eqb (k y) (k x)) l then map k l else map k l ++ [k x].
Proof.
  unfold gput. destruct (existsb _ l); [|rewrite map_app; reflexivity].
  rewrite map_map. apply map_ext. intros y. destruct (String.eqb_spec (k y) (k x)); congruence.
Qed.
Lemma gput_nodup x l : NoDup (map k l) -> NoDup (map k (gput x l)).
Proof.
  intros H. rewrite gput_ids. destruct (existsb _ l) eqn:E; auto.
  apply NoDup_app_intro; auto.
  - constructor; [intros []|constructor].
  - intros y Hy [<-|[]]. apply in_map_iff in Hy as [z [Ez Hz]]. exact (proj1 (key_missing _ _) E z Hz Ez).
Qed.
Lemma gput_mono x l id : (exists y, In y l /\ k y = id) -> exists y, In y (gput x l) /\ k y = id.
Proof.
  intros [y [H E]]. destruct (String.eqb_spec (k y) (k x)) as [D|D].
  - exists x. split; [apply gput_in; auto|congruence].
  - exists y. split; [apply gput_in; auto|auto].
Qed.
End Put.

Lemma put_node_in n l x : In x (put_node n l) <-> x = n \/ (In x l /\ n_id x <> n_id n).
Proof. exact (gput_in n_id n l x). Qed.
Lemma put_edge_in e l x : In x (put_edge e l) <-> x = e \/ (In x l /\ ge_id x <> ge_id e).
Proof. exact (gput_in ge_id e l x). Qed.
Lemma put_node_nodup n l : NoDup (map n_id l) -> NoDup (map n_id (put_node n l)).
Proof. exact (gput_nodup n_id n l). Qed.
Lemma put_edge_nodup e l : NoDup (map ge_id l) -> NoDup (map ge_id (put_edge e l)).
Proof. exact (gput_nodup ge_id e l). Qed.
Lemma stored_iff d id : node_stored d id = true <-> has_node d id.
Proof. exact (key_stored n_id (g_nodes d) id). Qed.
Lemma in_ids_iff l x : in_ids l x = true <-> In x l.
Proof. unfold in_ids. rewrite existsb_exists. split; [intros [y [H E]]; apply String.eqb_eq in E; congruence|intros H; exists x; rewrite String.eqb_refl; auto]. Qed.
Lemma in_ids_false l x : in_ids l x = false <-> ~ In x l.
Proof. rewrite <- in_ids_iff. destruct (in_ids l x); intuition congruence. Qed.

Lemma default_weight_keys e : ge_id (default_weight e) = ge_id e /\ ge_from (default_weight e) = ge_from e /\ ge_to (default_weight e) = ge_to e.
Proof. unfold default_weight. destruct (feq _ _); auto. Qed.

(** * The invariant *)
Definition fine (d : gdb) : Prop := unique_ids d /\ no_dangling d.

Lemma has_node_put d n id : has_node d id -> has_node (set_nodes d (put_node n (g_nodes d))) id.
Proof. exact (gput_mono n_id n (g_nodes d) id). Qed.
Lemma put_node_unique d n : unique_ids d -> unique_ids (set_nodes d (put_node n (g_nodes d))).
Proof. intros [H1 H2]. split; auto. cbn. apply put_node_nodup; auto. Qed.
Lemma put_node_dangling d n : no_dangling d -> no_dangling (set_nodes d (put_node n (g_nodes d))).
Proof. intros H e He. destruct (H e He). split; apply has_node_put; auto. Qed.
Lemma put_edge_unique d e : unique_ids d -> unique_ids (set_edges d (put_edge e (g_edges d))).
Proof. intros [H1 H2]. split; auto. cbn. apply put_edge_nodup; auto. Qed.
Lemma put_edge_dangling ev d e : ev_fk ev = true -> edge_fk ev d e = true -> no_dangling d ->
  no_dangling (set_edges d (put_edge (default_weight e) (g_edges d))).
Proof.
  intros F K H x Hx. apply put_edge_in in Hx as [->|[Hx _]].
  - unfold edge_fk in K. rewrite F in K. cbn in K. apply andb_prop in K as [K1 K2].
    destruct (default_weight_keys e) as [_ [-> ->]].
    split; [exact (proj1 (stored_iff d _) K1)|exact (proj1 (stored_iff d _) K2)].
  - exact (H x Hx).
Qed.
Lemma drop_nodes_unique ev d p : unique_ids d -> unique_ids (drop_nodes ev d p).
Proof.
  intros [H1 H2]. split; cbn; [apply NoDup_map_filter; auto|].
  destruct (ev_fk ev); auto. apply NoDup_map_filter; auto.
Qed.
Lemma drop_nodes_edges ev d p e : ev_fk ev = true ->
  (In e (g_edges (drop_nodes ev d p)) <-> In e (g_edges d) /\ forall n, In n (g_nodes d) -> p n = true -> n_id n <> ge_from e /\ n_id n <> ge_to e).
Proof.
  intros F. cbn. rewrite F, filter_In.
  split; intros [H K]; (split; [exact H|]).
  - intros n Hn P. apply negb_true_iff in K. split; intros E.
    + assert (existsb (fun n => p n && (node_is (ge_from e) n || node_is (ge_to e) n)) (g_nodes d) = true); [|congruence].
      apply existsb_exists. exists n. split; auto. rewrite P. unfold node_is. rewrite E, String.eqb_refl. reflexivity.
    + assert (existsb (fun n => p n && (node_is (ge_from e) n || node_is (ge_to e) n)) (g_nodes d) = true); [|congruence].
      apply existsb_exists. exists n. split; auto. rewrite P. unfold node_is. rewrite E, String.eqb_refl, orb_true_r. reflexivity.
  - apply negb_true_iff. destruct (existsb _ (g_nodes d)) eqn:E; auto.
    apply existsb_exists in E as [n [Hn Q]]. apply andb_prop in Q as [P Q].
    destruct (K n Hn P) as [K1 K2]. unfold node_is in Q. apply orb_prop in Q as [Q|Q]; apply String.eqb_eq in Q; contradiction.
Qed.
Lemma drop_nodes_dangling ev d p : ev_fk ev = true -> no_dangling d -> no_dangling (drop_nodes ev d p).
Proof.
  intros F H e He. apply (drop_nodes_edges ev d p e F) in He as [He K].
  destruct (H e He) as [[n [Hn E]] [m [Hm E']]].
  split; [exists n|exists m]; split; auto; cbn; apply filter_In; split; auto.
  - destruct (p n) eqn:P; auto. destruct (K n Hn P) as [K1 _]. contradiction.
  - destruct (p m) eqn:P; auto. destruct (K m Hm P) as [_ K2]. contradiction.
Qed.
Lemma drop_edges_unique d p : unique_ids d -> unique_ids (set_edges d (filter p (g_edges d))).
Proof. intros [H1 H2]. split; auto. cbn. apply NoDup_map_filter; auto. Qed.
Lemma drop_edges_dangling d p : no_dangling d -> no_dangling (set_edges d (filter p (g_edges d))).
Proof. intros H e He. cbn in He. apply filter_In in He as [He _]. exact (H e He). Qed.

(** A property kept by each row operation is kept by every call. *)
Section Kept.
Variables (ev : env) (Q : gdb -> Prop).
Hypothesis K1 : forall d n, Q d -> node_valid n = true -> Q (set_nodes d (put_node n (g_nodes d))).
Hypothesis K2 : forall d e, Q d -> edge_valid e = true -> edge_fk ev d e = true -> Q (set_edges d (put_edge (default_weight e) (g_edges d))).
Hypothesis K3 : forall d p, Q d -> Q (drop_nodes ev d p).
Hypothesis K4 : forall d p, Q d -> Q (set_edges d (filter p (g_edges d))).

Lemma kept_nodes_loop l : forall i d b, Q d -> Q (fst (nodes_loop ev i d b l)).
Proof.
  induction l as [|[n|] l IH]; intros i d b H; cbn [nodes_loop fst]; auto.
  destruct (negb (node_valid n)) eqn:V; auto. apply negb_false_iff in V.
  destruct (ev_ok ev i); auto.
Qed.
Lemma kept_edges_loop l : forall i d b, Q d -> Q (fst (edges_loop ev i d b l)).
Proof.
  induction l as [|[e|] l IH]; intros i d b H; cbn [edges_loop fst]; auto.
  destruct (negb (edge_valid e)) eqn:V; auto. apply negb_false_iff in V.
  destruct (ev_ok ev i); cbn [andb]; auto.
  destruct (edge_fk ev d e) eqn:F; auto.
Qed.
Lemma kept_transaction last d body : Q d -> Q (fst body) -> Q (fst (in_transaction ev last d body)).
Proof. intros H B. unfold in_transaction. destruct (negb _); auto. destruct (ev_ok ev last); auto. Qed.
Lemma kept_step d o : Q d -> Q (gstep ev d o).
Proof.
  intros H. destruct o as [[n|]|id|[e|]|id|l|ids|l|ids|ns nd es ed]; cbn [gstep].
  - unfold upsert_node. destruct (negb (node_valid n)) eqn:V; auto. apply negb_false_iff in V. destruct (ev_ok ev 0); cbn [fst]; auto.
  - exact H.
  - unfold delete_node. destruct (negb _); auto. destruct (node_stored d id); cbn [fst]; auto.
  - unfold upsert_edge. destruct (negb (edge_valid e)) eqn:V; auto. apply negb_false_iff in V.
    destruct (ev_ok ev 0); cbn [andb]; auto. destruct (edge_fk ev d e) eqn:F; cbn [fst]; auto.
  - exact H.
  - unfold delete_edge. destruct (negb _); auto. destruct (existsb _ _); cbn [fst]; auto.
  - unfold upsert_nodes_batch. destruct l as [|x l]; auto. apply kept_transaction; auto. apply kept_nodes_loop; auto.
  - unfold delete_nodes_batch. destruct ids as [|x l]; auto. apply kept_transaction; auto. cbn [delete_ids fst]. auto.
  - unfold upsert_edges_batch. destruct l as [|x l]; auto. apply kept_transaction; auto. apply kept_edges_loop; auto.
  - unfold delete_edges_batch. destruct ids as [|x l]; auto. apply kept_transaction; auto. cbn [delete_edge_ids fst]. auto.
  - unfold execute_batch.
    pose proof (kept_nodes_loop ns 2 d no_result H) as N1. destruct (nodes_loop ev 2 d no_result ns) as [d1 b1].
    pose proof (K3 d1 (fun n => in_ids nd (n_id n)) N1) as N2.
    unfold delete_ids.
    match goal with |- context [edges_loop ev ?i ?d2 ?b2 es] => pose proof (kept_edges_loop es i d2 b2 N2) as N3; destruct (edges_loop ev i d2 b2 es) as [d3 b3] end.
    apply kept_transaction; auto. cbn [delete_edge_ids fst]. auto.
Qed.
End Kept.

Lemma reach_unique P d : greachable P d -> unique_ids d.
Proof.
  induction 1 as [|d ev o R IH HP]; [split; constructor|].
  apply kept_step; auto; intros; [apply put_node_unique|apply put_edge_unique|apply drop_nodes_unique|apply drop_edges_unique]; auto.
Qed.
Lemma reach_fine d : greachable fk_env d -> fine d.
Proof.
  induction 1 as [|d ev o R IH F]; [split; [split; constructor|intros e []]|].
  apply kept_step; auto; intros; destruct H as [U D]; split.
  - apply put_node_unique; auto. - apply put_node_dangling; auto.
  - apply put_edge_unique; auto. - apply put_edge_dangling with ev; auto.
  - apply drop_nodes_unique; auto. - apply drop_nodes_dangling; auto.
  - apply drop_edges_unique; auto. - apply drop_edges_dangling; auto.
Qed.

Lemma find_node d id n : unique_ids d -> (find (node_is id) (g_nodes d) = Some n <-> In n (g_nodes d) /\ n_id n = id).
Proof.
  intros [U _]. split.
  - intros H. apply find_some in H as [H E]. apply String.eqb_eq in E. auto.
  - intros [H E]. destruct (find (node_is id) (g_nodes d)) as [m|] eqn:F.
    + apply find_some in F as [F Em]. apply String.eqb_eq in Em. f_equal.
      apply (NoDup_map_eq n_id (g_nodes d) m n); congruence.
    + pose proof (find_none _ _ F n H) as C. unfold node_is in C. rewrite E, String.eqb_refl in C. discriminate.
Qed.
Lemma find_node_none d id : find (node_is id) (g_nodes d) = None <-> ~ has_node d id.
Proof.
  split.
  - intros F [n [H E]]. pose proof (find_none _ _ F n H) as C. unfold node_is in C. rewrite E, String.eqb_refl in C. discriminate.
  - intros H. destruct (find _ _) as [m|] eqn:F; auto. apply find_some in F as [F E]. apply String.eqb_eq in E. destruct H. exists m; auto.
Qed.
Lemma find_edge d id e : unique_ids d -> (find (edge_is id) (g_edges d) = Some e <-> In e (g_edges d) /\ ge_id e = id).
Proof.
  intros [_ U]. split.
  - intros H. apply find_some in H as [H E]. apply String.eqb_eq in E. auto.
  - intros [H E]. destruct (find (edge_is id) (g_edges d)) as [m|] eqn:F.
    + apply find_some in F as [F Em]. apply String.eqb_eq in Em. f_equal.
      apply (NoDup_map_eq ge_id (g_edges d) m e); congruence.
    + pose proof (find_none _ _ F e H) as C. unfold edge_is in C. rewrite E, String.eqb_refl in C. discriminate.
Qed.
