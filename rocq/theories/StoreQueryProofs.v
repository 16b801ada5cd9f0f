(** Proofs about the reading side of the store: documents, listings, counts. *)
From Coq Require Import String List NArith ZArith Bool Lia Permutation.
From Verif Require Import Base Floats64 EncodingModel EncodingSpec EncodingProofs DimensionModel StoreModel StoreSpec
  StoreProofs StoreInv StoreProofs2 StoreProofs3 SearchModel SearchProofs StoreQuerySpec.
Import ListNotations.
Open Scope string_scope.
Open Scope list_scope.

Section Q.
Variable I : index_ops.
Notation store := (store I).

Definition docfind (id : string) (ds : list document) := find (fun y => String.eqb (d_id y) id) ds.
Lemma docfind_exists id ds : existsb (fun y => String.eqb (d_id y) id) ds = true <-> docfind id ds <> None.
Proof.
  unfold docfind. induction ds as [|x ds IH]; cbn; [intuition discriminate|]. destruct (String.eqb (d_id x) id); cbn; [|exact IH].
  split; [discriminate|auto].
Qed.
Lemma docfind_app id a b : docfind id (a ++ b) = match docfind id a with Some x => Some x | None => docfind id b end.
Proof. apply find_app. Qed.
Lemma docfind_update id x ds : docfind id (map (fun y => if String.eqb (d_id y) (d_id x) then x else y) ds) =
  if String.eqb (d_id x) id then (match docfind id ds with Some _ => Some x | None => None end) else docfind id ds.
Proof.
  unfold docfind. induction ds as [|y ds IH]; cbn; [destruct (String.eqb _ _); auto|].
  destruct (String.eqb_spec (d_id y) (d_id x)) as [E|E].
  - rewrite E. destruct (String.eqb_spec (d_id x) id) as [F|F]; auto.
  - destruct (String.eqb_spec (d_id y) id) as [F|F]; auto. destruct (String.eqb_spec (d_id x) id) as [H|H]; auto. congruence.
Qed.
Lemma docfind_delete id x ds : docfind id (filter (fun y => negb (String.eqb (d_id y) x)) ds) = if String.eqb x id then None else docfind id ds.
Proof.
  unfold docfind. induction ds as [|y ds IH]; cbn; [destruct (String.eqb _ _); auto|].
  destruct (String.eqb_spec (d_id y) x) as [E|E]; cbn.
  - rewrite IH, E. destruct (String.eqb_spec x id); auto.
  - rewrite IH. destruct (String.eqb_spec (d_id y) id) as [F|F]; auto. destruct (String.eqb_spec x id) as [H|H]; auto. congruence.
Qed.

Lemma batch_docs ev es : forall d n d', batch_rows ev d n es = Ok d' -> t_docs d' = t_docs d.
Proof.
  induction es as [|e es IH]; cbn [batch_rows]; intros d n d' H; [injection H as <-; auto|].
  destruct (resolve_coll d e); cbn [bind] in H; try discriminate. destruct (encode_vector _); cbn [bind] in H; try discriminate.
  destruct (ev_ok ev n); [|discriminate]. destruct (insert_row _ _ _) as [d1|] eqn:E; [|discriminate].
  apply insert_row_db in E as ->. apply IH in H. rewrite H. reflexivity.
Qed.

Definition same_docs (s s' : store) : Prop := st_closed I s' = st_closed I s /\ t_docs (st_db I s') = t_docs (st_db I s).
Lemma get_doc_same s s' id : same_docs s s' -> get_document I s' id = get_document I s id.
Proof. intros [C D]. unfold get_document. rewrite C, D. reflexivity. Qed.

Lemma documents_lemma ev s o : get_document I (fst (step I ev s o)) =1= doc_after I s o (snd (step I ev s o)).
Proof.
  intros id. unfold doc_after.
  assert (Dead : st_closed I s = true -> o <> OClose -> get_document I (fst (step I ev s o)) id = get_document I s id /\ snd (step I ev s o) = Err EClosed).
  { intros C N. rewrite (closed_step I ev s o C N). auto. }
  destruct (st_closed I s) eqn:C.
  { destruct o; try (destruct (Dead eq_refl ltac:(discriminate)) as [D1 D2]; rewrite D1; try rewrite D2; reflexivity).
    cbn. unfold get_document. cbn. reflexivity. }
  clear Dead.
  destruct o; cbn [step].
  - destruct (upsert I ev s e) as [s' r] eqn:E. cbn [fst snd].
    assert (H : same_docs s s'). { destruct r as [[]|x|].
      + apply upsert_inv in E as (v & cid & blob & _ & _ & _ & _ & D & _ & C' & _). split; [congruence|]. rewrite D. reflexivity.
      + apply upsert_fail in E as [E [_ F]]; [|discriminate]. split; [congruence|]. rewrite E. reflexivity.
      + apply upsert_fail in E as [E [_ F]]; [|discriminate]. split; [congruence|]. rewrite E. reflexivity. }
    apply get_doc_same; auto.
  - apply get_doc_same. unfold upsert_batch. rewrite C. destruct es as [|e0 es0]; [split; auto|].
    destruct (negb (ev_ok ev 0)); [split; auto|]. destruct (batch_rows ev (st_db I s) 1 (e0 :: es0)) as [d| |] eqn:E; try (split; auto; fail).
    destruct (ev_ok ev _); split; auto. cbn. apply batch_docs in E. auto.
  - apply get_doc_same. unfold delete. rewrite C. destruct (String.eqb id0 ""); [split; auto|]. destruct (negb (ev_ok ev 0)); [split; auto|].
    destruct (existsb _ _); split; auto.
  - apply get_doc_same. unfold delete_by_doc. rewrite C. destruct (String.eqb doc ""); [split; auto|]. destruct (negb (ev_ok ev 0)); split; auto.
  - apply get_doc_same. unfold delete_batch. rewrite C. destruct (filter _ ids); [split; auto|]. destruct (delete_chunks _ _ _ _ _) as [[rows cnt] b].
    destruct (negb b); [split; auto|]. destruct (Nat.eqb cnt 0); split; auto.
  - apply get_doc_same. unfold delete_where. rewrite C. destruct (negb (ev_ok ev 0)); [split; auto|]. destruct (map r_id _); [split; auto|].
    destruct (_ || _); split; auto.
  - apply get_doc_same. unfold clear. rewrite C. destruct (negb (ev_ok ev 0)); split; auto.
  - apply get_doc_same. unfold clear_by_docs. rewrite C. destruct docs; [split; auto|]. destruct (negb (ev_ok ev 0)); [split; auto|].
    destruct (clear_docs_tx _ _ _ _); [|split; auto]. destruct (ev_ok ev 1); split; auto.
  - apply get_doc_same. unfold create_collection. rewrite C. destruct (find_coll _ _); [split; auto|]. destruct (Z.ltb dims 0); [split; auto|].
    destruct (negb (ev_ok ev 0)); split; auto.
  - apply get_doc_same. unfold delete_collection. rewrite C. destruct (find_coll _ _); [|split; auto]. destruct (_ && _ && _); split; auto.
  - unfold create_document. rewrite C. destruct (existsb _ _) eqn:E; [reflexivity|]. destruct (negb (ev_ok ev 0)); [reflexivity|].
    cbn [fst snd]. unfold get_document. cbn [st_closed with_db]. rewrite C. cbn [st_db with_db t_docs].
    fold (docfind id (t_docs (st_db I s) ++ [x])). rewrite docfind_app. unfold docfind at 2. cbn [find].
    destruct (String.eqb_spec (d_id x) id) as [E0|N].
    + rewrite E0 in E. destruct (docfind id (t_docs (st_db I s))) eqn:F; auto. exfalso.
      assert (existsb (fun y => String.eqb (d_id y) id) (t_docs (st_db I s)) = true) by (apply docfind_exists; congruence). congruence.
    + unfold docfind. destruct (find _ _); auto.
  - unfold update_document. rewrite C. destruct (negb (ev_ok ev 0)); [reflexivity|]. destruct (existsb _ _) eqn:E; [|reflexivity].
    cbn [fst snd]. unfold get_document. cbn [st_closed with_db]. rewrite C. cbn [st_db with_db t_docs].
    fold (docfind id (map (fun y => if String.eqb (d_id y) (d_id x) then x else y) (t_docs (st_db I s)))). rewrite docfind_update.
    destruct (String.eqb_spec (d_id x) id) as [E0|N]; auto. rewrite E0 in E. apply docfind_exists in E. destruct (docfind id _); congruence.
  - unfold delete_document. rewrite C. destruct (ev_ok ev 0), (negb (ev_ok ev 1)); cbn [fst snd]; try reflexivity;
      unfold get_document; cbn [st_closed with_db with_ix]; rewrite C; cbn [st_db with_db with_ix t_docs];
      fold (docfind id (filter (fun y => negb (String.eqb (d_id y) id0)) (t_docs (st_db I s)))); rewrite docfind_delete; destruct (String.eqb id0 id); auto.
  - cbn. unfold get_document. cbn. reflexivity.
Qed.

Lemma create_doc_succeeds ev s x : st_closed I s = false -> ev_ok ev 0 = true ->
  (snd (step I ev s (OCreateDoc x)) = Ok tt <-> get_document I s (d_id x) = Err ENotFound).
Proof.
  intros C E. cbn [step]. unfold create_document, get_document. rewrite C, E. cbn [negb].
  destruct (existsb _ _) eqn:X.
  - apply docfind_exists in X. unfold docfind in X. destruct (find _ _); [split; discriminate|congruence].
  - cbn. destruct (find _ _) eqn:F; [|tauto].
    assert (existsb (fun y => String.eqb (d_id y) (d_id x)) (t_docs (st_db I s)) = true) by (apply docfind_exists; unfold docfind; congruence). congruence.
Qed.
Lemma update_doc_succeeds ev s x : st_closed I s = false -> ev_ok ev 0 = true ->
  (snd (step I ev s (OUpdateDoc x)) = Ok tt <-> exists y, get_document I s (d_id x) = Ok y).
Proof.
  intros C E. cbn [step]. unfold update_document, get_document. rewrite C, E. cbn [negb].
  destruct (existsb _ _) eqn:X.
  - apply docfind_exists in X. unfold docfind in X. destruct (find _ _); [|congruence]. cbn. split; eauto.
  - cbn. destruct (find _ _) eqn:F; [|split; [discriminate|intros [y H]; discriminate]].
    assert (existsb (fun y => String.eqb (d_id y) (d_id x)) (t_docs (st_db I s)) = true) by (apply docfind_exists; unfold docfind; congruence). congruence.
Qed.

(** *** rows and readers *)
Lemma scan_blank d r e : scan_get false d r = Ok e <-> exists e0, scan_get true d r = Ok e0 /\ e = blank e0.
Proof.
  unfold scan_get. destruct (decode_vector (r_blob r)) as [v| |]; cbn.
  - split; [intros [= <-]; eexists; split; reflexivity|]. intros (e0 & [= <-] & ->). reflexivity.
  - split; [discriminate|intros (e1 & H & _); discriminate].
  - split; [discriminate|intros (e1 & H & _); discriminate].
Qed.
Lemma get_of_row s r : st_closed I s = false -> uniq (st_db I s) -> In r (t_rows (st_db I s)) -> get_by_id I s (r_id r) = scan_get true (st_db I s) r.
Proof. intros C U H. unfold get_by_id. rewrite C, (find_uniq _ r U H). reflexivity. Qed.
Lemma row_readable envs s r : reachable I envs s -> st_closed I s = false -> In r (t_rows (st_db I s)) ->
  exists e, get_by_id I s (r_id r) = Ok e /\ e_id e = r_id r /\ e_doc e = doc_of r /\ e_coll e = coll_name (st_db I s) (r_coll r) /\ e_meta e = r_meta r.
Proof.
  intros R C H. rewrite (get_of_row s r C (reachable_uniq I envs s R) H). destruct (reachable_decodes I envs s R r H) as [[w W] _].
  unfold scan_get. rewrite W. cbn. eexists. split; [reflexivity|]. cbn. auto.
Qed.
Lemma doc_is_doc envs s r x : reachable I envs s -> In r (t_rows (st_db I s)) -> x <> "" -> (doc_is x r = true <-> doc_of r = x).
Proof.
  intros R H N. pose proof (reachable_named I envs s R r H) as Nm. unfold doc_is, doc_of. destruct (r_doc r) as [y|].
  - rewrite String.eqb_eq. split; auto.
  - split; [discriminate|intros <-; congruence].
Qed.

Lemma oks_get_NoDup d rows : NoDup (map r_id rows) -> NoDup (map e_id (oks (map (scan_get false d) rows))).
Proof.
  induction rows as [|r rows IH]; cbn; intros H; [constructor|]. inversion H; subst. specialize (IH H3).
  destruct (scan_get false d r) as [e| |] eqn:E; cbn; auto. constructor; auto.
  assert (He : e_id e = r_id r). { unfold scan_get in E. destruct (decode_vector (r_blob r)); try discriminate. cbn in E. injection E as <-. reflexivity. }
  rewrite He. intros Hi. apply in_map_iff in Hi as (e' & E' & Hi). apply in_oks in Hi. apply in_map_iff in Hi as (r' & Er & Hr).
  assert (He' : e_id e' = r_id r'). { unfold scan_get in Er. destruct (decode_vector (r_blob r')); try discriminate. cbn in Er. injection Er as <-. reflexivity. }
  apply H2. rewrite <- E', He'. apply in_map; auto.
Qed.

Lemma rows_listed envs s (by_time : list row -> list row) (p : row -> bool) (P : embedding -> Prop) :
  (forall l, Permutation l (by_time l)) -> reachable I envs s -> st_closed I s = false ->
  (forall r e, In r (t_rows (st_db I s)) -> get_by_id I s (r_id r) = Ok e -> (p r = true <-> P e)) ->
  lists_blank I s P (oks (map (scan_get false (st_db I s)) (by_time (filter p (t_rows (st_db I s)))))).
Proof.
  intros HP R C H. pose proof (reachable_uniq I envs s R) as U.
  assert (Hin : forall r, In r (by_time (filter p (t_rows (st_db I s)))) <-> In r (t_rows (st_db I s)) /\ p r = true).
  { intros r. rewrite <- filter_In. split; apply Permutation_in; [apply Permutation_sym|]; apply HP. }
  split.
  - apply oks_get_NoDup. eapply Permutation_NoDup; [apply Permutation_map, HP|]. apply NoDup_map_filter. exact U.
  - intros e. rewrite in_oks, in_map_iff. split.
    + intros (r & Er & Hr). apply Hin in Hr as [Hr Hp]. apply scan_blank in Er as (e0 & E0 & ->). exists (r_id r), e0.
      rewrite (get_of_row s r C U Hr). split; auto. split; auto. apply (H r e0 Hr); auto. rewrite (get_of_row s r C U Hr); auto.
    + intros (id & e0 & G & Pe & ->). apply get_ok_inv in G as G'. destruct G' as (r & _ & F & S & _ & _ & <- & Hr). exists r. split; [apply scan_blank; eauto|].
      apply Hin. split; auto. apply (H r e0 Hr); auto.
Qed.

Lemma get_by_doc_lemma envs by_time s x : (forall l, Permutation l (by_time l)) -> reachable I envs s -> st_closed I s = false -> x <> "" ->
  exists es, get_by_doc I by_time s x = Ok es /\ lists_blank I s (fun e => e_doc e = x) es.
Proof.
  intros HP R C N. unfold get_by_doc. rewrite C. destruct (String.eqb_spec x ""); [congruence|]. eexists. split; [reflexivity|].
  apply (rows_listed envs); auto. intros r e Hr G. destruct (row_readable envs s r R C Hr) as (e' & G' & _ & D & _). rewrite G in G'. injection G' as <-.
  rewrite D. apply (doc_is_doc envs s); auto.
Qed.
Lemma get_by_type_lemma envs by_time s ty : (forall l, Permutation l (by_time l)) -> reachable I envs s -> st_closed I s = false -> ty <> "" ->
  exists es, get_by_type I by_time s ty = Ok es /\ lists_blank I s (fun e => exists m, e_meta e = Some m /\ assoc "type" m = Some ty) es.
Proof.
  intros HP R C N. unfold get_by_type. rewrite C. destruct (String.eqb_spec ty ""); [congruence|]. eexists. split; [reflexivity|].
  set (t := fun e => match e_meta e with None => false | Some m => match assoc "type" m with Some x => String.eqb x ty | None => String.eqb "" ty end end).
  pose proof (rows_listed envs s by_time (fun _ => true) (fun _ => True) HP R C ltac:(tauto)) as [L1 L2].
  rewrite filter_all in L1, L2 by auto. split; [apply NoDup_map_filter; auto|]. intros e. rewrite filter_In, L2.
  assert (Ht : forall e, t e = true <-> exists m, e_meta e = Some m /\ assoc "type" m = Some ty).
  { intros x. unfold t. destruct (e_meta x) as [m|]; [|split; [discriminate|intros (m & H & _); discriminate]].
    destruct (assoc "type" m) as [y|] eqn:A.
    - rewrite String.eqb_eq. split; [intros ->; eauto|intros (m' & [= <-] & H); congruence].
    - split; [intros H; apply String.eqb_eq in H; congruence|intros (m' & [= <-] & H); congruence]. }
  split.
  - intros ((id & e0 & G & _ & ->) & T). exists id, e0. split; auto. split; auto. apply Ht in T. exact T.
  - intros (id & e0 & G & T & ->). split; [exists id, e0; auto|]. apply Ht. exact T.
Qed.
Lemma list_documents_lemma envs srt s : (forall l, Permutation l (srt l)) -> reachable I envs s -> st_closed I s = false ->
  exists ds, list_documents I srt s = Ok ds /\ NoDup ds /\ forall x, In x ds <-> x <> "" /\ exists id, in_doc I s x id.
Proof.
  intros HP R C. unfold list_documents. rewrite C. eexists. split; [reflexivity|]. split.
  - eapply Permutation_NoDup; [apply HP|apply NoDup_nodup].
  - intros x. transitivity (In x (flat_map (fun r => match r_doc r with Some y => if String.eqb y "" then [] else [y] | None => [] end) (t_rows (st_db I s)))).
    { split; intros H.
      - apply (Permutation_in _ (Permutation_sym (HP _))) in H. apply nodup_In in H. exact H.
      - eapply Permutation_in; [apply HP|]. apply nodup_In. exact H. }
    rewrite in_flat_map. split.
    + intros (r & Hr & Hx). destruct (r_doc r) as [y|] eqn:D; [|destruct Hx]. destruct (String.eqb_spec y ""); [destruct Hx|]. destruct Hx as [->|[]].
      split; auto. exists (r_id r). destruct (row_readable envs s r R C Hr) as (e & G & _ & De & _). exists e. split; auto. rewrite De. unfold doc_of. rewrite D. auto.
    + intros (Nx & id & e & G & D). apply get_ok_inv in G as (r & _ & _ & _ & De & _ & _ & Hr). exists r. split; auto. rewrite De in D. unfold doc_of in D.
      destruct (r_doc r) as [y|]; [|congruence]. subst y. destruct (String.eqb_spec x ""); [congruence|]. left; auto.
Qed.

Lemma count_ids envs s (p : row -> bool) (P : embedding -> Prop) : reachable I envs s -> st_closed I s = false ->
  (forall r e, In r (t_rows (st_db I s)) -> get_by_id I s (r_id r) = Ok e -> (p r = true <-> P e)) ->
  counts I s P (length (filter p (t_rows (st_db I s)))).
Proof.
  intros R C H. exists (map r_id (filter p (t_rows (st_db I s)))). split; [rewrite map_length; auto|]. split; [apply NoDup_map_filter; apply (reachable_uniq I envs s R)|].
  intros id. rewrite in_map_iff. split.
  - intros (r & <- & Hr). apply filter_In in Hr as [Hr Hp]. destruct (row_readable envs s r R C Hr) as (e & G & _). exists e. split; auto. apply (H r e); auto.
  - intros (e & G & Pe). apply get_ok_inv in G as G'. destruct G' as (r & _ & _ & _ & _ & _ & <- & Hr). exists r. split; auto. apply filter_In. split; auto. apply (H r e); auto.
Qed.
Lemma list_info_lemma envs srt s : (forall l, Permutation l (srt l)) -> reachable I envs s -> st_closed I s = false ->
  exists ds, list_documents_info I srt s = Ok ds /\ NoDup (map fst ds) /\
    (forall x n, In (x, n) ds -> x <> "" /\ (0 < n)%Z /\ counts I s (fun e => e_doc e = x) (Z.to_nat n)) /\
    (forall id e, get_by_id I s id = Ok e -> e_doc e <> "" -> In (e_doc e) (map fst ds)).
Proof.
  intros HP R C. destruct (list_documents_lemma envs srt s HP R C) as (ds & E & ND & H). unfold list_documents_info. rewrite E. cbn [bind].
  eexists. split; [reflexivity|]. rewrite map_map. cbn. rewrite map_id. split; auto. split.
  - intros x n Hx. apply in_map_iff in Hx as (y & [= -> <-] & Hy). apply H in Hy as (Ny & id & e & G & D). split; auto.
    assert (Cn : counts I s (fun e => e_doc e = x) (length (filter (doc_is x) (t_rows (st_db I s))))).
    { apply (count_ids envs); auto. intros r e' Hr G'. destruct (row_readable envs s r R C Hr) as (e2 & G2 & _ & D2 & _). rewrite G' in G2. injection G2 as <-.
      rewrite D2. apply (doc_is_doc envs s); auto. }
    rewrite Nat2Z.id. split; auto. destruct Cn as (ids & L & _ & Hi). assert (In id ids) by (apply Hi; eauto). destruct ids; [destruct H0|]. cbn in L. lia.
  - intros id e G N. apply H. split; auto. exists id, e. auto.
Qed.
Lemma stats_lemma envs s name : reachable I envs s -> st_closed I s = false -> name <> "" ->
  (forall n size, collection_stats I s name = Ok (n, size) -> (exists c, get_collection I s name = Ok c) /\ (0 <= n)%Z /\ counts I s (fun e => e_coll e = name) (Z.to_nat n)) /\
  (forall c, get_collection I s name = Ok c -> exists n size, collection_stats I s name = Ok (n, size)).
Proof.
  intros R C Nn. unfold collection_stats, get_collection. rewrite C.
  destruct (find_coll (st_db I s) name) as [c|] eqn:F; cbn [bind]; [|split; [discriminate|discriminate]]. split; [|eauto].
  intros n size E. injection E as <- _. split; [eauto|]. split; [lia|]. rewrite Nat2Z.id.
  apply (count_ids envs); auto. intros r e Hr G. destruct (row_readable envs s r R C Hr) as (e2 & G2 & _ & _ & K & _). rewrite G in G2. injection G2 as <-. rewrite K.
  exact (coll_of_name (st_db I s) r name c (reachable_colls I envs s R) Nn F).
Qed.

Lemma find_key {A} (k : A -> string) (l : list A) x : NoDup (map k l) -> (In x l <-> find (fun y => String.eqb (k y) (k x)) l = Some x).
Proof.
  intros N. split; [|intros H; apply find_some in H; tauto]. induction l as [|y l IH]; cbn; [tauto|]. inversion N; subst. intros [->|H].
  - rewrite String.eqb_refl. auto.
  - destruct (String.eqb_spec (k y) (k x)) as [E|E]; auto. exfalso. apply H1. rewrite E. apply in_map; auto.
Qed.
Lemma list_collections_lemma envs nf s : (forall l, Permutation l (nf l)) -> reachable I envs s -> st_closed I s = false ->
  exists cs, list_collections I nf s = Ok cs /\ NoDup (map c_name cs) /\ forall c, In c cs <-> get_collection I s (c_name c) = Ok c.
Proof.
  intros HP R C. unfold list_collections, get_collection. rewrite C. destruct (reachable_colls I envs s R) as (_ & N & _). eexists. split; [reflexivity|]. split.
  - eapply Permutation_NoDup; [apply Permutation_map, HP|exact N].
  - intros c. transitivity (In c (t_colls (st_db I s))); [split; apply Permutation_in; [apply Permutation_sym|]; apply HP|].
    rewrite (find_key c_name _ c N). unfold find_coll. destruct (find _ _); split; congruence.
Qed.
Lemma list_filter_lemma envs nf s author limit : (forall l, Permutation l (nf l)) -> reachable I envs s -> st_closed I s = false ->
  exists all, NoDup (map d_id all) /\
    (forall x, In x all <-> get_document I s (d_id x) = Ok x /\ (author = "" \/ d_author x = author)) /\
    list_documents_with_filter I nf s author limit = Ok (if (limit <? 0)%Z then all else firstn (Z.to_nat limit) all).
Proof.
  intros HP R C. unfold list_documents_with_filter, get_document. rewrite C. pose proof (reachable_docs I envs s R) as N. eexists. split; [|split; [|reflexivity]].
  - eapply Permutation_NoDup; [apply Permutation_map, HP|]. apply NoDup_map_filter. exact N.
  - intros x. set (p := fun x => String.eqb author "" || String.eqb (d_author x) author).
    transitivity (In x (filter p (t_docs (st_db I s)))); [split; apply Permutation_in; [apply Permutation_sym|]; apply HP|].
    rewrite filter_In, (find_key d_id _ x N). unfold p. rewrite orb_true_iff, !String.eqb_eq.
    destruct (find _ _); split; intros [H1 H2]; split; auto; congruence.
Qed.
End Q.
