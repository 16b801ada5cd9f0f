From Coq Require Import String Ascii List NArith ZArith Bool Lia Permutation.
From Coq Require Import Init.Byte.
From Verif Require Import Base Floats64 EncodingModel EncodingSpec EncodingProofs DimensionModel StoreModel StoreSpec StoreProofs StoreInv StoreProofs2.
Import ListNotations.
Open Scope string_scope.
Open Scope list_scope.

Section P3.
Variable I : index_ops.
Notation store := (store I).

Lemma step_closed ev s o : o <> OClose -> st_closed I (fst (step I ev s o)) = st_closed I s.
Proof.
  intros Ho. destruct o; cbn [step].
  - destruct (upsert I ev s e) as [s' r] eqn:E. cbn [fst]. destruct r as [[]|x|].
    + apply upsert_inv in E as (v & cid & blob & H & _ & _ & _ & D & _ & C & _). congruence.
    + apply upsert_fail in E as (_ & _ & E); [auto|discriminate].
    + apply upsert_fail in E as (_ & _ & E); [auto|discriminate].
  - unfold upsert_batch. destruct (st_closed I s) eqn:C; [exact C|]. destruct es as [|e0 es0]; [exact C|].
    destruct (negb (ev_ok ev 0)); [exact C|].
    destruct (batch_rows ev (st_db I s) 1 (e0 :: es0)); [|exact C..]. destruct (ev_ok ev _); exact C.
  - unfold delete. destruct (st_closed I s) eqn:C; [exact C|]. destruct (String.eqb id ""); [exact C|].
    destruct (negb (ev_ok ev 0)); [exact C|]. destruct (existsb _ _); exact C.
  - unfold delete_by_doc. destruct (st_closed I s) eqn:C; [exact C|]. destruct (String.eqb doc ""); [exact C|].
    destruct (negb (ev_ok ev 0)); exact C.
  - unfold delete_batch. destruct (st_closed I s) eqn:C; [exact C|].
    destruct (filter _ ids) as [|i0 is0]; [exact C|].
    destruct (delete_chunks _ _ _ _ _) as [[rows cnt] b]. destruct (negb b); [|destruct (Nat.eqb cnt 0)]; exact C.
  - unfold delete_where. destruct (st_closed I s) eqn:C; [exact C|]. destruct (negb (ev_ok ev 0)); [exact C|].
    destruct (map r_id _); [exact C|]. destruct (_ || _); exact C.
  - unfold clear. destruct (st_closed I s) eqn:C; [exact C|]. destruct (negb (ev_ok ev 0)); exact C.
  - unfold clear_by_docs. destruct (st_closed I s) eqn:C; [exact C|]. destruct docs as [|x0 xs0]; [exact C|].
    destruct (negb (ev_ok ev 0)); [exact C|].
    destruct (clear_docs_tx _ _ _ _) as [rows|]; [|exact C]. destruct (ev_ok ev 1); exact C.
  - unfold create_collection. destruct (st_closed I s) eqn:C; [exact C|].
    destruct (find_coll _ _); [exact C|]. destruct (Z.ltb dims 0); [exact C|]. destruct (negb (ev_ok ev 0)); exact C.
  - unfold delete_collection. destruct (st_closed I s) eqn:C; [exact C|].
    destruct (find_coll _ _) as [c|]; [|exact C]. destruct (_ && _ && _); exact C.
  - unfold create_document. destruct (st_closed I s) eqn:C; [exact C|].
    destruct (existsb _ _); [exact C|]. destruct (negb (ev_ok ev 0)); exact C.
  - unfold update_document. destruct (st_closed I s) eqn:C; [exact C|]. destruct (negb (ev_ok ev 0)); [exact C|].
    destruct (existsb _ _); exact C.
  - unfold delete_document. destruct (st_closed I s) eqn:C; [exact C|]. destruct (ev_ok ev 0), (negb (ev_ok ev 1)); exact C.
  - congruence.
Qed.

Lemma closed_step ev s o : st_closed I s = true -> o <> OClose -> step I ev s o = (s, Err EClosed).
Proof.
  intros C Ho. destruct o; cbn [step]; unfold upsert, upsert_batch, delete, delete_by_doc, delete_batch, delete_where, clear, clear_by_docs, create_collection, delete_collection, create_document, update_document, delete_document;
  try rewrite C; try reflexivity. congruence.
Qed.

(** a find that survives a filter, with collections unchanged *)
Lemma get_filter_keep (s s' : store) p id e :
  st_closed I s' = st_closed I s -> t_colls (st_db I s') = t_colls (st_db I s) ->
  uniq (st_db I s) -> t_rows (st_db I s') = filter p (t_rows (st_db I s)) ->
  get_by_id I s id = Ok e ->
  (forall r, r_id r = id -> e_doc e = doc_of r -> p r = true) ->
  get_by_id I s' id = Ok e.
Proof.
  intros H1 H2 H3 H4 H5 H6. destruct (get_filter_ok I s s' p id e H1 H2 H3 H4 H5) as (r & _ & D & _ & E & G).
  rewrite G, H6; auto.
Qed.

Lemma batch_rows_frame ev es : forall d n d' id, (forall e, In e es -> e_id e <> id) -> batch_rows ev d n es = Ok d' ->
  t_colls d' = t_colls d /\ find (row_is id) (t_rows d') = find (row_is id) (t_rows d).
Proof.
  induction es as [|e es IH]; cbn [batch_rows]; intros d n d' id Hne H.
  - injection H as <-. auto.
  - destruct (resolve_coll d e) as [cid|x|]; cbn [bind] in H; try discriminate.
    destruct (encode_vector (e_vec e)) as [blob|x|]; cbn [bind] in H; try discriminate.
    destruct (ev_ok ev n); [|discriminate].
    destruct (insert_row (ev_fk ev) d (make_row e cid blob)) as [d1|] eqn:Ei; [|discriminate].
    apply insert_row_db in Ei. subst d1. apply (IH _ _ _ id) in H as [H1 H2].
    + split; [exact H1|]. rewrite H2. cbn [t_rows with_rows]. apply find_put_other. cbn. apply not_eq_sym. apply Hne. left. reflexivity.
    + intros e' He'. apply Hne. right. exact He'.
Qed.

Lemma delete_chunks_keep ev cs : forall n rows cnt rows' cnt' b,
  delete_chunks ev n cs rows cnt = (rows', cnt', b) ->
  exists p, rows' = filter p rows /\ forall r, ~ In (r_id r) (concat cs) -> p r = true.
Proof.
  induction cs as [|c cs IH]; intros n rows cnt rows' cnt' b; cbn [delete_chunks concat].
  - intros [= <- <- <-]. exists (fun _ => true). split; auto. symmetry. apply filter_all. auto.
  - destruct (ev_ok ev n).
    + intros H. apply IH in H as (p & -> & Hp). rewrite filter_filter. eexists. split; [reflexivity|]. intros r Hr.
      cbn beta. rewrite Hp; [|intros X; apply Hr, in_app_iff; auto].
      destruct (mem (r_id r) c) eqn:Em; auto. apply mem_In in Em. exfalso. apply Hr, in_app_iff; auto.
    + intros [= <- <- <-]. exists (fun _ => true). split; auto. symmetry. apply filter_all. auto.
Qed.

Lemma step_frame ev s o id e : integrity (st_db I s) -> docs_named (st_db I s) -> ev_fk ev = true ->
  get_by_id I s id = Ok e -> leaves_alone o id (e_doc e) (e_coll e) ->
  get_by_id I (fst (step I ev s o)) id = Ok e.
Proof.
  intros Hi Hnm Hfk Hg Hl.
  pose proof (get_ok_inv I s id e Hg) as (r & C & F & S & D & K & E & Hin).
  assert (Hu : uniq (st_db I s)) by apply Hi.
  destruct o; cbn [step leaves_alone] in *; try contradiction.
  - destruct (upsert I ev s e0) as [s' r0] eqn:Eu. cbn [fst]. destruct r0 as [[]|x|].
    + apply upsert_inv in Eu as (v & cid & blob & _ & _ & _ & _ & Hd & _ & C' & _).
      rewrite <- Hg. apply get_frame; [congruence|rewrite Hd; reflexivity|].
      rewrite Hd. cbn [t_rows with_rows]. apply find_put_other. cbn. auto.
    + apply upsert_fail in Eu as (D1 & _ & C1); [|discriminate]. rewrite <- Hg. apply get_frame; auto; rewrite D1; auto.
    + apply upsert_fail in Eu as (D1 & _ & C1); [|discriminate]. rewrite <- Hg. apply get_frame; auto; rewrite D1; auto.
  - unfold upsert_batch. rewrite C. destruct es as [|e0 es0]; [exact Hg|].
    destruct (negb (ev_ok ev 0)); [exact Hg|].
    destruct (batch_rows ev (st_db I s) 1 (e0 :: es0)) as [d|x|] eqn:Eb; [|exact Hg..].
    destruct (ev_ok ev _); [|exact Hg]. cbn [fst].
    apply (batch_rows_frame _ _ _ _ _ id) in Eb as [B1 B2]; auto.
    rewrite <- Hg. apply get_frame; auto.
  - unfold delete. rewrite C. destruct (String.eqb id0 ""); [exact Hg|].
    destruct (negb (ev_ok ev 0)); [exact Hg|]. destruct (existsb _ _); [|exact Hg]. cbn [fst].
    eapply (get_filter_keep s); [reflexivity|reflexivity|exact Hu|reflexivity|exact Hg|].
    intros r1 E1 _. apply negb_true_iff, row_is_false. congruence.
  - unfold delete_by_doc. rewrite C. destruct (String.eqb_spec doc ""); [exact Hg|].
    destruct (negb (ev_ok ev 0)); [exact Hg|]. cbn [fst].
    eapply (get_filter_keep s); [reflexivity|reflexivity|exact Hu|reflexivity|exact Hg|].
    intros r1 _ D1. apply negb_true_iff. unfold doc_is, doc_of in *. destruct (r_doc r1); auto. apply String.eqb_neq. congruence.
  - unfold delete_batch. rewrite C. destruct (filter _ ids) as [|i0 is0] eqn:Ef; [exact Hg|]. rewrite <- Ef.
    destruct (delete_chunks _ _ _ _ _) as [[rows cnt] b] eqn:Ed. apply delete_chunks_keep in Ed as (p & -> & Hp).
    rewrite chunks_concat in Hp by lia.
    assert (G : forall s', st_closed I s' = st_closed I s -> st_db I s' = with_rows (st_db I s) (filter p (t_rows (st_db I s))) -> get_by_id I s' id = Ok e).
    { intros s' C' D'. eapply get_filter_keep; [exact C'|rewrite D'; reflexivity|exact Hu|rewrite D'; reflexivity|exact Hg|].
      intros r1 E1 _. apply Hp. intros X. apply filter_In in X as [X _]. congruence. }
    destruct (negb b); [|destruct (Nat.eqb cnt 0)]; apply G; reflexivity.
  - unfold delete_where. rewrite C. destruct (negb (ev_ok ev 0)); [exact Hg|]. destruct (map r_id _); [exact Hg|].
    destruct (_ || _); [exact Hg|]. cbn [fst].
    eapply (get_filter_keep s); [reflexivity|reflexivity|exact Hu|reflexivity|exact Hg|].
    intros r1 E1 _. specialize (Hl r1 E1). unfold selects. destruct (c r1) as [[|]|]; [congruence|reflexivity|reflexivity].
  - unfold clear_by_docs. rewrite C. destruct docs as [|x0 xs0]; [exact Hg|]. set (xs := x0 :: xs0) in *. clearbody xs.
    destruct (negb (ev_ok ev 0)); [exact Hg|].
    destruct (clear_docs_tx _ _ _ _) as [rows|] eqn:Ex; [|exact Hg]. apply clear_docs_filter in Ex as ->.
    destruct (ev_ok ev 1); [|exact Hg]. cbn [fst].
    eapply (get_filter_keep s); [reflexivity|reflexivity|exact Hu|reflexivity|exact Hg|].
    intros r1 _ D1. apply negb_true_iff. destruct (existsb _ xs) eqn:Ee; auto. exfalso.
    apply existsb_exists in Ee as (x & Hx & Ex). apply andb_prop in Ex as [Ex _]. unfold doc_is, doc_of in *.
    destruct (r_doc r1); [|discriminate]. apply String.eqb_eq in Ex. apply Hl. congruence.
  - unfold create_collection. rewrite C. destruct (find_coll _ _); [exact Hg|]. destruct (Z.ltb dims 0); [exact Hg|].
    destruct (negb (ev_ok ev 0)); [exact Hg|]. cbn [fst].
    unfold get_by_id. cbn [st_closed st_db with_db t_rows]. rewrite C, F. rewrite <- S. unfold scan_get, coll_name. cbn [t_colls].
    destruct Hi as (H1 & _ & H3 & _ & _ & H6 & _). apply H6 in Hin. apply in_map_iff in Hin as (c & Ec & Hc).
    rewrite <- Ec. rewrite (find_by_id (t_colls (st_db I s) ++ [_]) c).
    + rewrite (find_by_id (t_colls (st_db I s)) c); auto.
    + rewrite map_app. apply NoDup_app_intro; auto; [repeat constructor; cbn; tauto|]. cbn. intros x Hx [<-|[]].
      apply in_map_iff in Hx as (c' & Ec' & Hc'). apply H3 in Hc'. lia.
    + apply in_app_iff; auto.
  - unfold delete_collection. rewrite C. destruct (find_coll _ _) as [c|] eqn:Fc; [|exact Hg].
    destruct (_ && _ && _); [|exact Hg]. cbn [fst].
    apply find_some in Fc as [Ic Nc]. apply String.eqb_eq in Nc.
    destruct Hi as (H1 & H2 & H3 & _ & _ & H6 & _). apply H6 in Hin. apply in_map_iff in Hin as (c1 & Ec & Hc).
    assert (Hne : c_id c1 <> c_id c).
    { intros X. assert (c1 = c) by (eapply (NoDup_map_in_eq c_id); eauto). subst c1. apply Hl. rewrite K. unfold coll_name.
      rewrite <- Ec. rewrite (find_by_id (t_colls (st_db I s)) c); auto. }
    unfold get_by_id. cbn [st_closed st_db with_db t_rows]. rewrite C, find_filter_gen by exact Hu. rewrite F.
    assert (X : Z.eqb (r_coll r) (c_id c) = false) by (apply Z.eqb_neq; congruence). rewrite X. cbn [negb].
    rewrite <- S. unfold scan_get, coll_name. cbn [t_colls]. rewrite find_id_filter; auto.
    intros c0 Hc0 E0. apply negb_true_iff, Z.eqb_neq. congruence.
  - unfold create_document. rewrite C. destruct (existsb _ _); [exact Hg|]. destruct (negb (ev_ok ev 0)); [exact Hg|].
    cbn [fst]. rewrite <- Hg. apply get_frame; auto.
  - unfold update_document. rewrite C. destruct (negb (ev_ok ev 0)); [exact Hg|]. destruct (existsb _ _); [|exact Hg].
    cbn [fst]. rewrite <- Hg. apply get_frame; auto.
  - unfold delete_document. rewrite C.
    destruct (negb (ev_ok ev 1)); [destruct (ev_ok ev 0); cbn [fst]; rewrite <- Hg; apply get_frame; auto|].
    cbn [fst].
    assert (Q : exists p, (if ev_fk ev && existsb (fun y => String.eqb (d_id y) id0) (t_docs (st_db I s))
         then filter (fun r => negb (doc_is id0 r)) (t_rows (st_db I s)) else t_rows (st_db I s)) = filter p (t_rows (st_db I s))
         /\ forall r, r_doc r <> Some id0 -> p r = true).
    { destruct (ev_fk ev && _).
      - eexists; split; [reflexivity|]. intros r0 Hr0. apply negb_true_iff. unfold doc_is. destruct (r_doc r0); auto. apply String.eqb_neq. congruence.
      - exists (fun _ => true). split; auto. symmetry. apply filter_all; auto. }
    destruct Q as (p & Q & Hp). rewrite Q.
    unfold get_by_id. destruct (ev_ok ev 0); cbn [st_closed st_db with_db with_ix t_rows]; rewrite C, find_filter_gen by exact Hu; rewrite F, Hp;
      try exact S; intros X; apply Hl; rewrite D; unfold doc_of; rewrite X; reflexivity.
Qed.

(** Histories. *)
Lemma reachable_run envs h : forall s, reachable I envs s -> Forall (fun eo => envs (fst eo)) h -> reachable I envs (run I s h).
Proof.
  induction h as [|[ev o] h IH]; intros s Hr HF; cbn; auto. inversion HF; subst. apply IH; auto. apply reach_step; auto.
Qed.
Lemma run_frame h : forall s id e, reachable I fk_env s -> get_by_id I s id = Ok e ->
  Forall (fun eo => fk_env (fst eo) /\ leaves_alone (snd eo) id (e_doc e) (e_coll e)) h ->
  get_by_id I (run I s h) id = Ok e.
Proof.
  induction h as [|[ev o] h IH]; intros s id e Hr Hg HF; cbn; auto. inversion HF as [|? ? [H1 H2] HF']; subst. cbn in *.
  apply IH; auto; [apply reach_step; auto|]. apply step_frame; auto.
  - apply reachable_integrity; auto.
  - eapply reachable_named; eauto.
Qed.

(** *** Batch acceptance and agreement with one-by-one insertion *)
Lemma target_resolve d e cid : target_collection d e cid -> In cid (map c_id (t_colls d)) ->
  exists cid', resolve_coll d e = Ok cid' /\ In cid' (map c_id (t_colls d)).
Proof.
  unfold resolve_coll. intros [[H1 ->]|[(H1 & H2 & ->)|(H1 & H2 & c & Hc & Hn & Hi)]] Hin.
  - destruct (Z.eqb_spec (e_collid e) 0); [congruence|]. eauto.
  - rewrite H1, H2. cbn. eauto.
  - rewrite H1. cbn. destruct (String.eqb_spec (e_coll e) ""); [congruence|].
    destruct (find_coll d (e_coll e)) as [c'|] eqn:F.
    + exists (c_id c'). split; auto. apply find_some in F as [F _]. apply in_map; auto.
    + eapply find_none in F; [|exact Hc]. cbn in F. apply String.eqb_neq in F. congruence.
Qed.

Lemma fk_ok_make d e cid blob : In cid (map c_id (t_colls d)) -> (e_doc e = "" \/ In (e_doc e) (map d_id (t_docs d))) ->
  fk_ok d (make_row e cid blob) = true.
Proof.
  intros Hcid Hdoc. unfold fk_ok, make_row. cbn [r_coll r_doc]. apply andb_true_intro; split.
  - apply in_map_iff in Hcid as (c & Ec & Hin). apply existsb_exists. exists c. split; auto. apply Z.eqb_eq; auto.
  - destruct (String.eqb_spec (e_doc e) ""); auto. destruct Hdoc as [|Hdoc]; [congruence|].
    apply in_map_iff in Hdoc as (x & Ex & Hin). apply existsb_exists. exists x. split; auto. apply String.eqb_eq; auto.
Qed.

Lemma batch_rows_accepts ev es : (forall n, ev_ok ev n = true) -> forall d n,
  (forall e, In e es -> acceptable d e) -> exists d', batch_rows ev d n es = Ok d'.
Proof.
  intros Hok. induction es as [|e es IH]; cbn [batch_rows]; intros d n H; [eauto|].
  destruct (H e (or_introl eq_refl)) as ((v & Ev & Hb & Hl) & (cid0 & Hr0 & Hc0) & Hdoc).
  destruct (target_resolve d e cid0 Hr0 Hc0) as (cid & Hr & Hc).
  rewrite Hr, Ev. cbn [bind]. destruct (encode_decode v [] Hl Hb) as (bs & Eb & _ & _). rewrite Eb. cbn [bind]. rewrite Hok.
  unfold insert_row. rewrite fk_ok_make by auto. cbn [negb]. rewrite andb_false_r. apply IH.
  intros e' He'. apply (H e' (or_intror He')).
Qed.

Lemma batch_accepts_lemma ev s es : st_closed I s = false -> (forall n, ev_ok ev n = true) ->
  (forall e, In e es -> acceptable (st_db I s) e) -> exists s', upsert_batch I ev s es = (s', Ok tt).
Proof.
  intros Hc Hok H. unfold upsert_batch. rewrite Hc. destruct es as [|e0 es0]; [eauto|].
  rewrite !Hok. cbn [negb]. destruct (batch_rows_accepts ev (e0 :: es0) Hok (st_db I s) 1 H) as (d' & E). rewrite E. eauto.
Qed.

Lemma upsert_accepts_lemma ev s e : st_closed I s = false -> ev_ok ev 0 = true ->
  acceptable (st_db I s) e -> (st_dim I s = 0%Z \/ st_dim I s = Z.of_nat (length (vec_of e))) ->
  exists s', upsert I ev s e = (s', Ok tt).
Proof.
  intros Hc Ho ((v & Ev & Hb & Hl) & (cid0 & Hr0 & Hc0) & Hdoc) Hd.
  destruct (target_resolve _ e cid0 Hr0 Hc0) as (cid & Hr & Hc').
  eapply upsert_accepts; eauto. unfold vec_of in Hd. rewrite Ev in Hd. exact Hd.
Qed.

Definition upserts ev (s : store) (es : list embedding) : store := fold_left (fun s e => fst (upsert I ev s e)) es s.

Lemma batch_rows_upserts ev ev' es : ev_fk ev' = ev_fk ev -> (forall n, ev_ok ev' n = true) ->
  forall s n d, st_closed I s = false ->
  (forall e, In e es -> Z.of_nat (length (vec_of e)) = st_dim I s /\ st_dim I s <> 0%Z) ->
  batch_rows ev (st_db I s) n es = Ok d ->
  st_db I (upserts ev' s es) = d /\ 
  st_ix I (upserts ev' s es) = fold_left (fun i e => ix_insert I i (e_id e) (vec_of e)) es (st_ix I s) /\
  st_dim I (upserts ev' s es) = st_dim I s /\ st_policy I (upserts ev' s es) = st_policy I s /\ st_closed I (upserts ev' s es) = false.
Proof.
  intros Hfk Hok. induction es as [|e es IH]; cbn [batch_rows upserts fold_left]; intros s n d Hc Hd H.
  - injection H as <-. auto.
  - destruct (resolve_coll (st_db I s) e) as [cid|x|] eqn:Er; cbn [bind] in H; try discriminate.
    destruct (encode_vector (e_vec e)) as [blob|x|] eqn:Ee; cbn [bind] in H; try discriminate.
    destruct (ev_ok ev n); [|discriminate].
    destruct (insert_row (ev_fk ev) (st_db I s) (make_row e cid blob)) as [d1|] eqn:Ei; [|discriminate].
    destruct (Hd e (or_introl eq_refl)) as [H1 H2].
    assert (U : upsert I ev' s e = (with_ix I (with_db I s d1) (ix_insert I (st_ix I s) (e_id e) (vec_of e)), Ok tt)).
    { unfold upsert. rewrite Hc. destruct (Z.eqb_spec (st_dim I s) 0) as [Hz|_]; [congruence|]. cbn [st_dim].
      rewrite H1, Z.eqb_refl, Er, Ee, Hok, Hfk, Ei. reflexivity. }
    rewrite U. cbn [fst].
    apply (IH (with_ix I (with_db I s d1) (ix_insert I (st_ix I s) (e_id e) (vec_of e)))) in H; auto.
    intros e' He'. apply (Hd e' (or_intror He')).
Qed.

Lemma batch_one_by_one ev ev' s es s' : ev_fk ev' = ev_fk ev -> (forall n, ev_ok ev' n = true) ->
  (forall e, In e es -> Z.of_nat (length (vec_of e)) = st_dim I s /\ st_dim I s <> 0%Z) ->
  upsert_batch I ev s es = (s', Ok tt) -> s' = fold_left (fun s e => fst (upsert I ev' s e)) es s.
Proof.
  intros Hfk Hok Hd. unfold upsert_batch. destruct (st_closed I s) eqn:Hc; [discriminate|].
  destruct es as [|e0 es0]; [intros [= <-]; reflexivity|]. set (es := e0 :: es0) in *. clearbody es.
  destruct (negb (ev_ok ev 0)); [discriminate|].
  destruct (batch_rows ev (st_db I s) 1 es) as [d|x|] eqn:Eb; try discriminate.
  destruct (ev_ok ev _); [|discriminate]. intros [= <-].
  apply (batch_rows_upserts ev ev') in Eb as (B1 & B2 & B3 & B4 & B5); auto. fold (upserts ev' s es).
  destruct (upserts ev' s es) as [a b c x y]. cbn in *. subst. unfold with_ix, with_db. cbn. f_equal; auto.
Qed.
End P3.
