(** Proofs for C19 and C20. *)
From Coq Require Import String List NArith ZArith Bool Lia Permutation.
From Coq Require Import Floats.SpecFloat.
From Verif Require Import Base Floats64 TopK EncodingModel EncodingSpec EncodingProofs DimensionModel StoreModel StoreSpec
  StoreProofs StoreInv StoreProofs2 StoreProofs3 SearchModel SearchSpec SearchProofs HnswModel HnswSpec HnswProofs HnswProofs2 StoreIndexModel StoreIndexSpec.
Import ListNotations.
Open Scope string_scope.
Open Scope list_scope.

Section P.
Variable dist : list N -> list N -> float.
Variable keep : list N -> list N.
Variable ef : nat.
Variable M0 : nat.
Notation I := (hnsw_ops dist keep ef).
Notation vecN := (list N).

Definition ids (c : content (vec := vecN)) := map fst c.
Lemma live_iff (c : content (vec := vecN)) id x : In (id, x) (live c) <-> In (id, (x, false)) c.
Proof.
  unfold live. rewrite in_map_iff. split.
  - intros ([i [v b]] & [= -> ->] & H). apply filter_In in H as [H B]. cbn in B. destruct b; [discriminate|]. auto.
  - intros H. exists (id, (x, false)). split; auto. apply filter_In. auto.
Qed.
Lemma c_insert_live (c : content (vec := vecN)) id v id' x : ~ In id (ids c) ->
  (In (id', x) (live (c_insert keep c (id, v))) <-> In (id', x) (live c) \/ (id' = id /\ x = keep v)).
Proof.
  intros N. rewrite !live_iff. unfold c_insert. cbn [fst snd]. destruct (c_has c id) eqn:H.
  - unfold c_has in H. apply has_ids in H. contradiction.
  - rewrite in_app_iff. cbn. split; [intros [A|[[= -> ->]|[]]]; auto|intros [A|[-> ->]]; auto].
Qed.
Lemma c_insert_ids (c : content (vec := vecN)) id v : ~ In id (ids c) -> ids (c_insert keep c (id, v)) = ids c ++ [id].
Proof.
  intros N. unfold c_insert. cbn [fst snd]. destruct (c_has c id) eqn:H; [unfold c_has in H; apply has_ids in H; contradiction|].
  unfold ids. rewrite map_app. reflexivity.
Qed.
Lemma c_delete_live (c : content (vec := vecN)) id id' x : In (id', x) (live (c_delete c id)) <-> id' <> id /\ In (id', x) (live c).
Proof.
  rewrite !live_iff. unfold c_delete. rewrite in_map_iff. split.
  - intros ([i [v b]] & E & H). cbn in E. destruct (String.eqb_spec i id); injection E as -> -> Eb; [discriminate|]. subst b. auto.
  - intros [N H]. exists (id', (x, false)). split; auto. cbn. destruct (String.eqb_spec id' id); congruence.
Qed.
Lemma c_delete_ids (c : content (vec := vecN)) id : ids (c_delete c id) = ids c.
Proof. unfold ids, c_delete. rewrite map_map. apply map_ext. intros [i [v b]]. cbn. destruct (String.eqb i id); auto. Qed.

Definition cont (i : hix) : content := proj (h_nodes (hx_graph i)).
Definition gix (i : hix) : Prop := Good (hx_graph i) /\ Small (hx_graph i) /\ h_M (hx_graph i) = M0.
Lemma hx_insert_ok i id v : gix i -> gix (hx_insert dist keep i id v) /\ cont (hx_insert dist keep i id v) = c_insert keep (cont i) (id, v) /\
  h_M (hx_graph (hx_insert dist keep i id v)) = h_M (hx_graph i).
Proof.
  intros (G & S & Em). destruct (step_good dist keep (hx_graph i) (HInsert id v (hx_rand i (hx_used i))) G) as (h & E & G' & P & M & _).
  unfold hx_insert, cont. cbn [hstep] in E. destruct E as [E|[[e E] ->]]; rewrite E; cbn [hx_set hx_graph].
  - split; [split; [auto|split; [|cbn in *; congruence]]|auto]. exact (step_small dist keep (hx_graph i) (HInsert id v (hx_rand i (hx_used i))) h G S Logic.I E).
  - split; [split; [auto|split; [auto|cbn in *; congruence]]|auto].
Qed.
Lemma hx_delete_ok i id : gix i -> gix (hx_delete i id) /\ cont (hx_delete i id) = c_delete (cont i) id /\
  h_M (hx_graph (hx_delete i id)) = h_M (hx_graph i).
Proof.
  intros (G & S & Em). destruct (step_good dist keep (hx_graph i) (HDelete id (hx_rand i (hx_used i))) G) as (h & E & G' & P & M & _).
  unfold hx_delete, cont. cbn [hstep] in E. destruct E as [E|[[e E] ->]]; rewrite E; cbn [hx_set hx_graph].
  - split; [split; [auto|split; [|cbn in *; congruence]]|auto]. exact (step_small dist keep (hx_graph i) (HDelete id (hx_rand i (hx_used i))) h G S Logic.I E).
  - split; [split; [auto|split; [auto|cbn in *; congruence]]|auto].
Qed.
Lemma hx_deletes_ok l : forall i, gix i -> gix (fold_left (fun i x => hx_delete i x) l i) /\
  (forall id x, In (id, x) (live (cont (fold_left (fun i x => hx_delete i x) l i))) <-> ~ In id l /\ In (id, x) (live (cont i))) /\
  ids (cont (fold_left (fun i x => hx_delete i x) l i)) = ids (cont i) /\ h_M (hx_graph (fold_left (fun i x => hx_delete i x) l i)) = h_M (hx_graph i).
Proof.
  induction l as [|a l IH]; intros i G; cbn [fold_left].
  - split; auto. split; [intros; cbn; tauto|auto].
  - destruct (hx_delete_ok i a G) as (G1 & C1 & M1). destruct (IH _ G1) as (G2 & L2 & I2 & M2). split; auto.
    split; [|split; [rewrite I2, C1; apply c_delete_ids|congruence]].
    intros id x. rewrite L2, C1, c_delete_live. cbn. intuition.
Qed.

(** rows and contents agree *)
Definition row_holds (rows : list row) (id : string) (x : vecN) : Prop :=
  exists r v, In r rows /\ r_id r = id /\ decode_vector (r_blob r) = Ok v /\ x = keep v.
Definition in_sync (rows : list row) (c : content) : Prop := forall id x, In (id, x) (live c) <-> row_holds rows id x.

Lemma holds_live h id x : NoDup (ids_of (h_nodes h)) -> (holds h id x <-> In (id, x) (live (proj (h_nodes h)))).
Proof.
  intros N. rewrite live_in by auto. unfold holds. split; intros (n & A & B & C); exists n; auto.
Qed.
Lemma row_get (s : store I) id x : NoDup (map r_id (t_rows (st_db I s))) -> st_closed I s = false ->
  (row_holds (t_rows (st_db I s)) id x <-> exists e, get_by_id I s id = Ok e /\ x = keep (vec_of e)).
Proof.
  intros U C. split.
  - intros (r & v & Hr & <- & D & ->). unfold get_by_id. rewrite C, (find_uniq _ r U Hr). unfold scan_get. rewrite D. cbn. eexists. split; [reflexivity|]. reflexivity.
  - intros (e & G & ->). apply get_ok_inv in G as (r & _ & _ & S & _ & _ & Ei & Hr). exists r. unfold scan_get in S. destruct (decode_vector (r_blob r)) as [v| |]; try discriminate.
    cbn in S. injection S as <-. exists v. auto.
Qed.
Lemma matches_iff envs (s : store I) i : gix i -> reachable I envs s -> st_closed I s = false ->
  (in_sync (t_rows (st_db I s)) (cont i) <-> index_matches_store dist keep ef s (hx_graph i)).
Proof.
  intros ((W & _) & _) R C. destruct W as [W _]. unfold in_sync, index_matches_store, cont.
  split; intros H id x; specialize (H id x); rewrite holds_live in * by auto; rewrite (row_get s id x (reachable_uniq I envs s R) C) in *; auto.
Qed.

Lemma sync_put rows c r v id x0 : in_sync rows c -> ~ In id (ids c) -> r_id r = id -> decode_vector (r_blob r) = Ok v -> x0 = v ->
  in_sync (put_row r rows) (c_insert keep c (id, x0)).
Proof.
  intros H N E D -> id' x. rewrite c_insert_live by auto. split.
  - intros [L|[-> ->]].
    + apply H in L as (r' & w & Hr & E' & D' & ->). exists r', w. split; [|auto]. unfold put_row. apply in_or_app. left. apply filter_In. split; auto.
      unfold row_is. destruct (String.eqb_spec (r_id r') (r_id r)); auto. exfalso. apply N. rewrite <- E, <- e.
      assert (L : In (r_id r', keep w) (live c)) by (apply H; exists r', w; auto). apply live_iff in L. apply (in_map fst) in L. exact L.
    + exists r, v. split; [apply in_or_app; right; left; auto|auto].
  - intros (r' & w & Hr & E' & D' & ->). apply in_app_or in Hr as [Hr|[<-|[]]].
    + apply filter_In in Hr as [Hr _]. left. apply H. exists r', w. auto.
    + right. split; [congruence|]. congruence.
Qed.
Lemma sync_filter rows c c' (p : row -> bool) (k : string -> Prop) : in_sync rows c ->
  (forall id x, In (id, x) (live c') <-> ~ k id /\ In (id, x) (live c)) -> (forall r, In r rows -> (p r = true <-> ~ k (r_id r))) ->
  in_sync (filter p rows) c'.
Proof.
  intros H L P id x. rewrite L, (H id x). split.
  - intros (Nk & r & v & Hr & E & D & ->). exists r, v. split; auto. apply filter_In. split; auto. apply P; auto. rewrite E; auto.
  - intros (r & v & Hr & E & D & ->). apply filter_In in Hr as [Hr Pr]. apply P in Pr; auto. split; [congruence|]. exists r, v. auto.
Qed.

(** one step *)
Definition Inv (used : list string) (s : store I) : Prop :=
  gix (st_ix I s) /\ in_sync (t_rows (st_db I s)) (cont (st_ix I s)) /\ incl (ids (cont (st_ix I s))) used.

Lemma batch_sync ev es : forall d n d' i used, Forall emb_bits es -> NoDup (map e_id es) -> (forall x, In x (map e_id es) -> ~ In x used) ->
  gix i -> in_sync (t_rows d) (cont i) -> incl (ids (cont i)) used -> batch_rows ev d n es = Ok d' ->
  let i' := fold_left (fun i e => hx_insert dist keep i (e_id e) (vec_of e)) es i in
  gix i' /\ in_sync (t_rows d') (cont i') /\ incl (ids (cont i')) (used ++ map e_id es) /\ h_M (hx_graph i') = h_M (hx_graph i).
Proof.
  induction es as [|e es IH]; intros d n d' i used B N F G S U; cbn [batch_rows fold_left].
  - intros [= <-]. cbn. split; auto. split; auto. split; auto. rewrite app_nil_r. auto.
  - destruct (resolve_coll d e) as [cid| |]; cbn [bind]; try discriminate.
    destruct (encode_vector (e_vec e)) as [blob| |] eqn:Ee; cbn [bind]; try discriminate.
    destruct (ev_ok ev n); [|discriminate]. destruct (insert_row _ _ _) as [d1|] eqn:Ei; [|discriminate]. apply insert_row_db in Ei as ->. intros E.
    inversion B as [|? ? Be Bes]; subst. inversion N as [|? ? Ne Nes]; subst.
    destruct (hx_insert_ok i (e_id e) (vec_of e) G) as (G1 & C1 & M1).
    assert (Fe : ~ In (e_id e) (ids (cont i))) by (intros H; apply U in H; revert H; apply F; left; auto).
    assert (F2 : forall x, In x (map e_id es) -> ~ In x (used ++ [e_id e])).
    { intros x Hx H. apply in_app_or in H as [H|[<-|[]]]; [revert H; apply F; right; auto|contradiction]. }
    assert (S2 : in_sync (put_row (make_row e cid blob) (t_rows d)) (cont (hx_insert dist keep i (e_id e) (vec_of e)))).
    { rewrite C1. destruct (e_vec e) as [v|] eqn:Ev; [|discriminate].
      assert (D : decode_vector blob = Ok v) by (apply encode_ok_decode; auto; unfold emb_bits, vec_of in Be; rewrite Ev in Be; exact Be).
      eapply sync_put; [exact S|exact Fe|reflexivity|exact D|]. unfold vec_of. rewrite Ev. reflexivity. }
    assert (U2 : incl (ids (cont (hx_insert dist keep i (e_id e) (vec_of e)))) (used ++ [e_id e])).
    { rewrite C1, c_insert_ids by auto. apply incl_app; [apply incl_appl; auto|apply incl_appr, incl_refl]. }
    destruct (IH (with_rows d (put_row (make_row e cid blob) (t_rows d))) _ _ _ (used ++ [e_id e]) Bes Nes F2 G1 S2 U2 E) as (G3 & S3 & U3 & M3).
    split; auto. split; auto. split; [|congruence]. cbn [map]. intros x Hx. apply U3 in Hx. rewrite <- app_assoc in Hx. exact Hx.
Qed.

Lemma incl_used a b c : incl a b -> incl (a : list string) (b ++ c).
Proof. intros H x Hx. apply in_or_app; auto. Qed.
Lemma Inv_more used x s : Inv used s -> Inv (used ++ x) s.
Proof. intros (A & B & C). split; auto. split; auto. apply incl_used; auto. Qed.

Lemma step_sync used s ev o : reachable I fk_env s -> Inv used s -> statements_succeed ev -> tells_index o -> well_formed_op o ->
  NoDup (written o) -> (forall x, In x (written o) -> ~ In x used) ->
  Inv (used ++ written o) (fst (step I ev s o)).
Proof.
  intros R V [Hfk Hok] T W N F. pose proof V as (G & S & U). destruct (st_closed I s) eqn:C.
  { destruct o; try (rewrite (closed_step I ev s _ C) by discriminate; cbn [fst]; apply Inv_more; exact V). cbn. rewrite app_nil_r. exact V. }
  destruct o; cbn [step tells_index] in *; try contradiction.
  - (* upsert *)
    destruct (upsert I ev s e) as [s' r] eqn:E. cbn [fst].
    assert (K : r <> Ok tt -> Inv (used ++ [e_id e]) s').
    { intros Nr. apply upsert_fail in E as (D & X & _); auto. split; [rewrite X; auto|]. rewrite D, X. split; auto. apply incl_used; auto. }
    destruct r as [[]|x|]; try (apply K; discriminate). clear K.
    apply upsert_inv in E as (v & cid & blob & _ & _ & Ee & Sv & D & X & _). unfold Inv. rewrite D, X. cbn [t_rows with_rows]. cbn [ix_insert hnsw_ops].
    destruct (hx_insert_ok (st_ix I s) (e_id e) v G) as (G1 & C1 & M1). split; auto. rewrite C1.
    assert (Fe : ~ In (e_id e) (ids (cont (st_ix I s)))) by (intros H; apply U in H; revert H; apply F; left; auto). split.
    + eapply sync_put; [exact S|exact Fe|reflexivity| |reflexivity]. apply encode_ok_decode; auto. eapply stored_vector_bits; eauto.
    + rewrite c_insert_ids by auto. apply incl_app; [apply incl_appl; auto|apply incl_appr, incl_refl].
  - (* batch *)
    unfold upsert_batch. rewrite C. destruct es as [|e0 es0]; [cbn; rewrite app_nil_r; exact V|]. rewrite Hok. cbn [negb].
    destruct (batch_rows ev (st_db I s) 1 (e0 :: es0)) as [d| |] eqn:E; try (cbn [fst]; apply Inv_more; exact V). rewrite Hok. cbn [fst].
    destruct (batch_sync ev (e0 :: es0) _ _ _ (st_ix I s) used W N F G S U E) as (G1 & S1 & U1 & _). split; [exact G1|]. split; [exact S1|]. exact U1.
  - (* delete *)
    cbn [written]. rewrite app_nil_r. unfold delete. rewrite C. destruct (String.eqb_spec id ""); [exact V|]. rewrite Hok. cbn [negb]. destruct (existsb (row_is id) _); [|exact V].
    cbn [fst]. destruct (hx_delete_ok (st_ix I s) id G) as (G1 & C1 & _). split; [exact G1|].
    unfold Inv. cbn [st_ix with_ix with_db st_db t_rows with_rows ix_delete hnsw_ops] in *. rewrite C1, c_delete_ids. split; auto.
    eapply (sync_filter _ _ _ _ (fun x => x = id)); [exact S| |].
    + intros id' x. rewrite c_delete_live. tauto.
    + intros r Hr. unfold row_is. destruct (String.eqb_spec (r_id r) id); cbn; split; congruence.
  - (* delete batch *)
    cbn [written]. rewrite app_nil_r. unfold delete_batch. rewrite C. set (vl := filter (fun id => negb (all_space id)) ids0).
    destruct (delete_chunks_all ev (StoreModel.chunks 500 vl) Hok 0 (t_rows (st_db I s)) 0) as (k & E & K).
    assert (CC : concat (StoreModel.chunks 500 vl) = vl) by (apply StoreProofs.chunks_concat; lia). rewrite CC in E, K.
    assert (Hgoal : Inv used (fst (let '(rows, cnt, done) := delete_chunks ev 0 (StoreModel.chunks 500 vl) (t_rows (st_db I s)) 0 in
        let s1 := with_db I s (with_rows (st_db I s) rows) in
        if negb done then (s1, Err EOther : outcome unit)
        else if Nat.eqb cnt 0 then (s1, Err ENotFound)
        else (with_ix I s1 (fold_left (fun i id => ix_delete I i id) vl (st_ix I s)), Ok tt)))).
    { rewrite E. cbn [negb Nat.add]. destruct (Nat.eqb_spec k 0) as [K0|K0].
      + cbn [fst]. split; [exact G|]. cbn [st_ix with_db st_db t_rows with_rows]. split; [|exact U].
        rewrite filter_all; [exact S|]. intros r Hr. rewrite (proj1 K K0 r Hr). reflexivity.
      + cbn [fst]. destruct (hx_deletes_ok vl (st_ix I s) G) as (G1 & L1 & I1 & _). split; [exact G1|].
        cbn [st_ix with_ix with_db st_db t_rows with_rows ix_delete hnsw_ops]. split; [|intros y Hy; apply U; rewrite <- I1; exact Hy].
        eapply (sync_filter _ _ _ _ (fun x => In x vl)); [exact S|exact L1|].
        intros r Hr. cbv beta. pose proof (StoreProofs.mem_In (r_id r) vl) as Hm. destruct (StoreModel.mem (r_id r) vl); cbn; intuition discriminate. }
    destruct vl; [exact V|exact Hgoal].
  - (* delete where *)
    cbn [written]. rewrite app_nil_r. unfold delete_where. rewrite C, !Hok. cbn [negb orb].
    destruct (existsb (failing c) (t_rows (st_db I s))) eqn:Ef; [destruct (map r_id _); exact V|].
    assert (Es : select_rows c (t_rows (st_db I s)) = filter (selects c) (t_rows (st_db I s))) by (apply select_rows_all; exact Ef).
    assert (Hgoal : Inv used (with_ix I (with_db I s (with_rows (st_db I s) (filter (fun r => negb (selects c r)) (t_rows (st_db I s)))))
       (fold_left (fun i id => ix_delete I i id) (map r_id (select_rows c (t_rows (st_db I s)))) (st_ix I s)))).
    { rewrite Es. set (vl := map r_id (filter (selects c) (t_rows (st_db I s)))).
      destruct (hx_deletes_ok vl (st_ix I s) G) as (G1 & L1 & I1 & _). split; [exact G1|].
      cbn [st_ix with_ix with_db st_db t_rows with_rows ix_delete hnsw_ops]. split; [|intros y Hy; apply U; rewrite <- I1; exact Hy].
      eapply (sync_filter _ _ _ _ (fun x => In x vl)); [exact S|exact L1|]. intros r Hr. cbv beta. unfold vl. rewrite in_map_iff.
      pose proof (reachable_uniq I _ _ R) as Un. destruct (selects c r) eqn:Sc; cbn [negb]; split; try discriminate.
      - intros H. exfalso. apply H. exists r. split; auto. apply filter_In; auto.
      - intros _ (r' & E & H). apply filter_In in H as [H D]. rewrite (NoDup_map_eq r_id _ r' r Un H Hr E) in D. congruence.
      - reflexivity. }
    destruct (map r_id (select_rows c _)); [exact V|exact Hgoal].
  - (* create collection *)
    cbn [written]. rewrite app_nil_r. unfold create_collection. rewrite C. destruct (find_coll _ _); [exact V|]. destruct (Z.ltb dims 0); [exact V|]. rewrite Hok. exact V.
  - (* create document *)
    cbn [written]. rewrite app_nil_r. unfold create_document. rewrite C. destruct (existsb _ _); [exact V|]. rewrite Hok. exact V.
  - cbn [written]. rewrite app_nil_r. unfold update_document. rewrite C. rewrite Hok. cbn [negb]. destruct (existsb _ _); exact V.
  - (* delete document *)
    cbn [written]. rewrite app_nil_r. unfold delete_document. rewrite C, !Hok, Hfk. cbn [negb andb fst].
    set (vs := map r_id (filter (doc_is id) (t_rows (st_db I s)))).
    destruct (hx_deletes_ok vs (st_ix I s) G) as (G1 & L1 & I1 & _). split; [exact G1|]. cbn [st_ix with_ix with_db st_db t_rows ix_delete hnsw_ops].
    split; [|intros y Hy; apply U; rewrite <- I1; exact Hy].
    pose proof (reachable_integrity I s R) as (_ & _ & _ & _ & Un & _ & H7).
    assert (Hv : forall r, In r (t_rows (st_db I s)) -> (In (r_id r) vs <-> doc_is id r = true)).
    { intros r Hr. unfold vs. rewrite in_map_iff. split.
      - intros (r' & E & H). apply filter_In in H as [H D]. rewrite <- (NoDup_map_eq r_id _ r' r Un H Hr E). exact D.
      - intros D. exists r. split; auto. apply filter_In; auto. }
    destruct (existsb (fun y => String.eqb (d_id y) id) (t_docs (st_db I s))) eqn:Ex.
    + eapply (sync_filter _ _ _ _ (fun x => In x vs)); [exact S|exact L1|]. intros r Hr. rewrite Hv by auto. destruct (doc_is id r); cbn; intuition congruence.
    + assert (Nv : vs = []).
      { unfold vs. destruct (filter (doc_is id) (t_rows (st_db I s))) as [|r l] eqn:Fl; auto. exfalso.
        assert (Hr : In r (filter (doc_is id) (t_rows (st_db I s)))) by (rewrite Fl; left; auto). apply filter_In in Hr as [Hr D].
        unfold doc_is in D. destruct (r_doc r) as [x|] eqn:Dx; [|discriminate]. apply String.eqb_eq in D. subst x.
        specialize (H7 r id Hr Dx). apply in_map_iff in H7 as (y & Ey & Hy). assert (existsb (fun y => String.eqb (d_id y) id) (t_docs (st_db I s)) = true); [|congruence].
        apply existsb_exists. exists y. split; auto. apply String.eqb_eq; auto. }
      intros i x. rewrite L1, Nv. rewrite (S i x). cbn. tauto.
  - cbn. rewrite app_nil_r. exact V.
Qed.
End P.
