(** Invariants of the store over all histories. *)
From Coq Require Import String Ascii List NArith ZArith Bool Lia Permutation.
From Coq Require Import Init.Byte.
From Verif Require Import Base Floats64 EncodingModel EncodingSpec EncodingProofs DimensionModel StoreModel StoreSpec StoreProofs.
Import ListNotations.
Open Scope string_scope.
Open Scope list_scope.

Definition uniq (d : db) : Prop := NoDup (map r_id (t_rows d)).

Lemma uniq_filter d p : uniq d -> NoDup (map r_id (filter p (t_rows d))).
Proof. intros H. apply NoDup_map_filter. exact H. Qed.

Lemma make_row_doc e cid blob : r_doc (make_row e cid blob) <> Some "".
Proof. cbn. destruct (String.eqb_spec (e_doc e) ""); congruence. Qed.

(** Whatever the encoder accepts decodes. *)
Lemma byte_of_32 n k : (k <= 24)%N -> byte_of (n mod 2^32 / 2^k) = byte_of (n / 2^k).
Proof.
  intros Hk. unfold byte_of. replace ((n mod 2 ^ 32 / 2 ^ k) mod 256)%N with ((n / 2 ^ k) mod 256)%N; auto.
  change 256%N with (2^8)%N. apply N.bits_inj. intros i. 
  destruct (N.ltb_spec i 8) as [H|H].
  - rewrite !N.mod_pow2_bits_low by lia. rewrite !N.div_pow2_bits. rewrite N.mod_pow2_bits_low by lia. reflexivity.
  - rewrite !N.mod_pow2_bits_high by lia. reflexivity.
Qed.
Lemma le32_mod n : le32 (n mod 2^32) = le32 n.
Proof.
  unfold le32. rewrite !byte_of_32 by lia.
  pose proof (byte_of_32 n 0 ltac:(lia)) as H. rewrite !N.div_1_r in H. rewrite H. reflexivity.
Qed.
Lemma encode_decodes v blob : encode_vector v = Ok blob -> exists w, decode_vector blob = Ok w.
Proof.
  destruct v as [v|]; [|discriminate]. intros E. exists (map (fun x => x mod 2^32)%N v). apply encode_ok_decode.
  - apply Forall_forall. intros x Hx. apply in_map_iff in Hx as (y & <- & _). apply N.mod_lt. discriminate.
  - rewrite <- E. unfold encode_vector. rewrite map_length. destruct (_ <? _)%N; auto. do 2 f_equal.
    clear. induction v as [|x v IH]; cbn [map flat_map]; auto. rewrite le32_mod, IH. reflexivity.
Qed.
(** A row decodes, and its access list is absent rather than empty. *)
Definition decodes (r : row) : Prop := (exists w, decode_vector (r_blob r) = Ok w) /\ r_acl r <> Some [].
Lemma made_decodes e cid v blob : encode_vector v = Ok blob -> decodes (make_row e cid blob).
Proof. intros E. split; [exact (encode_decodes _ _ E)|]. cbn. destruct (e_acl e); discriminate. Qed.

Lemma batch_rows_inv (P : db -> Prop) ev es :
  (forall d r, P d -> (ev_fk ev = true -> fk_ok d r = true) -> r_doc r <> Some "" -> decodes r -> P (with_rows d (put_row r (t_rows d)))) ->
  forall d n d', P d -> batch_rows ev d n es = Ok d' -> P d'.
Proof.
  intros HP. induction es as [|e es IH]; cbn [batch_rows]; intros d n d' Hd H.
  - injection H as <-. exact Hd.
  - destruct (resolve_coll d e); cbn [bind] in H; try discriminate.
    destruct (encode_vector (e_vec e)) as [blob| |] eqn:Ee; cbn [bind] in H; try discriminate.
    destruct (ev_ok ev n); [|discriminate].
    destruct (insert_row _ _ _) as [d1|] eqn:Ei; [|discriminate].
    apply IH in H; auto. pose proof (insert_row_db _ _ _ _ Ei) as ->. apply HP; auto; [|apply make_row_doc|exact (made_decodes _ _ _ _ Ee)].
    intros Hfk. unfold insert_row in Ei. rewrite Hfk in Ei. cbn in Ei. destruct (fk_ok d _); auto. discriminate.
Qed.

Lemma delete_chunks_filter ev cs : forall n rows cnt rows' cnt' b,
  delete_chunks ev n cs rows cnt = (rows', cnt', b) -> exists p, rows' = filter p rows.
Proof.
  induction cs as [|c cs IH]; intros n rows cnt rows' cnt' b; cbn [delete_chunks].
  - intros [= <- <- <-]. exists (fun _ => true). symmetry. apply filter_all. auto.
  - destruct (ev_ok ev n).
    + intros H. apply IH in H as (p & ->). rewrite filter_filter. eexists. reflexivity.
    + intros [= <- <- <-]. exists (fun _ => true). symmetry. apply filter_all. auto.
Qed.

Lemma clear_docs_filter ev xs : forall n rows rows',
  clear_docs_tx ev n xs rows = Some rows' ->
  rows' = filter (fun r => negb (existsb (fun x => doc_is x r && negb (String.eqb x "")) xs)) rows.
Proof.
  induction xs as [|x xs IH]; intros n rows rows'; cbn [clear_docs_tx existsb].
  - intros [= <-]. symmetry. apply filter_all. auto.
  - destruct (String.eqb x "").
    + intros H. apply IH in H as ->. apply filter_ext. intros r. rewrite andb_false_r. reflexivity.
    + destruct (ev_ok ev n); [|discriminate]. intros H. apply IH in H as ->. rewrite filter_filter.
      apply filter_ext. intros r. rewrite andb_true_r. destruct (doc_is x r); auto.
Qed.

Section Inv.
Variable I : index_ops.

(** The database effect of every operation. *)
Inductive db_step (fk : bool) (d : db) : db -> Prop :=
| ds_same : db_step fk d d
| ds_put r : (fk = true -> fk_ok d r = true) -> r_doc r <> Some "" -> decodes r -> db_step fk d (with_rows d (put_row r (t_rows d)))
| ds_filter p : db_step fk d (with_rows d (filter p (t_rows d)))
| ds_newcoll name dims : find_coll d name = None ->
    db_step fk d {| t_rows := t_rows d; t_colls := t_colls d ++ [{| c_id := t_next d; c_name := name; c_dims := dims |}];
                    t_next := t_next d + 1; t_docs := t_docs d |}
| ds_delcoll c : In c (t_colls d) ->
    db_step fk d {| t_rows := filter (fun r => negb (Z.eqb (r_coll r) (c_id c))) (t_rows d);
                    t_colls := filter (fun x => negb (Z.eqb (c_id x) (c_id c))) (t_colls d);
                    t_next := t_next d; t_docs := t_docs d |}
| ds_newdoc x : existsb (fun y => String.eqb (d_id y) (d_id x)) (t_docs d) = false ->
    db_step fk d {| t_rows := t_rows d; t_colls := t_colls d; t_next := t_next d; t_docs := t_docs d ++ [x] |}
| ds_upddoc x : 
    db_step fk d {| t_rows := t_rows d; t_colls := t_colls d; t_next := t_next d;
                    t_docs := map (fun y => if String.eqb (d_id y) (d_id x) then x else y) (t_docs d) |}
| ds_deldoc id :
    db_step fk d {| t_rows := if fk && existsb (fun y => String.eqb (d_id y) id) (t_docs d)
                              then filter (fun r => negb (doc_is id r)) (t_rows d) else t_rows d;
                    t_colls := t_colls d; t_next := t_next d;
                    t_docs := filter (fun y => negb (String.eqb (d_id y) id)) (t_docs d) |}
| ds_trans d1 d2 : db_step fk d d1 -> db_step fk d1 d2 -> db_step fk d d2.

Lemma with_rows_self d : with_rows d (t_rows d) = d.
Proof. destruct d; reflexivity. Qed.

Lemma step_db_step ev s o : db_step (ev_fk ev) (st_db I s) (st_db I (fst (step I ev s o))).
Proof.
  destruct o; cbn [step].
  - destruct (upsert I ev s e) as [s' r] eqn:E. cbn [fst]. destruct r as [[]|x|].
    + apply upsert_inv in E as (v & cid & blob & H & _ & Ee & _ & D & _ & _ & _ & _ & _ & Hfk). rewrite D. constructor; [exact Hfk|apply make_row_doc|exact (made_decodes _ _ _ _ Ee)].
    + apply upsert_fail in E as [E _]; [|discriminate]. rewrite E. constructor.
    + apply upsert_fail in E as [E _]; [|discriminate]. rewrite E. constructor.
  - unfold upsert_batch. destruct (st_closed I s); [constructor|]. destruct es as [|e0 es0]; [constructor|].
    destruct (negb (ev_ok ev 0)); [constructor|].
    destruct (batch_rows ev (st_db I s) 1 (e0 :: es0)) as [d|x|] eqn:Eb; [|constructor..].
    destruct (ev_ok ev _); [|constructor]. cbn [fst st_db with_ix with_db].
    apply (batch_rows_inv (fun d => db_step (ev_fk ev) (st_db I s) d)) in Eb; auto; [|constructor].
    intros d0 r H0 H1 H2 H3. eapply ds_trans; [exact H0|]. constructor; auto.
  - unfold delete. destruct (st_closed I s); [constructor|]. destruct (String.eqb id ""); [constructor|].
    destruct (negb (ev_ok ev 0)); [constructor|]. destruct (existsb _ _); [|constructor]. cbn [fst st_db with_ix with_db]. constructor.
  - unfold delete_by_doc. destruct (st_closed I s); [constructor|]. destruct (String.eqb doc ""); [constructor|].
    destruct (negb (ev_ok ev 0)); [constructor|]. cbn [fst st_db with_db]. constructor.
  - unfold delete_batch. destruct (st_closed I s); [constructor|].
    destruct (filter _ ids) as [|i0 is0]; [constructor|].
    destruct (delete_chunks _ _ _ _ _) as [[rows cnt] b] eqn:E. apply delete_chunks_filter in E as (p & ->).
    destruct (negb b); [|destruct (Nat.eqb cnt 0)]; cbn [fst st_db with_ix with_db]; constructor.
  - unfold delete_where. destruct (st_closed I s); [constructor|]. destruct (negb (ev_ok ev 0)); [constructor|].
    destruct (map r_id _); [constructor|]. destruct (_ || _); [constructor|]. cbn [fst st_db with_ix with_db]. constructor.
  - unfold clear. destruct (st_closed I s); [constructor|]. destruct (negb (ev_ok ev 0)); [constructor|].
    cbn [fst st_db with_db]. replace (@nil row) with (filter (fun _ => false) (t_rows (st_db I s))); [constructor|].
    apply filter_none. auto.
  - unfold clear_by_docs. destruct (st_closed I s); [constructor|]. destruct docs as [|x0 xs0]; [constructor|].
    destruct (negb (ev_ok ev 0)); [constructor|].
    destruct (clear_docs_tx _ _ _ _) as [rows|] eqn:E; [|constructor]. apply clear_docs_filter in E as ->.
    destruct (ev_ok ev 1); [|constructor]. cbn [fst st_db with_db]. constructor.
  - unfold create_collection. destruct (st_closed I s); [constructor|].
    destruct (find_coll _ _) eqn:E; [constructor|]. destruct (Z.ltb dims 0); [constructor|].
    destruct (negb (ev_ok ev 0)); [constructor|]. cbn [fst st_db with_db]. constructor. exact E.
  - unfold delete_collection. destruct (st_closed I s); [constructor|].
    destruct (find_coll _ _) as [c|] eqn:E; [|constructor]. destruct (_ && _ && _); [|constructor].
    cbn [fst st_db with_db]. constructor. apply find_some in E as [E _]. exact E.
  - unfold create_document. destruct (st_closed I s); [constructor|].
    destruct (existsb _ _) eqn:E; [constructor|]. destruct (negb (ev_ok ev 0)); [constructor|].
    cbn [fst st_db with_db]. constructor. exact E.
  - unfold update_document. destruct (st_closed I s); [constructor|]. destruct (negb (ev_ok ev 0)); [constructor|].
    destruct (existsb _ _); [|constructor]. cbn [fst st_db with_db]. constructor.
  - unfold delete_document. destruct (st_closed I s); [constructor|].
    destruct (ev_ok ev 0), (negb (ev_ok ev 1)); cbn [fst st_db with_db with_ix]; constructor.
  - unfold close. cbn. constructor.
Qed.

Lemma db_step_uniq fk d d' : db_step fk d d' -> uniq d -> uniq d'.
Proof.
  induction 1; unfold uniq in *; cbn [t_rows with_rows]; intros Hu; auto.
  - apply put_row_NoDup; auto.
  - apply NoDup_map_filter; auto.
  - apply NoDup_map_filter; auto.
  - destruct (fk && _); auto. apply NoDup_map_filter; auto.
Qed.

Definition docs_named (d : db) : Prop := forall r, In r (t_rows d) -> r_doc r <> Some "".
Lemma db_step_named fk d d' : db_step fk d d' -> docs_named d -> docs_named d'.
Proof.
  unfold docs_named. induction 1; intros Hu; auto; intros r0 Hin; cbn [t_rows with_rows] in *; auto.
  - apply put_row_in in Hin as [->|Hin]; auto.
  - apply filter_In in Hin as [Hin _]; auto.
  - apply filter_In in Hin as [Hin _]; auto.
  - destruct (fk && _); auto. apply filter_In in Hin as [Hin _]; auto.
Qed.

Lemma init_db_rows dim d : t_rows (init_db dim d) = t_rows d.
Proof. unfold init_db. destruct (existsb _ _); reflexivity. Qed.

Lemma reachable_uniq envs s : reachable I envs s -> uniq (st_db I s).
Proof.
  induction 1 as [dim p i s H|s ev o H IH He|s dim p i s' H IH Ho].
  - unfold open_store in H. destruct (Z.ltb dim 0); [discriminate|]. injection H as <-. unfold uniq. cbn. constructor.
  - eapply db_step_uniq; [apply step_db_step|exact IH].
  - unfold open_store in Ho. destruct (Z.ltb dim 0); [discriminate|]. injection Ho as <-. unfold uniq in *. cbn [st_db].
    rewrite init_db_rows. exact IH.
Qed.

Lemma reachable_named envs s : reachable I envs s -> docs_named (st_db I s).
Proof.
  induction 1 as [dim p i s H|s ev o H IH He|s dim p i s' H IH Ho].
  - unfold open_store in H. destruct (Z.ltb dim 0); [discriminate|]. injection H as <-. unfold docs_named. cbn. tauto.
  - eapply db_step_named; [apply step_db_step|exact IH].
  - unfold open_store in Ho. destruct (Z.ltb dim 0); [discriminate|]. injection Ho as <-. unfold docs_named in *. cbn [st_db].
    rewrite init_db_rows. exact IH.
Qed.

Definition all_decode (d : db) : Prop := forall r, In r (t_rows d) -> decodes r.
Lemma db_step_decodes fk d d' : db_step fk d d' -> all_decode d -> all_decode d'.
Proof.
  unfold all_decode. induction 1; intros Hu; auto; intros r0 Hin; cbn [t_rows with_rows] in *; auto.
  - apply put_row_in in Hin as [->|Hin]; auto.
  - apply filter_In in Hin as [Hin _]; auto.
  - apply filter_In in Hin as [Hin _]; auto.
  - destruct (fk && _); auto. apply filter_In in Hin as [Hin _]; auto.
Qed.
Lemma reachable_decodes envs s : reachable I envs s -> all_decode (st_db I s).
Proof.
  induction 1 as [dim p i s H|s ev o H IH He|s dim p i s' H IH Ho].
  - unfold open_store in H. destruct (Z.ltb dim 0); [discriminate|]. injection H as <-. unfold all_decode. cbn. tauto.
  - eapply db_step_decodes; [apply step_db_step|exact IH].
  - unfold open_store in Ho. destruct (Z.ltb dim 0); [discriminate|]. injection Ho as <-. unfold all_decode in *. cbn [st_db].
    rewrite init_db_rows. exact IH.
Qed.

Lemma one_row_lemma envs s : reachable I envs s -> st_closed I s = false ->
  exists ids, NoDup ids /\ stats I s = Ok (Z.of_nat (length ids), st_dim I s) /\
    (forall id, In id ids -> exists e, get_by_id I s id = Ok e /\ e_id e = id) /\
    (forall id, ~ In id ids -> get_by_id I s id = Err ENotFound).
Proof.
  intros Hr Hc. exists (map r_id (t_rows (st_db I s))). split; [apply (reachable_uniq envs); auto|]. split.
  { unfold stats. rewrite Hc, map_length. reflexivity. }
  assert (K : forall id, In id (map r_id (t_rows (st_db I s))) <-> get_by_id I s id <> Err ENotFound).
  { intros id. rewrite get_notfound by auto. rewrite find_none_iff. split.
    + intros Hin Hno. apply in_map_iff in Hin as (r & <- & Hin). apply (Hno r Hin). reflexivity.
    + intros Hno. destruct (in_dec string_dec id (map r_id (t_rows (st_db I s)))) as [|Hn]; auto.
      exfalso. apply Hno. intros r Hr' <-. apply Hn. apply in_map. exact Hr'. }
  split.
  - intros id Hi. apply K in Hi. revert Hi. unfold get_by_id. rewrite Hc. destruct (find (row_is id) _) as [r|] eqn:F; [|congruence].
    intros _. apply find_some in F as [F1 F2]. destruct (reachable_decodes envs s Hr r F1) as [[w W] _]. unfold scan_get. rewrite W. cbn.
    eexists. split; [reflexivity|]. cbn. apply String.eqb_eq. exact F2.
  - intros id Hi. destruct (get_by_id I s id) as [e|x|] eqn:G; auto; try (exfalso; apply Hi, K; congruence).
    destruct x; auto; exfalso; apply Hi, K; congruence.
Qed.

Lemma db_step_docs fk d d' : db_step fk d d' -> NoDup (map d_id (t_docs d)) -> NoDup (map d_id (t_docs d')).
Proof.
  induction 1; cbn [t_docs with_rows]; auto; intros N.
  - rewrite map_app. apply NoDup_app_intro; auto; [repeat constructor; cbn; tauto|]. intros y Hy [<-|[]].
    apply in_map_iff in Hy as (z & E & Hz). assert (existsb (fun y => String.eqb (d_id y) (d_id x)) (t_docs d) = true); [|congruence].
    apply existsb_exists. exists z. split; auto. apply String.eqb_eq; auto.
  - rewrite map_map. erewrite map_ext; [exact N|]. intros y. cbn. destruct (String.eqb_spec (d_id y) (d_id x)); auto.
  - apply NoDup_map_filter; auto.
Qed.
Lemma reachable_docs envs s : reachable I envs s -> NoDup (map d_id (t_docs (st_db I s))).
Proof.
  induction 1 as [dim p i s H|s ev o H IH He|s dim p i s' H IH Ho].
  - unfold open_store in H. destruct (Z.ltb dim 0); [discriminate|]. injection H as <-. constructor.
  - eapply db_step_docs; [apply step_db_step|exact IH].
  - unfold open_store in Ho. destruct (Z.ltb dim 0); [discriminate|]. injection Ho as <-. cbn [st_db]. unfold init_db. destruct (existsb _ _); exact IH.
Qed.

(** *** Referential integrity *)
Lemma integrity_with_rows d rs :
  integrity d -> NoDup (map r_id rs) ->
  (forall r, In r rs -> In (r_coll r) (map c_id (t_colls d)) /\ forall x, r_doc r = Some x -> In x (map d_id (t_docs d))) ->
  integrity (with_rows d rs).
Proof.
  intros (H1 & H2 & H3 & H4 & H5 & H6 & H7) Hn Hr. unfold integrity. cbn. repeat split; auto.
  - intros r Hin. apply Hr in Hin. tauto.
  - intros r x Hin. apply Hr in Hin as [_ Hin]. auto.
Qed.

Lemma db_step_integrity d d' : db_step true d d' -> integrity d -> integrity d'.
Proof.
  intros H. remember true as fk eqn:Efk. induction H; intros Hi; subst fk; auto.
  - apply integrity_with_rows; auto.
    + apply put_row_NoDup. apply Hi.
    + intros r0 Hin. apply put_row_in in Hin as [->|Hin].
      * specialize (H eq_refl). unfold fk_ok in H. apply andb_prop in H as [Ha Hb]. split.
        -- apply existsb_exists in Ha as (c & Hc & E). apply Z.eqb_eq in E. rewrite <- E. apply in_map; auto.
        -- intros x Ex. rewrite Ex in Hb. apply existsb_exists in Hb as (y & Hy & E). apply String.eqb_eq in E. rewrite <- E. apply in_map; auto.
      * destruct Hi as (_ & _ & _ & _ & _ & H6 & H7). split; eauto.
  - apply integrity_with_rows; auto.
    + apply NoDup_map_filter. apply Hi.
    + intros r0 Hin. apply filter_In in Hin as [Hin _]. destruct Hi as (_ & _ & _ & _ & _ & H6 & H7). split; eauto.
  - destruct Hi as (H1 & H2 & H3 & H4 & H5 & H6 & H7). unfold integrity. cbn. rewrite !map_app. cbn. repeat split; auto.
    + apply NoDup_app_intro; auto; [repeat constructor; cbn; tauto|]. cbn. intros x Hx [<-|[]].
      apply in_map_iff in Hx as (c & Ec & Hc). apply H3 in Hc. lia.
    + apply NoDup_app_intro; auto; [repeat constructor; cbn; tauto|]. cbn. intros x Hx [<-|[]].
      apply in_map_iff in Hx as (c & Ec & Hc). unfold find_coll in H.
      eapply find_none in H; [|exact Hc]. cbn in H. apply String.eqb_neq in H. congruence.
    + intros c Hc. apply in_app_iff in Hc as [Hc|[<-|[]]]; [apply H3 in Hc; lia|cbn; lia].
    + intros r Hr. apply in_app_iff. left. auto.
  - destruct Hi as (H1 & H2 & H3 & H4 & H5 & H6 & H7). unfold integrity. cbn. repeat split; auto.
    + apply NoDup_map_filter; auto.
    + apply NoDup_map_filter; auto.
    + intros c0 Hc. apply filter_In in Hc as [Hc _]. auto.
    + apply NoDup_map_filter; auto.
    + intros r Hr. apply filter_In in Hr as [Hr E]. apply negb_true_iff, Z.eqb_neq in E.
      apply H6 in Hr. apply in_map_iff in Hr as (c0 & Ec & Hc). apply in_map_iff. exists c0. split; auto.
      apply filter_In. split; auto. apply negb_true_iff, Z.eqb_neq. congruence.
    + intros r x Hr. apply filter_In in Hr as [Hr _]. eauto.
  - destruct Hi as (H1 & H2 & H3 & H4 & H5 & H6 & H7). unfold integrity. cbn. repeat split; auto.
    + rewrite map_app. apply NoDup_app_intro; auto; [repeat constructor; cbn; tauto|]. cbn. intros y Hy [<-|[]].
      apply in_map_iff in Hy as (z & Ez & Hz).
      assert (X : existsb (fun y => String.eqb (d_id y) (d_id x)) (t_docs d) = true).
      { apply existsb_exists. exists z. split; auto. apply String.eqb_eq; auto. } congruence.
    + intros r y Hr Hy. rewrite map_app. apply in_app_iff. left. eauto.
  - assert (Em : map d_id (map (fun y => if String.eqb (d_id y) (d_id x) then x else y) (t_docs d)) = map d_id (t_docs d)).
    { rewrite map_map. apply map_ext. intros y. destruct (String.eqb_spec (d_id y) (d_id x)); auto. }
    destruct Hi as (H1 & H2 & H3 & H4 & H5 & H6 & H7). unfold integrity. cbn [t_rows t_colls t_docs t_next]. rewrite Em. repeat split; auto.
  - destruct Hi as (H1 & H2 & H3 & H4 & H5 & H6 & H7). cbn [andb].
    assert (Hsub : forall r, In r (if existsb (fun y => String.eqb (d_id y) id) (t_docs d)
            then filter (fun r => negb (doc_is id r)) (t_rows d) else t_rows d) -> In r (t_rows d) /\ r_doc r <> Some id).
    { intros r. destruct (existsb _ _) eqn:E.
      - intros Hr. apply filter_In in Hr as [Hr Hd]. split; auto. intros Hd'. unfold doc_is in Hd. rewrite Hd' in Hd.
        rewrite String.eqb_refl in Hd. discriminate.
      - intros Hr. split; auto. intros Hd. apply H7 in Hd; auto. apply in_map_iff in Hd as (y & Ey & Hy).
        assert (X : existsb (fun y => String.eqb (d_id y) id) (t_docs d) = true).
        { apply existsb_exists. exists y. split; auto. apply String.eqb_eq; auto. } congruence. }
    unfold integrity. cbn [t_rows t_colls t_docs t_next]. repeat split; auto.
    + apply NoDup_map_filter; auto.
    + destruct (existsb _ _); auto. apply NoDup_map_filter; auto.
    + intros r Hr. apply Hsub in Hr as [Hr _]. auto.
    + intros r x Hr Hx. apply Hsub in Hr as [Hr Hne]. apply H7 in Hx as Hin; auto. apply in_map_iff in Hin as (y & Ey & Hy).
      apply in_map_iff. exists y. split; auto. apply filter_In. split; auto. apply negb_true_iff, String.eqb_neq. congruence.
Qed.

Lemma init_db_integrity dim d : (1 <= t_next d)%Z -> integrity d -> integrity (init_db dim d).
Proof.
  intros Hn Hi. unfold init_db. destruct (existsb _ _) eqn:E; auto.
  assert (F : forall c, In c (t_colls d) -> c_id c <> 1%Z /\ c_name c <> "default").
  { intros c Hc. split; intros Heq.
    - assert (X : existsb (fun c => (Z.eqb (c_id c) 1 || String.eqb (c_name c) "default")%bool) (t_colls d) = true); [|congruence].
      apply existsb_exists. exists c. split; auto. rewrite Heq. reflexivity.
    - assert (X : existsb (fun c => (Z.eqb (c_id c) 1 || String.eqb (c_name c) "default")%bool) (t_colls d) = true); [|congruence].
      apply existsb_exists. exists c. split; auto. rewrite Heq. apply orb_true_r. }
  destruct Hi as (H1 & H2 & H3 & H4 & H5 & H6 & H7). unfold integrity. cbn. rewrite !map_app. cbn. repeat split; auto.
  - apply NoDup_app_intro; auto; [repeat constructor; cbn; tauto|]. cbn. intros x Hx [<-|[]].
    apply in_map_iff in Hx as (c & Ec & Hc). apply F in Hc. tauto.
  - apply NoDup_app_intro; auto; [repeat constructor; cbn; tauto|]. cbn. intros x Hx [<-|[]].
    apply in_map_iff in Hx as (c & Ec & Hc). apply F in Hc. tauto.
  - intros c Hc. apply in_app_iff in Hc as [Hc|[<-|[]]]; [apply H3 in Hc; lia|cbn; lia].
  - intros r Hr. apply in_app_iff. left. auto.
Qed.

Lemma db_step_next fk d d' : db_step fk d d' -> (t_next d <= t_next d')%Z.
Proof. induction 1; cbn; lia. Qed.

Lemma reachable_next envs s : reachable I envs s -> (1 <= t_next (st_db I s))%Z.
Proof.
  induction 1 as [dim p i s H|s ev o H IH He|s dim p i s' H IH Ho].
  - unfold open_store in H. destruct (Z.ltb dim 0); [discriminate|]. injection H as <-. cbn. lia.
  - pose proof (db_step_next _ _ _ (step_db_step ev s o)). lia.
  - unfold open_store in Ho. destruct (Z.ltb dim 0); [discriminate|]. injection Ho as <-. cbn [st_db].
    unfold init_db. destruct (existsb _ _); cbn; lia.
Qed.

Lemma reachable_integrity s : reachable I fk_env s -> integrity (st_db I s).
Proof.
  induction 1 as [dim p i s H|s ev o H IH He|s dim p i s' H IH Ho].
  - unfold open_store in H. destruct (Z.ltb dim 0); [discriminate|]. injection H as <-. cbn [st_db].
    apply init_db_integrity; [cbn; lia|]. unfold integrity. cbn. repeat split; try constructor; tauto.
  - pose proof (step_db_step ev s o) as D. unfold fk_env in He. rewrite He in D. eapply db_step_integrity; eauto.
  - pose proof (reachable_next _ _ H). unfold open_store in Ho. destruct (Z.ltb dim 0); [discriminate|]. injection Ho as <-. cbn [st_db].
    apply init_db_integrity; auto.
Qed.

End Inv.
