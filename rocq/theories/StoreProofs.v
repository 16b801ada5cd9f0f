From Coq Require Import String Ascii List NArith ZArith Bool Lia Permutation.
From Coq Require Import Init.Byte.
From Verif Require Import Base Floats64 EncodingModel EncodingSpec EncodingProofs DimensionModel DimensionProofs StoreModel StoreSpec.
Import ListNotations.
Open Scope string_scope.
Open Scope list_scope.

Lemma row_is_true id r : row_is id r = true <-> r_id r = id.
Proof. unfold row_is. apply String.eqb_eq. Qed.
Lemma row_is_false id r : row_is id r = false <-> r_id r <> id.
Proof. unfold row_is. apply String.eqb_neq. Qed.

Lemma find_filter_other id id' rows : id' <> id ->
  find (row_is id') (filter (fun x => negb (row_is id x)) rows) = find (row_is id') rows.
Proof.
  intros Hne. induction rows as [|r rows IH]; cbn; auto.
  destruct (row_is id r) eqn:E; cbn.
  - apply row_is_true in E. assert (E' : row_is id' r = false) by (apply row_is_false; congruence). rewrite E'. exact IH.
  - destruct (row_is id' r); auto.
Qed.
Lemma find_filter_same id rows : find (row_is id) (filter (fun x => negb (row_is id x)) rows) = None.
Proof.
  induction rows as [|r rows IH]; cbn; auto.
  destruct (row_is id r) eqn:E; cbn; auto. rewrite E. exact IH.
Qed.
Lemma find_app {A} (p : A -> bool) l1 l2 : find p (l1 ++ l2) = match find p l1 with Some x => Some x | None => find p l2 end.
Proof. induction l1 as [|x l1 IH]; cbn; auto. destruct (p x); auto. Qed.

Lemma find_put_same r rows : find (row_is (r_id r)) (put_row r rows) = Some r.
Proof.
  unfold put_row. rewrite find_app, find_filter_same. cbn. unfold row_is. rewrite String.eqb_refl. reflexivity.
Qed.
Lemma find_put_other r rows id : id <> r_id r -> find (row_is id) (put_row r rows) = find (row_is id) rows.
Proof.
  intros H. unfold put_row. rewrite find_app, find_filter_other by auto. cbn.
  assert (E : row_is id r = false) by (apply row_is_false; congruence). rewrite E.
  destruct (find (row_is id) rows); auto.
Qed.

Lemma put_row_NoDup r rows : NoDup (map r_id rows) -> NoDup (map r_id (put_row r rows)).
Proof.
  intros H. unfold put_row. rewrite map_app. apply NoDup_app_intro.
  - apply NoDup_map_filter; auto.
  - repeat constructor. cbn. tauto.
  - cbn. intros x Hx [<-|[]]. apply in_map_iff in Hx as (y & Ey & Hy). apply filter_In in Hy as [_ Hy].
    apply negb_true_iff, row_is_false in Hy. congruence.
Qed.
Lemma put_row_in r rows x : In x (put_row r rows) -> x = r \/ In x rows.
Proof. unfold put_row. rewrite in_app_iff, filter_In. cbn. intuition. Qed.

Lemma float32_bits_of f : (bits_of_f32 f < 2^32)%N.
Proof.
  change (2^32)%N with 4294967296%N.
  destruct f as [[]|[]| |s m e]; try (cbn; lia).
  unfold bits_of_f32.
  set (x := if N.ltb (N.pos m) 8388608 then 0%N else Z.to_N (e + 150)). clearbody x.
  pose proof (N.mod_lt x 256 ltac:(lia)). pose proof (N.mod_lt (N.pos m) 8388608 ltac:(lia)).
  destruct s; lia.
Qed.
Lemma adapt_bits_bits noise p v t w : adapt_bits noise p v t = Ok w -> float32_bits w.
Proof.
  unfold adapt_bits. destruct (adapt_vector _ _ _ _ _); cbn; try discriminate.
  intros [= <-]. apply Forall_forall. intros x Hx. apply in_map_iff in Hx as (f & <- & _). apply float32_bits_of.
Qed.

Lemma encode_ok_decode v blob : float32_bits v -> encode_vector (Some v) = Ok blob -> decode_vector blob = Ok v.
Proof.
  intros Hb He. destruct (N.leb_spec (N.of_nat (length v)) (2^31 - 1)) as [H|H].
  - destruct (encode_decode v [] H Hb) as (bs & E & _ & D). rewrite app_nil_r in D. congruence.
  - pose proof (proj2 encode_refusals v H). congruence.
Qed.

Lemma resolve_target d e cid : resolve_coll d e = Ok cid -> target_collection d e cid.
Proof.
  unfold resolve_coll, target_collection. destruct (Z.eqb_spec (e_collid e) 0) as [Hz|Hz].
  - destruct (String.eqb_spec (e_coll e) "") as [Hs|Hs].
    + intros [= <-]. auto.
    + destruct (find_coll d (e_coll e)) as [c|] eqn:E; [|discriminate]. intros [= <-].
      apply find_some in E as [E1 E2]. apply String.eqb_eq in E2. right. right. repeat split; eauto.
  - intros [= <-]. auto.
Qed.

Lemma with_rows_colls d rs : t_colls (with_rows d rs) = t_colls d.
Proof. reflexivity. Qed.
Lemma coll_name_with_rows d rs cid : coll_name (with_rows d rs) cid = coll_name d cid.
Proof. reflexivity. Qed.

Lemma scan_make_row d e cid v blob : float32_bits v -> encode_vector (Some v) = Ok blob ->
  scan_get true d (make_row e cid blob) = Ok (seen_as d e cid v).
Proof.
  intros Hb He. unfold scan_get, make_row, seen_as. cbn [r_blob]. rewrite (encode_ok_decode v blob Hb He).
  cbn. f_equal. destruct (String.eqb_spec (e_doc e) "") as [E|E].
  - rewrite E. destruct (e_acl e); reflexivity.
  - destruct (e_acl e); reflexivity.
Qed.

Section Store.
Variable I : index_ops.
Notation store := (store I).

Lemma insert_row_db fk d r d' : insert_row fk d r = Some d' -> d' = with_rows d (put_row r (t_rows d)).
Proof. unfold insert_row. destruct (fk && negb (fk_ok d r)); [discriminate|]. intros [= <-]. reflexivity. Qed.

Lemma get_frame (s s' : store) id :
  st_closed I s' = st_closed I s ->
  t_colls (st_db I s') = t_colls (st_db I s) ->
  find (row_is id) (t_rows (st_db I s')) = find (row_is id) (t_rows (st_db I s)) ->
  get_by_id I s' id = get_by_id I s id.
Proof.
  intros H1 H2 H3. unfold get_by_id. rewrite H1, H3. destruct (st_closed I s); auto.
  destruct (find (row_is id) (t_rows (st_db I s))) as [r|]; auto. unfold scan_get, coll_name. rewrite H2. reflexivity.
Qed.

(** *** Upsert *)
Lemma upsert_inv ev s e s' : upsert I ev s e = (s', Ok tt) ->
  exists v cid blob,
    st_closed I s = false /\
    target_collection (st_db I s) e cid /\ encode_vector (Some v) = Ok blob /\
    stored_vector (ev_noise ev) (st_policy I s) (st_dim I s) e v /\
    st_db I s' = with_rows (st_db I s) (put_row (make_row e cid blob) (t_rows (st_db I s))) /\
    st_ix I s' = ix_insert I (st_ix I s) (e_id e) v /\
    st_closed I s' = false /\ st_policy I s' = st_policy I s /\
    st_dim I s' = (if Z.eqb (st_dim I s) 0 then Z.of_nat (length (vec_of e)) else st_dim I s) /\
    ev_ok ev 0 = true /\ (ev_fk ev = true -> fk_ok (st_db I s) (make_row e cid blob) = true).
Proof.
  unfold upsert. destruct (st_closed I s) eqn:Ec; [congruence|].
  set (s1 := if Z.eqb (st_dim I s) 0 then with_dim I s (Z.of_nat (length (vec_of e))) else s).
  assert (D1 : st_db I s1 = st_db I s) by (unfold s1; destruct (Z.eqb (st_dim I s) 0); reflexivity).
  assert (X1 : st_ix I s1 = st_ix I s) by (unfold s1; destruct (Z.eqb (st_dim I s) 0); reflexivity).
  assert (P1 : st_policy I s1 = st_policy I s) by (unfold s1; destruct (Z.eqb (st_dim I s) 0); reflexivity).
  assert (C1 : st_closed I s1 = false) by (unfold s1; destruct (Z.eqb (st_dim I s) 0); auto).
  assert (M1 : st_dim I s1 = if Z.eqb (st_dim I s) 0 then Z.of_nat (length (vec_of e)) else st_dim I s)
    by (unfold s1; destruct (Z.eqb (st_dim I s) 0); reflexivity).
  clearbody s1. rewrite D1, X1, P1.
  match goal with |- context [match ?X with Ok _ => _ | Err _ => _ | Panic => _ end] => destruct X as [ov|x|] eqn:Ev end;
    [|intros [= <-]; discriminate|discriminate].
  destruct (resolve_coll (st_db I s) e) as [cid|x|] eqn:Er; try discriminate.
  destruct (encode_vector ov) as [blob|x|] eqn:Ee; try discriminate.
  destruct (ev_ok ev 0) eqn:Eo; [|discriminate].
  destruct (insert_row (ev_fk ev) (st_db I s) (make_row e cid blob)) as [d|] eqn:Ei; [|discriminate].
  intros [= <-].
  destruct ov as [v|]; [|cbn in Ee; discriminate].
  exists v, cid, blob. split; auto. split; [apply resolve_target; auto|]. split; auto.
  split.
  { rewrite M1 in Ev. unfold stored_vector.
    destruct (Z.eqb_spec (Z.of_nat (length (vec_of e))) (if Z.eqb (st_dim I s) 0 then Z.of_nat (length (vec_of e)) else st_dim I s)) as [H|H].
    - injection Ev as Ev. left. split; auto. unfold vec_of in H. rewrite Ev in H.
      destruct (Z.eqb_spec (st_dim I s) 0); auto.
    - destruct (Z.eqb_spec (st_dim I s) 0); [congruence|]. right. split; auto. split; auto.
      destruct (adapt_bits (ev_noise ev) (st_policy I s) (vec_of e) (st_dim I s)); cbn in Ev; congruence. }
  apply insert_row_db in Ei as Ei'. cbn. repeat split; auto.
  intros Hfk. unfold insert_row in Ei. rewrite Hfk in Ei. cbn in Ei.
  destruct (fk_ok (st_db I s) (make_row e cid blob)); auto. discriminate.
Qed.

Lemma upsert_fail ev s e s' r : upsert I ev s e = (s', r) -> r <> Ok tt ->
  st_db I s' = st_db I s /\ st_ix I s' = st_ix I s /\ st_closed I s' = st_closed I s.
Proof.
  unfold upsert. destruct (st_closed I s) eqn:Ec; [intros [= <- <-]; auto|].
  set (s1 := if Z.eqb (st_dim I s) 0 then with_dim I s (Z.of_nat (length (vec_of e))) else s).
  assert (D1 : st_db I s1 = st_db I s) by (unfold s1; destruct (Z.eqb (st_dim I s) 0); reflexivity).
  assert (X1 : st_ix I s1 = st_ix I s) by (unfold s1; destruct (Z.eqb (st_dim I s) 0); reflexivity).
  assert (C1 : st_closed I s1 = false) by (unfold s1; destruct (Z.eqb (st_dim I s) 0); auto).
  clearbody s1.
  repeat match goal with
  | |- context [match ?X with Ok _ => _ | Err _ => _ | Panic => _ end] => destruct X
  | |- context [match ?X with Some _ => _ | None => _ end = _] => destruct X
  end; intros [= <- <-]; try congruence; auto.
Qed.

Lemma stored_vector_bits noise p dim e v : emb_bits e -> stored_vector noise p dim e v -> float32_bits v.
Proof.
  unfold emb_bits, stored_vector, vec_of. intros Hb [[H _]|(_ & _ & H)].
  - rewrite H in Hb. exact Hb.
  - eapply adapt_bits_bits; eauto.
Qed.

Lemma get_after_upsert_lemma ev s e s' : emb_bits e -> upsert I ev s e = (s', Ok tt) ->
  exists v cid,
    target_collection (st_db I s) e cid /\
    stored_vector (ev_noise ev) (st_policy I s) (st_dim I s) e v /\
    get_by_id I s' (e_id e) = Ok (seen_as (st_db I s) e cid v) /\
    (forall id, id <> e_id e -> get_by_id I s' id = get_by_id I s id).
Proof.
  intros Hb H. apply upsert_inv in H as (v & cid & blob & Hc & Ht & He & Hv & Hd & _ & Hc' & _).
  exists v, cid. split; auto. split; auto. split.
  - unfold get_by_id. rewrite Hc', Hd. cbn [t_rows with_rows].
    change (e_id e) with (r_id (make_row e cid blob)) at 1. rewrite find_put_same.
    rewrite (scan_make_row _ e cid v blob); auto. eapply stored_vector_bits; eauto.
  - intros id Hid. apply get_frame; [congruence|rewrite Hd; reflexivity|].
    rewrite Hd. cbn [t_rows with_rows]. apply find_put_other. exact Hid.
Qed.

Lemma upsert_accepts ev s e v cid : st_closed I s = false ->
  e_vec e = Some v -> (st_dim I s = 0%Z \/ st_dim I s = Z.of_nat (length v)) ->
  (N.of_nat (length v) <= 2^31 - 1)%N -> float32_bits v ->
  resolve_coll (st_db I s) e = Ok cid -> ev_ok ev 0 = true ->
  In cid (map c_id (t_colls (st_db I s))) ->
  (e_doc e = "" \/ In (e_doc e) (map d_id (t_docs (st_db I s)))) ->
  exists s', upsert I ev s e = (s', Ok tt).
Proof.
  intros Hc Hv Hd Hn Hb Hr Ho Hcid Hdoc. unfold upsert. rewrite Hc.
  set (s1 := if Z.eqb (st_dim I s) 0 then with_dim I s (Z.of_nat (length (vec_of e))) else s).
  assert (D1 : st_db I s1 = st_db I s) by (unfold s1; destruct (Z.eqb (st_dim I s) 0); reflexivity).
  assert (M1 : st_dim I s1 = Z.of_nat (length (vec_of e))).
  { unfold s1. destruct (Z.eqb_spec (st_dim I s) 0); cbn; auto. unfold vec_of. rewrite Hv. lia. }
  clearbody s1. rewrite M1, Z.eqb_refl, Hv, D1, Hr.
  destruct (encode_decode v [] Hn Hb) as (bs & Eb & _ & _). rewrite Eb, Ho.
  unfold insert_row.
  assert (F : fk_ok (st_db I s) (make_row e cid bs) = true).
  { unfold fk_ok, make_row. cbn [r_coll r_doc]. apply andb_true_intro; split.
    - apply in_map_iff in Hcid as (c & Ec & Hin). apply existsb_exists. exists c. split; auto. apply Z.eqb_eq; auto.
    - destruct (String.eqb_spec (e_doc e) ""); auto. destruct Hdoc as [|Hdoc]; [congruence|].
      apply in_map_iff in Hdoc as (x & Ex & Hin). apply existsb_exists. exists x. split; auto. apply String.eqb_eq; auto. }
  rewrite F. cbn [negb]. rewrite andb_false_r. eexists. reflexivity.
Qed.

(** *** UpsertBatch *)
Lemma batch_atomic ev s es s' r : upsert_batch I ev s es = (s', r) -> r = Ok tt \/ s' = s.
Proof.
  unfold upsert_batch. destruct (st_closed I s); [intros [= <- <-]; auto|].
  destruct es as [|e es]; [intros [= <- <-]; auto|].
  destruct (negb (ev_ok ev 0)); [intros [= <- <-]; auto|].
  destruct (batch_rows ev (st_db I s) 1 (e :: es)); [|intros [= <- <-]; auto..].
  destruct (ev_ok ev (S (length (e :: es)))); intros [= <- <-]; auto.
Qed.

Lemma batch_rows_spec ev es : forall d n d', Forall emb_bits es -> batch_rows ev d n es = Ok d' ->
  t_colls d' = t_colls d /\ t_docs d' = t_docs d /\ t_next d' = t_next d /\
  (forall id, match last_with id es with
   | None => find (row_is id) (t_rows d') = find (row_is id) (t_rows d)
   | Some e => exists v cid blob, e_vec e = Some v /\ e_id e = id /\ target_collection d e cid /\
                 encode_vector (Some v) = Ok blob /\ float32_bits v /\
                 find (row_is id) (t_rows d') = Some (make_row e cid blob)
   end).
Proof.
  induction es as [|e es IH]; cbn [batch_rows last_with]; intros d n d' HF H.
  - injection H as <-. auto.
  - destruct (resolve_coll d e) as [cid|x|] eqn:Er; cbn [bind] in H; try discriminate.
    destruct (encode_vector (e_vec e)) as [blob|x|] eqn:Ee; cbn [bind] in H; try discriminate.
    destruct (ev_ok ev n); [|discriminate].
    destruct (insert_row (ev_fk ev) d (make_row e cid blob)) as [d1|] eqn:Ei; [|discriminate].
    apply insert_row_db in Ei. inversion HF as [|? ? Hb HF']; subst.
    apply IH in H as (C & D & X & G); auto. split; auto. split; auto. split; auto.
    intros id. specialize (G id). destruct (last_with id es) as [e'|].
    + destruct G as (v & cid' & blob' & G1 & G2 & G3 & G4). exists v, cid', blob'. auto.
    + destruct (String.eqb_spec (e_id e) id) as [E|E].
      * destruct (e_vec e) as [v|] eqn:Ev; [|cbn in Ee; discriminate].
        exists v, cid, blob. repeat split; auto; [apply resolve_target; auto| |].
        { unfold emb_bits, vec_of in Hb. rewrite Ev in Hb. exact Hb. }
        rewrite G. cbn [t_rows with_rows]. rewrite <- E. change (e_id e) with (r_id (make_row e cid blob)) at 1.
        apply find_put_same.
      * rewrite G. cbn [t_rows with_rows]. apply find_put_other. cbn. auto.
Qed.

Lemma batch_effect ev s es s' : Forall emb_bits es -> upsert_batch I ev s es = (s', Ok tt) ->
  forall id, match last_with id es with
  | None => get_by_id I s' id = get_by_id I s id
  | Some e => exists v cid, e_vec e = Some v /\ target_collection (st_db I s) e cid /\
                get_by_id I s' id = Ok (seen_as (st_db I s) e cid v)
  end.
Proof.
  intros HF. unfold upsert_batch. destruct (st_closed I s) eqn:Ec; [discriminate|].
  destruct es as [|e0 es0]; [intros [= <-] id; reflexivity|].
  set (es := e0 :: es0) in *. clearbody es.
  destruct (negb (ev_ok ev 0)); [discriminate|].
  destruct (batch_rows ev (st_db I s) 1 es) as [d|x|] eqn:Eb; try discriminate.
  destruct (ev_ok ev (S (length es))); [|discriminate]. intros [= <-].
  apply batch_rows_spec in Eb as (C & D & X & G); auto. intros id. specialize (G id).
  destruct (last_with id es) as [e|].
  - destruct G as (v & cid & blob & G1 & G2 & G3 & G4 & G5 & G6). exists v, cid. split; auto. split; auto.
    unfold get_by_id. cbn [st_closed st_db with_ix with_db]. rewrite Ec, G6.
    rewrite (scan_make_row _ e cid v blob); auto. unfold seen_as, coll_name. rewrite C. reflexivity.
  - apply get_frame; auto.
Qed.

(** *** Deletions *)
Lemma existsb_row_is id rows : existsb (row_is id) rows = true <-> find (row_is id) rows <> None.
Proof.
  induction rows as [|r rows IH]; cbn; [split; [discriminate|congruence]|].
  destruct (row_is id r); cbn; [split; [congruence|auto]|exact IH].
Qed.

Lemma find_filter_gen (p : row -> bool) id rows : NoDup (map r_id rows) ->
  find (row_is id) (filter p rows) =
  match find (row_is id) rows with Some r => if p r then Some r else None | None => None end.
Proof.
  induction rows as [|r rows IH]; cbn; auto. intros H. inversion H as [|? ? Hn Hd]; subst.
  destruct (row_is id r) eqn:E.
  - destruct (p r); cbn; [rewrite E; reflexivity|].
    rewrite IH by auto. destruct (find (row_is id) rows) as [r'|] eqn:F; auto.
    apply find_some in F as [F1 F2]. apply row_is_true in E, F2. exfalso. apply Hn.
    rewrite E, <- F2. apply in_map. auto.
  - destruct (p r); cbn; [rewrite E|]; apply IH; auto.
Qed.

Lemma delete_exact_lemma ev s id : st_closed I s = false -> ev_ok ev 0 = true -> id <> "" ->
  (get_by_id I s id = Err ENotFound -> delete I ev s id = (s, Err ENotFound)) /\
  (get_by_id I s id <> Err ENotFound -> exists s', delete I ev s id = (s', Ok tt) /\
     get_by_id I s' id = Err ENotFound /\ forall id', id' <> id -> get_by_id I s' id' = get_by_id I s id').
Proof.
  intros Hc Ho Hid. unfold delete. rewrite Hc, Ho.
  destruct (String.eqb_spec id ""); [congruence|]. cbn [negb].
  assert (G : get_by_id I s id = Err ENotFound <-> existsb (row_is id) (t_rows (st_db I s)) = false).
  { unfold get_by_id. rewrite Hc. destruct (find (row_is id) (t_rows (st_db I s))) as [r|] eqn:F.
    - split.
      + unfold scan_get. destruct (decode_vector (r_blob r)) as [v|x|] eqn:D; cbn; intros Hx; try discriminate.
        injection Hx as ->. destruct (decode_total (r_blob r)) as [Ht|(xs & rest & enc & Ht & _)]; congruence.
      + intros Hx. destruct (existsb_row_is id (t_rows (st_db I s))) as [_ E]. rewrite E in Hx; [discriminate|congruence].
    - split; auto. intros _. destruct (existsb (row_is id) (t_rows (st_db I s))) eqn:E; auto.
      apply existsb_row_is in E. congruence. }
  split.
  - intros Hg. apply G in Hg. rewrite Hg. reflexivity.
  - intros Hg. destruct (existsb (row_is id) (t_rows (st_db I s))) eqn:E; [|exfalso; apply Hg, G; auto].
    eexists; split; [reflexivity|]. split.
    + unfold get_by_id. cbn [st_closed st_db with_ix with_db t_rows with_rows]. rewrite Hc, find_filter_same. reflexivity.
    + intros id' Hne. apply get_frame; auto. cbn [st_db with_ix with_db t_rows with_rows].
      apply find_filter_other. exact Hne.
Qed.

Lemma delete_nochange ev s id s' r : delete I ev s id = (s', r) -> r <> Ok tt -> s' = s.
Proof.
  unfold delete. destruct (st_closed I s); [intros [= <- <-]; auto|].
  destruct (String.eqb id ""); [intros [= <- <-]; auto|].
  destruct (negb (ev_ok ev 0)); [intros [= <- <-]; auto|].
  destruct (existsb _ _); intros [= <- <-]; auto; congruence.
Qed.

(** filtering rows: what a reader sees *)
Lemma get_filtered (s s' : store) (p : row -> bool) id :
  st_closed I s' = false -> st_closed I s = false ->
  t_colls (st_db I s') = t_colls (st_db I s) ->
  NoDup (map r_id (t_rows (st_db I s))) ->
  t_rows (st_db I s') = filter p (t_rows (st_db I s)) ->
  get_by_id I s' id = match find (row_is id) (t_rows (st_db I s)) with
                      | Some r => if p r then get_by_id I s id else Err ENotFound
                      | None => Err ENotFound end.
Proof.
  intros C1 C2 Hcol Hnd Hr. unfold get_by_id. rewrite C1, C2, Hr, find_filter_gen by auto.
  destruct (find (row_is id) (t_rows (st_db I s))) as [r|]; auto.
  destruct (p r); auto. unfold scan_get, coll_name. rewrite Hcol. reflexivity.
Qed.

Lemma chunks_fuel_concat {A} n : 0 < n -> forall fuel (l : list A), length l <= fuel -> concat (chunks_fuel fuel n l) = l.
Proof.
  intros Hn. induction fuel as [|f IH]; intros l Hl; cbn.
  - destruct l; cbn in *; auto; lia.
  - destruct l as [|a l]; auto. cbn [concat]. rewrite IH.
    + apply firstn_skipn.
    + rewrite skipn_length. cbn [length] in *. lia.
Qed.
Lemma select_rows_all (c : clause) rows : existsb (failing c) rows = false -> select_rows c rows = filter (selects c) rows.
Proof.
  induction rows as [|r rows IH]; cbn [existsb select_rows filter]; auto. intros H. apply orb_false_iff in H as [H1 H2].
  unfold failing in H1. unfold selects at 1. destruct (c r) as [[|]|]; [|auto|discriminate]. f_equal. auto.
Qed.
Lemma chunks_concat {A} n (l : list A) : 0 < n -> concat (chunks n l) = l.
Proof. intros H. apply chunks_fuel_concat; auto. Qed.
Lemma chunks_small {A} n (l : list A) : 0 < n -> length l <= n -> l <> [] -> chunks n l = [l].
Proof.
  intros Hn Hl Hne. unfold chunks. destruct l as [|a l]; [congruence|]. cbn [length chunks_fuel].
  rewrite firstn_all2 by auto. rewrite skipn_all2 by auto. destruct (length l); reflexivity.
Qed.

Lemma mem_app id a b : mem id (a ++ b) = mem id a || mem id b.
Proof. unfold mem. apply existsb_app. Qed.
Lemma mem_In id l : mem id l = true <-> In id l.
Proof.
  unfold mem. rewrite existsb_exists. split.
  - intros (x & Hx & E). apply String.eqb_eq in E. congruence.
  - intros H. exists id. split; auto. apply String.eqb_refl.
Qed.

Lemma delete_chunks_all ev cs : (forall n, ev_ok ev n = true) -> forall n rows cnt,
  exists k, delete_chunks ev n cs rows cnt =
    (filter (fun r => negb (mem (r_id r) (concat cs))) rows, cnt + k, true) /\
    (k = 0 <-> forall r, In r rows -> mem (r_id r) (concat cs) = false).
Proof.
  intros Hok. induction cs as [|c cs IH]; intros n rows cnt; cbn [delete_chunks concat].
  - exists 0. split; [|split; auto]. f_equal. f_equal; [|lia]. symmetry. apply filter_all. auto.
  - rewrite Hok. destruct (IH (S n) (filter (fun r => negb (mem (r_id r) c)) rows)
      (cnt + length (filter (fun r => mem (r_id r) c) rows))) as (k & E & K).
    exists (length (filter (fun r => mem (r_id r) c) rows) + k). rewrite E. split.
    + f_equal. f_equal; [|lia]. rewrite filter_filter. apply filter_ext. intros r.
      rewrite mem_app, negb_orb. reflexivity.
    + split.
      * intros Hk r Hr. rewrite mem_app. assert (L : length (filter (fun r => mem (r_id r) c) rows) = 0) by lia.
        apply length_zero_iff_nil in L.
        assert (M : mem (r_id r) c = false).
        { destruct (mem (r_id r) c) eqn:Em; auto. exfalso.
          assert (Hin : In r (filter (fun r => mem (r_id r) c) rows)) by (apply filter_In; auto). rewrite L in Hin. exact Hin. }
        rewrite M. cbn. apply (proj1 K ltac:(lia)). apply filter_In. rewrite M. auto.
      * intros Hr. rewrite (proj2 K); [|intros r Hin; apply filter_In in Hin as [Hin _]; specialize (Hr r Hin); rewrite mem_app in Hr; destruct (mem (r_id r) c), (mem (r_id r) (concat cs)); auto; discriminate].
        rewrite filter_none; auto. intros r Hin. specialize (Hr r Hin). rewrite mem_app in Hr.
        destruct (mem (r_id r) c); auto.
Qed.


Lemma find_none_iff id rows : find (row_is id) rows = None <-> forall r, In r rows -> r_id r <> id.
Proof.
  split.
  - intros F r Hr. apply row_is_false. eapply find_none; eauto.
  - induction rows as [|r rows IH]; cbn; auto. intros H.
    assert (E : row_is id r = false) by (apply row_is_false; auto). rewrite E. auto.
Qed.

Lemma get_notfound (s : store) id : st_closed I s = false ->
  (get_by_id I s id = Err ENotFound <-> find (row_is id) (t_rows (st_db I s)) = None).
Proof.
  intros Hc. unfold get_by_id. rewrite Hc. destruct (find (row_is id) (t_rows (st_db I s))) as [r|]; [|tauto].
  split; [|discriminate]. unfold scan_get.
  destruct (decode_total (r_blob r)) as [Ht|(xs & rest & enc & Ht & _)]; rewrite Ht; cbn; discriminate.
Qed.

Lemma delete_batch_exact_lemma ev s ids : st_closed I s = false -> (forall n, ev_ok ev n = true) ->
  NoDup (map r_id (t_rows (st_db I s))) ->
  exists s' r, delete_batch I ev s ids = (s', r) /\
   (forall id, get_by_id I s' id = if mem id (valid_ids ids) then Err ENotFound else get_by_id I s id) /\
   (r = Ok tt \/ r = Err ENotFound) /\
   (r = Err ENotFound <-> valid_ids ids <> [] /\ forall id, In id (valid_ids ids) -> get_by_id I s id = Err ENotFound).
Proof.
  intros Hc Hok Hnd. unfold delete_batch. rewrite Hc. fold (valid_ids ids).
  destruct (valid_ids ids) as [|i0 is0] eqn:Ev.
  - exists s, (Ok tt). split; auto. cbn. split; auto. split; auto. split; [discriminate|intros [? _]; congruence].
  - rewrite <- Ev. destruct (delete_chunks_all ev (chunks 500 (valid_ids ids)) Hok 0 (t_rows (st_db I s)) 0) as (k & E & K).
    rewrite chunks_concat in E, K by lia. rewrite E. cbn [negb]. rewrite Nat.add_0_l.
    assert (G : forall s', st_closed I s' = false -> st_db I s' = with_rows (st_db I s) (filter (fun r => negb (mem (r_id r) (valid_ids ids))) (t_rows (st_db I s))) ->
       forall id, get_by_id I s' id = if mem id (valid_ids ids) then Err ENotFound else get_by_id I s id).
    { intros s' C1 D1 id. rewrite (get_filtered s s' (fun r => negb (mem (r_id r) (valid_ids ids)))); auto; try (rewrite D1; reflexivity).
      destruct (find (row_is id) (t_rows (st_db I s))) as [r|] eqn:F.
      - apply find_some in F as [_ F]. apply row_is_true in F. rewrite F. destruct (mem id (valid_ids ids)); auto.
      - destruct (mem id (valid_ids ids)); auto. symmetry. apply get_notfound; auto. }
    destruct (Nat.eqb_spec k 0) as [Hk|Hk].
    + eexists _, _. split; [reflexivity|]. split; [apply G; auto|]. split; auto. split; auto. intros _.
      split; [congruence|]. intros id Hid. apply get_notfound; auto. apply find_none_iff. intros r Hr Heq.
      pose proof (proj1 K Hk r Hr) as Hm. rewrite Heq in Hm. apply mem_In in Hid. congruence.
    + eexists _, _. split; [reflexivity|]. split; [apply G; auto|]. split; auto. split; [discriminate|].
      intros [_ Hall]. exfalso. apply Hk. apply K. intros r Hr. destruct (mem (r_id r) (valid_ids ids)) eqn:Em; auto.
      apply mem_In in Em. apply Hall in Em. apply get_notfound in Em; auto. rewrite find_none_iff in Em. exfalso. eapply Em; eauto.
Qed.

(** Up to 500 valid ids, the batch is one statement. *)
Lemma delete_batch_atomic_small ev s ids s' r : length (valid_ids ids) <= 500 ->
  delete_batch I ev s ids = (s', r) -> r = Ok tt \/ st_db I s' = st_db I s /\ st_ix I s' = st_ix I s.
Proof.
  intros Hl. unfold delete_batch. destruct (st_closed I s); [intros [= <- <-]; auto|].
  fold (valid_ids ids). destruct (valid_ids ids) as [|i0 is0] eqn:Ev; [intros [= <- <-]; auto|].
  rewrite chunks_small by (auto; try lia; congruence). rewrite <- Ev. cbn [delete_chunks].
  destruct (ev_ok ev 0); cbn [negb].
  - rewrite Nat.add_0_l.
    destruct (Nat.eqb_spec (length (filter (fun r => mem (r_id r) (valid_ids ids)) (t_rows (st_db I s)))) 0) as [E|E].
    + intros [= <- <-]. right. cbn. split; auto. destruct (st_db I s) as [rows cs nx ds]; cbn in *. unfold with_rows. cbn. f_equal.
      apply filter_all. intros r0 Hr. apply length_zero_iff_nil in E.
      destruct (mem (r_id r0) (valid_ids ids)) eqn:Em; auto. exfalso.
      assert (Hin : In r0 (filter (fun r => mem (r_id r) (valid_ids ids)) rows)) by (apply filter_In; auto).
      rewrite E in Hin. exact Hin.
    + intros [= <- <-]. auto.
  - intros [= <- <-]. right. cbn. split; auto. destruct (st_db I s); reflexivity.
Qed.
End Store.
