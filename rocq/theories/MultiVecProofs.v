(** Proofs about multi-vector entities. *)
From Coq Require Import String Ascii List NArith ZArith Bool Permutation Sorted Lia.
From Verif Require Import Base Floats64 TopK EncodingModel EncodingSpec EncodingProofs DimensionModel StoreModel StoreSpec StoreProofs StoreInv SearchModel MultiVecModel MultiVecSpec StreamProofs.
Import ListNotations.
Open Scope string_scope.
Open Scope list_scope.

(** *** association lists *)
Lemma assoc_set_same {V} k (v : V) m : assoc k (set_key k v m) = Some v.
Proof. induction m as [|[k' v'] m IH]; cbn; [rewrite String.eqb_refl; auto|]. destruct (String.eqb k k') eqn:E; cbn; [rewrite String.eqb_refl; auto|rewrite E; auto]. Qed.
Lemma assoc_set_other {V} k k' (v : V) m : k <> k' -> assoc k (set_key k' v m) = assoc k m.
Proof.
  intros H. induction m as [|[k2 v2] m IH]; cbn.
  - destruct (String.eqb_spec k k'); congruence.
  - destruct (String.eqb_spec k' k2) as [->|H2]; cbn.
    + destruct (String.eqb_spec k k2); congruence.
    + destruct (String.eqb k k2); auto.
Qed.
Lemma assoc_set {V} k k' (v : V) m : assoc k (set_key k' v m) = if String.eqb k k' then Some v else assoc k m.
Proof. destruct (String.eqb_spec k k') as [->|H]; [apply assoc_set_same|apply assoc_set_other; auto]. Qed.
Lemma assoc_in {V} k (v : V) m : assoc k m = Some v -> In (k, v) m.
Proof. induction m as [|[k' v'] m IH]; cbn; [discriminate|]. destruct (String.eqb_spec k k') as [->|]; intros H; [left; congruence|right; auto]. Qed.
Lemma in_assoc {V} k (v : V) m : NoDup (map fst m) -> In (k, v) m -> assoc k m = Some v.
Proof.
  induction m as [|[k' v'] m IH]; cbn; [tauto|]. intros N. inversion N as [|? ? Hn N']; subst. intros [[= -> ->]|H]; [rewrite String.eqb_refl; auto|].
  destruct (String.eqb_spec k k') as [->|]; auto. exfalso. apply Hn. apply in_map_iff. exists (k', v). auto.
Qed.
Lemma assoc_none {V} k (m : list (string * V)) : assoc k m = None <-> ~ In k (map fst m).
Proof.
  induction m as [|[k' v'] m IH]; cbn; [tauto|]. destruct (String.eqb_spec k k') as [->|H]; [intuition discriminate|]. rewrite IH. intuition.
Qed.

(** *** composite ids *)
Lemma append_inj_l a : forall b c, append a b = append a c -> b = c.
Proof. induction a as [|x a IH]; cbn; intros b c H; auto. injection H as H. auto. Qed.
Lemma composite_field id f g : composite_id id f = composite_id id g -> f = g.
Proof. unfold composite_id. intros H. apply append_inj_l in H. apply append_inj_l in H. exact H. Qed.
Lemma composite_inj a : forall b f g, no_underscore a -> no_underscore b -> composite_id a f = composite_id b g -> a = b.
Proof.
  induction a as [|x a IH]; intros [|y b] f g Ha Hb H; auto.
  - cbn in H. injection H as H _. subst y. destruct Hb as [Hb _]. congruence.
  - cbn in H. injection H as H _. subst x. destruct Ha as [Ha _]. congruence.
  - cbn in H. injection H as -> H. f_equal. apply (IH b f g); [apply Ha|apply Hb|exact H].
Qed.

Section Multi.
Variable I : index_ops.

(** *** the transaction *)
Definition new_row (e : entity) (p : string * option (list N)) (r : row) : Prop :=
  exists blob, encode_vector (snd p) = Ok blob /\ r = field_row e (fst p) blob.
Lemma multi_rows_spec ev e : forall vs d i n d' i' x, NoDup (map fst vs) -> multi_rows I ev e d i n vs = (Some d', i', x) ->
  t_colls d' = t_colls d /\ t_docs d' = t_docs d /\ t_next d' = t_next d /\
  exists news, Forall2 (new_row e) vs news /\
    t_rows d' = filter (fun r => negb (mem (r_id r) (map (fun p => composite_id (m_id e) (fst p)) vs))) (t_rows d) ++ news.
Proof.
  induction vs as [|[f v] vs IH]; intros d i n d' i' x N H; cbn [multi_rows] in H.
  { injection H as <- <- <-. repeat (split; auto). exists []. split; [constructor|]. cbn. rewrite filter_all by auto. rewrite app_nil_r. reflexivity. }
  destruct (encode_vector v) as [blob| |] eqn:Ev; try discriminate. destruct (ev_ok ev n); [|discriminate].
  destruct (insert_row _ _ _) as [d1|] eqn:Ei; [|discriminate]. apply insert_row_db in Ei as ->. inversion N as [|? ? Hf N']; subst.
  apply IH in H as (A & B & C & news & F & E); auto. cbn [t_colls t_docs t_next with_rows t_rows] in *. repeat (split; [congruence|]).
  exists (field_row e f blob :: news). split; [constructor; auto; exists blob; auto|]. rewrite E. unfold put_row. rewrite filter_app, filter_filter.
  cbn [filter]. assert (Hm : mem (r_id (field_row e f blob)) (map (fun p => composite_id (m_id e) (fst p)) vs) = false).
  { destruct (mem _ _) eqn:Hm; auto. exfalso. apply mem_In in Hm. apply in_map_iff in Hm as ([g w] & Hg & Hi). cbn in Hg. apply composite_field in Hg. subst g. apply Hf. apply in_map_iff. exists (f, w). auto. }
  rewrite Hm. cbn [negb]. rewrite <- app_assoc. cbn [app]. f_equal. apply filter_ext. intros r. cbn [map mem existsb fst]. unfold row_is. cbn [r_id field_row].
  rewrite negb_orb. reflexivity.
Qed.
Lemma upsert_multi_inv ev s e s' : NoDup (map fst (m_vecs e)) -> upsert_multi I ev s e = (s', Ok tt) ->
  st_closed I s = false /\ st_closed I s' = false /\ t_colls (st_db I s') = t_colls (st_db I s) /\
  exists news, Forall2 (new_row e) (m_vecs e) news /\
    t_rows (st_db I s') = filter (fun r => negb (mem (r_id r) (map (fun p => composite_id (m_id e) (fst p)) (m_vecs e)))) (t_rows (st_db I s)) ++ news.
Proof.
  intros N H. unfold upsert_multi in H. destruct (st_closed I s) eqn:C; [discriminate|]. destruct (negb (ev_ok ev 0)); [discriminate|].
  destruct (multi_rows _ _ _ _ _ _ _) as [[[d|] i] x] eqn:E; [|discriminate]. destruct (ev_ok ev _); [|discriminate]. injection H as <-.
  apply multi_rows_spec in E as (A & _ & _ & news & F & R); auto. split; auto. split; auto. split; auto. exists news. auto.
Qed.
Lemma upsert_multi_fail ev s e s' r : upsert_multi I ev s e = (s', r) -> r <> Ok tt -> st_db I s' = st_db I s /\ st_closed I s' = st_closed I s.
Proof.
  unfold upsert_multi. destruct (st_closed I s) eqn:C; [intros [= <- <-]; auto|]. destruct (negb (ev_ok ev 0)); [intros [= <- <-]; auto|].
  destruct (multi_rows _ _ _ _ _ _ _) as [[[d|] i] x]; [|intros [= <- <-]; auto]. destruct (ev_ok ev _); intros [= <- <-]; auto. congruence.
Qed.

(** *** the invariant *)
Definition own (r : row) : Prop := forall m E, r_meta r = Some m -> assoc "_entity_id" m = Some E ->
  exists f, assoc "_vector_field" m = Some f /\ r_id r = composite_id E f.
Definition all_own (d : db) : Prop := forall r, In r (t_rows d) -> own r.

Lemma field_row_entity e f blob m : r_meta (field_row e f blob) = Some m -> assoc "_entity_id" m = Some (m_id e) /\ assoc "_vector_field" m = Some f.
Proof.
  cbn. intros [= <-]. unfold field_meta. split; [rewrite assoc_set_other by discriminate; apply assoc_set_same|apply assoc_set_same].
Qed.
Lemma field_row_own e f blob : own (field_row e f blob).
Proof. intros m E Hm HE. apply field_row_entity in Hm as [A B]. exists f. split; auto. rewrite A in HE. injection HE as <-. reflexivity. Qed.

Lemma multi_rows_own ev e : forall vs d i n d' i' x, all_own d -> multi_rows I ev e d i n vs = (Some d', i', x) -> all_own d'.
Proof.
  induction vs as [|[f v] vs IH]; intros d i n d' i' x Hd H; cbn [multi_rows] in H; [injection H as <- <- <-; auto|].
  destruct (encode_vector v) as [blob| |]; try discriminate. destruct (ev_ok ev n); [|discriminate].
  destruct (insert_row _ _ _) as [d1|] eqn:Ei; [|discriminate]. apply insert_row_db in Ei as ->. apply IH in H; auto.
  intros r Hr. cbn in Hr. apply put_row_in in Hr as [->|Hr]; [apply field_row_own|auto].
Qed.
Lemma batch_rows_from ev es : forall d n d' r, batch_rows ev d n es = Ok d' -> In r (t_rows d') ->
  In r (t_rows d) \/ exists e, In e es /\ r_meta r = e_meta e.
Proof.
  induction es as [|e es IH]; cbn [batch_rows]; intros d n d' r H Hr; [injection H as <-; auto|].
  destruct (resolve_coll d e); cbn [bind] in H; try discriminate. destruct (encode_vector (e_vec e)) as [blob| |]; cbn [bind] in H; try discriminate.
  destruct (ev_ok ev n); [|discriminate]. destruct (insert_row _ _ _) as [d1|] eqn:Ei; [|discriminate]. apply insert_row_db in Ei as ->.
  destruct (IH _ _ _ _ H Hr) as [A|(e' & A & B)]; [|right; exists e'; split; [right; auto|auto]].
  cbn in A. apply put_row_in in A as [->|A]; auto. right. exists e. split; [left; auto|reflexivity].
Qed.
Lemma step_rows_from ev s o r : In r (t_rows (st_db I (fst (step I ev s o)))) ->
  In r (t_rows (st_db I s)) \/ exists e, In e (upserted o) /\ r_meta r = e_meta e.
Proof.
  destruct o; cbn [step upserted].
  - destruct (upsert I ev s e) as [s' x] eqn:E. cbn [fst]. destruct x as [[]|x|].
    + apply upsert_inv in E as (v & cid & blob & _ & _ & _ & _ & D & _). rewrite D. cbn. intros H. apply put_row_in in H as [->|H]; auto. right. exists e. split; [left; auto|reflexivity].
    + apply upsert_fail in E as [E _]; [|discriminate]. rewrite E. auto.
    + apply upsert_fail in E as [E _]; [|discriminate]. rewrite E. auto.
  - unfold upsert_batch. destruct (st_closed I s); [auto|]. destruct es as [|e0 es0]; [auto|]. destruct (negb (ev_ok ev 0)); [auto|].
    destruct (batch_rows ev (st_db I s) 1 (e0 :: es0)) as [d|x|] eqn:Eb; [|auto..]. destruct (ev_ok ev _); [|auto]. cbn [fst st_db with_ix with_db].
    intros H. exact (batch_rows_from _ _ _ _ _ _ Eb H).
  - unfold delete. destruct (st_closed I s); [auto|]. destruct (String.eqb id ""); [auto|]. destruct (negb (ev_ok ev 0)); [auto|]. destruct (existsb _ _); [|auto].
    cbn. rewrite filter_In. tauto.
  - unfold delete_by_doc. destruct (st_closed I s); [auto|]. destruct (String.eqb doc ""); [auto|]. destruct (negb (ev_ok ev 0)); [auto|]. cbn. rewrite filter_In. tauto.
  - unfold delete_batch. destruct (st_closed I s); [auto|]. destruct (filter _ ids) as [|i0 is0]; [auto|].
    destruct (delete_chunks _ _ _ _ _) as [[rows cnt] b] eqn:E. apply delete_chunks_filter in E as (p & ->).
    destruct (negb b); [|destruct (Nat.eqb cnt 0)]; cbn; rewrite filter_In; tauto.
  - unfold delete_where. destruct (st_closed I s); [auto|]. destruct (negb (ev_ok ev 0)); [auto|]. destruct (map r_id _); [auto|]. destruct (_ || _); [auto|].
    cbn. rewrite filter_In. tauto.
  - unfold clear. destruct (st_closed I s); [auto|]. destruct (negb (ev_ok ev 0)); [auto|]. cbn. tauto.
  - unfold clear_by_docs. destruct (st_closed I s); [auto|]. destruct docs as [|x0 xs0]; [auto|]. destruct (negb (ev_ok ev 0)); [auto|].
    destruct (clear_docs_tx _ _ _ _) as [rows|] eqn:E; [|auto]. apply clear_docs_filter in E as ->. destruct (ev_ok ev 1); [|auto]. cbn [fst st_db with_db with_rows t_rows]. rewrite filter_In. tauto.
  - unfold create_collection. destruct (st_closed I s); [auto|]. destruct (find_coll _ _); [auto|]. destruct (Z.ltb dims 0); [auto|]. destruct (negb (ev_ok ev 0)); auto.
  - unfold delete_collection. destruct (st_closed I s); [auto|]. destruct (find_coll _ _) as [c|]; [|auto]. destruct (_ && _ && _); [|auto]. cbn. rewrite filter_In. tauto.
  - unfold create_document. destruct (st_closed I s); [auto|]. destruct (existsb _ _); [auto|]. destruct (negb (ev_ok ev 0)); auto.
  - unfold update_document. destruct (st_closed I s); [auto|]. destruct (negb (ev_ok ev 0)); [auto|]. destruct (existsb _ _); auto.
  - unfold delete_document. destruct (st_closed I s); [auto|]. destruct (ev_ok ev 0), (negb (ev_ok ev 1)); cbn; auto;
    destruct (_ && _); try rewrite filter_In; tauto.
  - auto.
Qed.
Lemma open_rows dim p d i s : open_store I dim p d i = Ok s -> t_rows (st_db I s) = t_rows d.
Proof. unfold open_store. destruct (Z.ltb dim 0); [discriminate|]. intros [= <-]. cbn. unfold init_db. destruct (existsb _ _); reflexivity. Qed.
Lemma mreach_own s : mreach I s -> all_own (st_db I s).
Proof.
  induction 1 as [dim p i s H|s ev o R IH P|s ev e R IH|s ev id R IH|s dim p i s' R IH H]; intros r Hr.
  - rewrite (open_rows _ _ _ _ _ H) in Hr. destruct Hr.
  - destruct (step_rows_from _ _ _ _ Hr) as [Hr'|(e & He & Hm)]; [exact (IH r Hr')|]. intros m E Hm' HE. rewrite Hm in Hm'. rewrite (P e m He Hm') in HE. discriminate.
  - destruct (upsert_multi I ev s e) as [s' x] eqn:E. cbn [fst] in Hr. unfold upsert_multi in E. destruct (st_closed I s); [injection E as <- <-; exact (IH r Hr)|].
    destruct (negb (ev_ok ev 0)); [injection E as <- <-; exact (IH r Hr)|].
    destruct (multi_rows _ _ _ _ _ _ _) as [[[d|] i] y] eqn:Em; [|injection E as <- <-; exact (IH r Hr)].
    destruct (ev_ok ev _); injection E as <- <-; [|exact (IH r Hr)]. exact (multi_rows_own _ _ _ _ _ _ _ _ _ IH Em r Hr).
  - unfold delete_multi in Hr. destruct (st_closed I s); [exact (IH r Hr)|]. destruct (negb (ev_ok ev 0)); [exact (IH r Hr)|]. destruct (negb (ev_ok ev 1)); [exact (IH r Hr)|].
    cbn in Hr. apply filter_In in Hr as [Hr _]. exact (IH r Hr).
  - rewrite (open_rows _ _ _ _ _ H) in Hr. exact (IH r Hr).
Qed.

(** *** reading *)
Definition upd (f : string) (acc : option (option (list N))) (r : row) : option (option (list N)) :=
  match decode_vector (r_blob r), r_meta r with
  | Ok v, Some m => match assoc "_vector_field" m with Some g => if String.eqb f g then Some (Some v) else acc | None => acc end
  | _, _ => acc
  end.
Lemma add_field_vec f e r : assoc f (m_vecs (add_field e r)) = upd f (assoc f (m_vecs e)) r.
Proof.
  unfold add_field, upd. destruct (decode_vector (r_blob r)); auto. destruct (r_meta r) as [m|]; auto. cbn [m_vecs].
  destruct (assoc "_vector_field" m); auto. apply assoc_set.
Qed.
Lemma fold_vec f rs : forall e, assoc f (m_vecs (fold_left add_field rs e)) = fold_left (upd f) rs (assoc f (m_vecs e)).
Proof. induction rs as [|r rs IH]; intros e; cbn; auto. rewrite IH, add_field_vec. reflexivity. Qed.
Definition vec_in (rs : list row) (f : string) : option (list N) :=
  match fold_left (upd f) rs None with Some v => v | None => None end.
Lemma entity_vector_spec s id f : st_closed I s = false ->
  entity_vector I s id f = vec_in (filter (of_entity id) (t_rows (st_db I s))) f.
Proof.
  intros C. unfold entity_vector, get_multi, vec_in. rewrite C. cbv zeta. set (e0 := {| m_id := id |}). set (rs := filter _ _).
  pose proof (fold_vec f rs e0) as H. cbn [m_vecs e0 assoc] in H. rewrite <- H. destruct (m_vecs (fold_left add_field rs e0)) eqn:E; [reflexivity|]. rewrite E. reflexivity.
Qed.
Lemma upd_skip f rs : (forall r m, In r rs -> r_meta r = Some m -> assoc "_vector_field" m <> Some f) -> forall a, fold_left (upd f) rs a = a.
Proof.
  induction rs as [|r rs IH]; intros H a; cbn; auto. rewrite IH; [|intros r0 m0 Hr0; apply (H r0 m0); right; exact Hr0]. unfold upd. destruct (decode_vector (r_blob r)); auto.
  destruct (r_meta r) as [m|] eqn:Em; auto. destruct (assoc "_vector_field" m) as [g|] eqn:Eg; auto. destruct (String.eqb_spec f g) as [->|]; auto. exfalso. eapply H; [left; reflexivity| |]; eauto.
Qed.
Lemma upd_filter f p rs : (forall r m, In r rs -> p r = false -> r_meta r = Some m -> assoc "_vector_field" m <> Some f) ->
  forall a, fold_left (upd f) (filter p rs) a = fold_left (upd f) rs a.
Proof.
  induction rs as [|r rs IH]; intros H a; cbn; auto. assert (H' : forall r m, In r rs -> p r = false -> r_meta r = Some m -> assoc "_vector_field" m <> Some f) by (intros r0 m0 Hr0; apply (H r0 m0); right; exact Hr0).
  destruct (p r) eqn:E; cbn; rewrite (IH H'); [reflexivity|].
  f_equal. symmetry. change (upd f a r) with (fold_left (upd f) [r] a). apply upd_skip. intros r0 m [<-|[]] Hm. apply (H r m); auto. left. auto.
Qed.
Lemma upd_news e f vs news : Forall2 (new_row e) vs news -> NoDup (map fst vs) -> (forall g v, In (g, Some v) vs -> float32_bits v) ->
  forall a, fold_left (upd f) news a = match assoc f vs with Some v => Some v | None => a end.
Proof.
  induction 1 as [|[g v] r vs news (blob & Hb & ->) F IH]; intros N W a; cbn [fold_left assoc]; auto.
  cbn in N. inversion N as [|? ? Hg N']; subst. rewrite IH; auto; [|intros; eapply W; right; eauto].
  cbn [snd fst] in Hb. destruct v as [v|]; [|discriminate]. assert (Hd : decode_vector blob = Ok v) by (apply encode_ok_decode; auto; eapply W; left; eauto).
  unfold upd. cbn [r_blob field_row fst r_meta]. rewrite Hd. pose proof (field_row_entity e g blob _ eq_refl) as [_ Ef]. rewrite Ef.
  destruct (String.eqb_spec f g) as [->|Hne]; auto.
  assert (assoc g vs = None) as -> by (apply assoc_none; auto). reflexivity.
Qed.
Lemma news_entity e id vs news : Forall2 (new_row e) vs news -> filter (of_entity id) news = if String.eqb (m_id e) id then news else [].
Proof.
  induction 1 as [|p r vs news (blob & _ & ->) F IH]; cbn [filter]; [destruct (String.eqb _ _); auto|].
  unfold of_entity at 1. destruct (r_meta (field_row e (fst p) blob)) as [m|] eqn:Em; [|discriminate]. pose proof (field_row_entity _ _ _ _ Em) as [-> _].
  rewrite IH. destruct (String.eqb (m_id e) id); auto.
Qed.
Lemma of_entity_iff id r : of_entity id r = true <-> exists m, r_meta r = Some m /\ assoc "_entity_id" m = Some id.
Proof.
  unfold of_entity. destruct (r_meta r) as [m|]; [|split; [discriminate|intros (m & ? & _); discriminate]].
  destruct (assoc "_entity_id" m) as [x|] eqn:E; [rewrite String.eqb_eq|]; split; try discriminate.
  - intros ->. exists m. auto.
  - intros (m' & [= <-] & H). congruence.
  - intros (m' & [= <-] & H). congruence.
Qed.

Lemma filter_comm {A} (p q : A -> bool) l : filter p (filter q l) = filter q (filter p l).
Proof. rewrite !filter_filter. apply filter_ext. intros x. apply andb_comm. Qed.

Lemma get_after_upsert_multi ev s e s' : mreach I s -> well_formed e -> upsert_multi I ev s e = (s', Ok tt) ->
  forall f, entity_vector I s' (m_id e) f = match assoc f (m_vecs e) with Some v => v | None => entity_vector I s (m_id e) f end.
Proof.
  intros R [N W] H f. destruct (upsert_multi_inv _ _ _ _ N H) as (C & C' & _ & news & F & E). rewrite !entity_vector_spec by auto. unfold vec_in.
  rewrite E, filter_app, fold_left_app, (news_entity _ _ _ _ F), String.eqb_refl, (upd_news _ _ _ _ F) by auto.
  destruct (assoc f (m_vecs e)) eqn:Ea; auto. rewrite filter_comm, upd_filter; auto.
  intros r m Hr Hm Hmeta Hf. apply filter_In in Hr as [Hr Ho]. apply of_entity_iff in Ho as (m' & Hm' & Hid). assert (m' = m) as -> by congruence.
  destruct (mreach_own s R r Hr m _ Hmeta Hid) as (g & Hg & Hrid). assert (g = f) as -> by congruence.
  apply negb_false_iff in Hm. apply mem_In in Hm. rewrite Hrid in Hm. apply in_map_iff in Hm as ([h w] & Hh & Hin). cbn in Hh. apply composite_field in Hh. subst h.
  apply assoc_none in Ea. apply Ea. apply in_map_iff. exists (f, w). auto.
Qed.
Lemma other_after_upsert_multi ev s e s' id : mreach I s -> NoDup (map fst (m_vecs e)) -> id <> m_id e ->
  (forall f g, In f (map fst (m_vecs e)) -> composite_id (m_id e) f <> composite_id id g) ->
  upsert_multi I ev s e = (s', Ok tt) -> get_multi I s' id = get_multi I s id.
Proof.
  intros R N Hne Hc H. destruct (upsert_multi_inv _ _ _ _ N H) as (C & C' & _ & news & F & E). unfold get_multi. rewrite C, C', E, filter_app, (news_entity _ _ _ _ F).
  destruct (String.eqb_spec (m_id e) id) as [|_]; [congruence|]. rewrite app_nil_r. rewrite filter_comm, (filter_all _ (filter (of_entity id) _)); auto.
  intros r Hr. apply filter_In in Hr as [Hr Ho]. apply of_entity_iff in Ho as (m & Hm & Hid). destruct (mreach_own s R r Hr m _ Hm Hid) as (g & _ & Hrid).
  apply negb_true_iff. destruct (mem _ _) eqn:Em; auto. exfalso. apply mem_In in Em. rewrite Hrid in Em. apply in_map_iff in Em as ([f w] & Hf & Hin). cbn in Hf.
  eapply Hc; eauto. apply in_map_iff. exists (f, w). auto.
Qed.

(** *** search *)
Definition hits_in (o : mvopts) (l : list (string * list scored)) : list hit := flat_map (fun p => flat_map (hit_of o (fst p)) (snd p)) l.
Lemma field_opts_restricted o f : restricted o f (field_opts o f).
Proof. unfold restricted, field_opts. cbn. repeat (split; [reflexivity|]). intros k. apply assoc_set. Qed.
Lemma collect_hits_spec srt noise m sc s o : forall qs hs, collect_hits I srt noise m sc s o qs = Ok hs ->
  exists l, field_results I srt noise m sc s o qs l /\ hs = hits_in o l.
Proof.
  induction qs as [|[f q] qs IH]; intros hs H; cbn [collect_hits] in H.
  { injection H as <-. exists []. split; [constructor|reflexivity]. }
  destruct ((match mv_fields o with [] => false | _ => true end) && negb (mem f (mv_fields o))) eqn:C.
  - apply andb_true_iff in C as [C1 C2]. apply IH in H as (l & F & ->). exists l. split; auto. apply fr_unwanted; auto; [intros E; rewrite E in C1; discriminate|].
    intros Hin. apply mem_In in Hin. rewrite Hin in C2. discriminate.
  - assert (W : mv_fields o = [] \/ In f (mv_fields o)). { destruct (mv_fields o) eqn:E; auto. right. apply mem_In. destruct (mem f _); auto. }
    destruct (search I srt noise m sc s q (field_opts (mv_opts o) f)) as [rs|x|] eqn:Es; [|apply IH in H as (l & F & ->); exists l; split; auto; eapply (fr_error _ _ _ _ _ _ _ f q qs l x (field_opts (mv_opts o) f)); auto using field_opts_restricted|discriminate].
    destruct (collect_hits I srt noise m sc s o qs) as [hs'|x|] eqn:Ec; cbn [bind] in H; try discriminate. injection H as <-.
    destruct (IH hs' eq_refl) as (l & F & ->). exists ((f, rs) :: l). split; [eapply (fr_found _ _ _ _ _ _ _ f q qs l rs (field_opts (mv_opts o) f)); auto using field_opts_restricted|reflexivity].
Qed.
Lemma hit_of_spec o f e x h : In h (hit_of o f (e, x)) -> belongs (h_entity h) e /\ h_emb h = e /\ h_score h = weighted o f x.
Proof.
  unfold hit_of, belongs. cbn [fst snd]. destruct (e_meta e) as [m|]; [|intros []]. destruct (assoc "_entity_id" m) as [id|] eqn:E; [|intros []].
  intros [<-|[]]. cbn. split; [eauto|]. auto.
Qed.
Lemma entity_scores_hits o id l : entity_scores o id l
  (map h_emb (filter (fun h => String.eqb (h_entity h) id) (hits_in o l))) (map h_score (filter (fun h => String.eqb (h_entity h) id) (hits_in o l))).
Proof.
  induction l as [|[f rs] l IH]; [constructor|]. unfold hits_in. cbn [flat_map fst snd]. fold (hits_in o l). rewrite filter_app, !map_app.
  induction rs as [|[e x] rs IHr]; [cbn; constructor; exact IH|]. cbn [flat_map]. rewrite filter_app, !map_app, <- !app_assoc.
  unfold hit_of at 1 3. cbn [fst snd]. destruct (e_meta e) as [m|] eqn:Em; [destruct (assoc "_entity_id" m) as [j|] eqn:Ej|].
  - cbn [filter h_entity]. destruct (String.eqb_spec j id) as [->|Hne]; cbn [map app].
    + apply es_take; [exists m; auto|exact IHr].
    + apply es_skip; [|exact IHr]. intros (m' & Hm' & Hj). congruence.
  - cbn. apply es_skip; [|exact IHr]. intros (m' & Hm' & Hj). congruence.
  - cbn. apply es_skip; [|exact IHr]. intros (m' & Hm' & Hj). congruence.
Qed.

Lemma fold_max l : forall x, In (fold_left (fun m y => if fgt y m then y else m) l x) (x :: l) /\
  ((forall y, In y (x :: l) -> not_nan y) -> forall y, In y (x :: l) -> flt (fold_left (fun m y => if fgt y m then y else m) l x) y = false).
Proof.
  induction l as [|z l IH]; intros x; cbn [fold_left].
  { split; [left; auto|]. intros _ y [<-|[]]. apply flt_irrefl. }
  destruct (IH (if fgt z x then z else x)) as [A B]. set (M := fold_left _ l _) in *. split.
  - destruct A as [A|A]; [destruct (fgt z x); rewrite <- A; cbn; auto|]. right. right. exact A.
  - intros Hn. assert (Hn' : forall y, In y ((if fgt z x then z else x) :: l) -> not_nan y). { intros y [<-|Hy]; [destruct (fgt z x)|]; apply Hn; cbn; auto. }
    specialize (B Hn'). assert (HM : not_nan M) by (apply Hn'; exact A).
    assert (Hx : flt M (if fgt z x then z else x) = false) by (apply B; left; auto).
    assert (nx : not_nan x) by (apply Hn; cbn; auto). assert (nz : not_nan z) by (apply Hn; cbn; auto).
    intros y [<-|[<-|Hy]]; [| |apply B; right; auto].
    + destruct (fgt z x) eqn:E; auto. change (flt x z = true) in E. apply (flt_ntrans x z M); auto. apply flt_asym. auto.
    + destruct (fgt z x) eqn:E; auto. change (flt x z = false) in E. apply (flt_ntrans z x M); auto.
Qed.
Lemma fold_min l : forall x, In (fold_left (fun m y => if flt y m then y else m) l x) (x :: l) /\
  ((forall y, In y (x :: l) -> not_nan y) -> forall y, In y (x :: l) -> flt y (fold_left (fun m y => if flt y m then y else m) l x) = false).
Proof.
  induction l as [|z l IH]; intros x; cbn [fold_left].
  { split; [left; auto|]. intros _ y [<-|[]]. apply flt_irrefl. }
  destruct (IH (if flt z x then z else x)) as [A B]. set (M := fold_left _ l _) in *. split.
  - destruct A as [A|A]; [destruct (flt z x); rewrite <- A; cbn; auto|]. right. right. exact A.
  - intros Hn. assert (Hn' : forall y, In y ((if flt z x then z else x) :: l) -> not_nan y). { intros y [<-|Hy]; [destruct (flt z x)|]; apply Hn; cbn; auto. }
    specialize (B Hn'). assert (HM : not_nan M) by (apply Hn'; exact A).
    assert (Hx : flt (if flt z x then z else x) M = false) by (apply B; left; auto).
    assert (nx : not_nan x) by (apply Hn; cbn; auto). assert (nz : not_nan z) by (apply Hn; cbn; auto).
    intros y [<-|[<-|Hy]]; [| |apply B; right; auto].
    + destruct (flt z x) eqn:E; auto. apply (flt_ntrans M z x); auto. apply flt_asym. auto.
    + destruct (flt z x) eqn:E; auto. apply (flt_ntrans M x z); auto.
Qed.
Lemma aggregate_spec a xs : xs <> [] -> combined a xs (aggregate a xs).
Proof.
  destruct xs as [|x l]; [congruence|]. intros _. destruct a; cbn [aggregate combined]; auto; [apply fold_max|apply fold_min].
Qed.

Lemma hits_found o l id : In id (map h_entity (hits_in o l)) <-> found l id.
Proof.
  unfold hits_in, found. rewrite in_map_iff. split.
  - intros (h & <- & H). apply in_flat_map in H as ([f rs] & Hf & H). apply in_flat_map in H as ([e x] & Hx & H). apply hit_of_spec in H as (B & _). exists f, rs, (e, x). auto.
  - intros (f & rs & [e x] & Hf & Hx & (m & Hm & Hj)). cbn in Hm. assert (H : exists h, In h (hit_of o f (e, x)) /\ h_entity h = id).
    { unfold hit_of. cbn [fst snd]. rewrite Hm, Hj. eexists. split; [left; reflexivity|reflexivity]. }
    destruct H as (h & Hh & <-). exists h. split; auto. apply in_flat_map. exists (f, rs). split; auto. apply in_flat_map. exists (e, x). auto.
Qed.
Lemma entity_result_ids o hs id x : In x (entity_result o hs id) -> e_id (fst x) = id.
Proof. unfold entity_result. destruct (filter _ _); [intros []|]. intros [<-|[]]. reflexivity. Qed.
Lemma entity_result_len o hs id : In id (map h_entity hs) -> exists x, entity_result o hs id = [x].
Proof.
  intros H. apply in_map_iff in H as (h & <- & H). unfold entity_result. destruct (filter _ _) eqn:E; [|eexists; reflexivity].
  assert (In h []) as []. rewrite <- E. apply filter_In. split; auto. apply String.eqb_refl.
Qed.
Lemma entity_result_answer o l id x : In x (entity_result o (hits_in o l) id) -> entity_answer o l id x.
Proof.
  unfold entity_result, entity_answer. pose proof (entity_scores_hits o id l) as H. destruct (filter _ _) as [|h hs]; [intros []|]. intros [<-|[]].
  cbn [map] in H. exists (h_emb h), (map h_emb hs), (h_score h :: map h_score hs), (aggregate (mv_agg o) (h_score h :: map h_score hs)). split; [exact H|].
  split; [apply aggregate_spec; discriminate|]. cbn. repeat (split; [reflexivity|]). reflexivity.
Qed.
Lemma search_multi_lemma srt order noise m sc s qs o out : (forall l, Permutation (order l) l) ->
  search_multi I srt order noise m sc s qs o = Ok out ->
  exists l all, field_results I srt noise m sc s o qs l /\
    NoDup (map (fun x => e_id (fst x)) all) /\ (forall id, In id (map (fun x => e_id (fst x)) all) <-> found l id) /\
    (forall x, In x all -> entity_answer o l (e_id (fst x)) x) /\
    out = let sorted := ex_sort by_score all in if (0 <? o_topk (mv_opts o))%Z then firstn (Z.to_nat (o_topk (mv_opts o))) sorted else sorted.
Proof.
  intros Ho H. unfold search_multi in H. destruct (st_closed I s); [discriminate|].
  destruct (collect_hits I srt noise m sc s o qs) as [hs|x|] eqn:Ec; cbn [bind] in H; try discriminate. cbv zeta in H. injection H as H.
  apply collect_hits_spec in Ec as (l & F & ->). set (ids := order (nodup string_dec (map h_entity (hits_in o l)))) in *.
  assert (Hid : forall id, In id ids <-> In id (map h_entity (hits_in o l))).
  { intros id. unfold ids. split; intros H'; [apply (nodup_In string_dec); eapply Permutation_in; [apply Ho|]; exact H'|].
    eapply Permutation_in; [apply Permutation_sym, Ho|]. apply nodup_In. exact H'. }
  assert (Hnd : NoDup ids). { eapply Permutation_NoDup; [apply Permutation_sym, Ho|]. apply NoDup_nodup. }
  assert (Hm : map (fun x => e_id (fst x)) (flat_map (entity_result o (hits_in o l)) ids) = ids).
  { assert (Hs : forall id, In id ids -> In id (map h_entity (hits_in o l))) by (intros id; apply Hid). clear -Hs. induction ids as [|id ids IH]; cbn; auto.
    destruct (entity_result_len o (hits_in o l) id) as (x & E); [apply Hs; left; auto|]. pose proof (entity_result_ids o (hits_in o l) id x) as Hx. rewrite E in *. cbn. rewrite IH by (intros; apply Hs; right; auto). rewrite Hx by (left; auto). reflexivity. }
  exists l, (flat_map (entity_result o (hits_in o l)) ids). split; auto. rewrite Hm. split; auto. split; [intros id; rewrite Hid; apply hits_found|]. split.
  - intros x Hx. apply in_flat_map in Hx as (id & Hi & Hx). rewrite (entity_result_ids _ _ _ _ Hx). apply entity_result_answer; auto.
  - rewrite <- H. cbv zeta. set (sorted := ex_sort _ _). destruct (Z.ltb_spec 0 (o_topk (mv_opts o))) as [E|E]; auto. cbn [andb].
    destruct (Z.ltb_spec (o_topk (mv_opts o)) (Z.of_nat (length sorted))) as [E2|E2]; auto.
    rewrite firstn_all2; auto. lia.
Qed.
End Multi.
