(** Lemmas about Dump and Load. *)
From Coq Require Import String List NArith ZArith Bool Lia Permutation.
From Verif Require Import Base Floats64 EncodingModel EncodingSpec EncodingProofs StoreModel StoreSpec StoreProofs StoreInv StoreProofs2 StoreProofs3 SearchModel SearchSpec SearchProofs
  SqlModel FilterModel FilterSpec FilterProofs FilterProofs2 IoModel IoSpec.
Import ListNotations.
Open Scope string_scope.
Open Scope list_scope.

Section P.
Variable I : index_ops.
Notation store := (store I).

(** *** Dump *)
Lemma dump_rows_exact Nm (s : store) envs f : reachable I envs s -> st_closed I s = false -> filter_plain I Nm s f ->
  exists p, dump_rows Nm (st_db I s) f = Ok (filter p (t_rows (st_db I s))) /\
  forall r e0, In r (t_rows (st_db I s)) -> scan_get true (st_db I s) r = Ok e0 -> (p r = true <-> chosen Nm f e0).
Proof.
  intros R C Hf. destruct f as [f|]; cbn [dump_rows chosen].
  2: { exists (fun _ => true). rewrite filter_all by auto. split; [reflexivity|]. tauto. }
  destruct Hf as (Hcast & (m0 & Hm0) & Hx).
  destruct (sql_meaning Nm "" (make_row {| e_id := ""; e_collid := 0; e_coll := ""; e_vec := None; e_content := ""; e_doc := ""; e_meta := Some m0; e_acl := [] |} 0 []) m0 eq_refl Hcast f Hm0)
    as (t & B & Ne & _). rewrite B. destruct t as [|l t]; [congruence|]. cbn [bind]. set (c := clause_of Nm (st_db I s) (l :: t)).
  assert (Hc : forall r, In r (t_rows (st_db I s)) -> exists m, r_meta r = Some m /\ failing c r = false /\ (selects c r = true <-> satisfies Nm f m)).
  { intros r Hr. destruct (row_of_get I s envs r R C Hr) as (e & Hg & He & _). destruct (Hx _ _ Hg) as (m & Hm & Hex). exists m.
    assert (Hm' : r_meta r = Some m) by congruence. split; [exact Hm'|].
    destruct (sql_meaning Nm (coll_name (st_db I s) (r_coll r)) r m Hm' Hcast f Hex) as (t' & B' & _ & NE & T). assert (t' = l :: t) as -> by congruence.
    unfold failing, selects, c, clause_of. destruct (eval_text _ _ _ _); try (split; [reflexivity|]; rewrite <- T; split; congruence). congruence. }
  exists (selects c). replace (existsb (failing c) (t_rows (st_db I s))) with false.
  2: { symmetry. apply not_true_iff_false. intros H. apply existsb_exists in H as (r & Hr & H). destruct (Hc r Hr) as (m & _ & F & _). congruence. }
  split; [reflexivity|]. intros r e0 Hr S. destruct (Hc r Hr) as (m & Hm & _ & T). rewrite T.
  assert (Em : e_meta e0 = Some m). { unfold scan_get in S. destruct (decode_vector _); try discriminate. cbn [bind] in S. injection S as <-. exact Hm. }
  split; [intros H; exists m; auto|]. intros (m' & Hm' & H). congruence.
Qed.

Lemma oks_perm {A B} (f : A -> outcome B) l l' : Permutation l l' -> Permutation (oks (map f l)) (oks (map f l')).
Proof. intros P. unfold oks. apply Permutation_flat_map, Permutation_map, P. Qed.

Lemma all_embeddings_exact Nm scan (s : store) envs o : reachable I envs s -> st_closed I s = false -> filter_plain I Nm s (do_filter o) ->
  (forall l, Permutation l (scan l)) ->
  exists es, all_embeddings Nm scan (st_db I s) o = Ok es /\ NoDup (map e_id es) /\
  forall x, In x es <-> exists e0, get_by_id I s (e_id x) = Ok e0 /\ chosen Nm (do_filter o) e0 /\ x = drop_vector (do_vectors o) (without_acl e0).
Proof.
  intros R C Hf Hs. destruct (dump_rows_exact Nm s envs (do_filter o) R C Hf) as (p & E & Hp). unfold all_embeddings. rewrite E. cbn [bind].
  eexists. split; [reflexivity|].
  destruct (scanned_where I s p (chosen Nm (do_filter o)) (fun _ => f_zero) C (reachable_uniq I envs s R) Hp) as [W1 W2].
  set (rows := filter p (t_rows (st_db I s))) in *.
  assert (P : Permutation (oks (map (scan_search (st_db I s)) rows)) (oks (map (scan_search (st_db I s)) (scan rows)))) by (apply oks_perm, Hs).
  rewrite !map_map in *. cbn [fst] in W1. split.
  - replace (map (fun x => e_id (drop_vector (do_vectors o) x)) (oks (map (scan_search (st_db I s)) (scan rows)))) with (map e_id (oks (map (scan_search (st_db I s)) (scan rows)))) by reflexivity.
    eapply Permutation_NoDup; [apply Permutation_map, P|]. exact W1.
  - intros x. rewrite in_map_iff. split.
    + intros (e & <- & He). apply (Permutation_in _ (Permutation_sym P)) in He.
      destruct (proj1 (W2 e f_zero)) as (e0 & G & Ee & Ch & _); [apply in_map_iff; exists e; auto|]. exists e0. subst e. cbn [drop_vector e_id without_acl] in *. auto.
    + intros (e0 & G & Ch & ->). exists (without_acl e0). split; [reflexivity|]. apply (Permutation_in _ P).
      assert (H : In (without_acl e0, f_zero) (map (fun e => (e, f_zero)) (oks (map (scan_search (st_db I s)) rows)))) by (apply W2; exists e0; auto).
      apply in_map_iff in H as (e & [= ->] & He). exact He.
Qed.

Lemma json_exported utf8 keep e0 : valid_texts utf8 e0 -> e_collid e0 = 0%Z -> json_embedding utf8 (drop_vector keep (without_acl e0)) = exported keep e0.
Proof.
  intros (H1 & H2 & H3 & H4 & H5) Hc. unfold json_embedding, drop_vector, without_acl, exported. cbn [e_id e_collid e_coll e_vec e_content e_doc e_meta e_acl map].
  rewrite H1, H2, H3, H4, Hc. f_equal. unfold json_meta. destruct (e_meta e0) as [[|kv m]|] eqn:Em; auto. f_equal.
  transitivity (map (fun x => x) (kv :: m)); [|apply map_id]. apply map_ext_in. intros [k x] Hin. destruct (H5 _ k x eq_refl Hin) as [A B]. cbn [fst snd]. rewrite A, B. reflexivity.
Qed.
Lemma get_collid (s : store) id e : get_by_id I s id = Ok e -> e_collid e = 0%Z /\ e_id e = id.
Proof.
  intros H. pose proof (get_ok_inv I s id e H) as (r & _ & F & S & _ & _ & E & _). unfold scan_get in S. destruct (decode_vector _); try discriminate. cbn [bind] in S. injection S as <-. auto.
Qed.

(** *** Load: counters *)
Lemma tally_sum f t : f <> Crashed -> im_total (tally f t) + im_failed (tally f t) + im_skipped (tally f t) = S (im_total t + im_failed t + im_skipped t).
Proof. destruct f; cbn; intros H; try lia. congruence. Qed.
Lemma load_items_sum evs o items : forall n s t s' t', load_items I evs o n s t items = (s', Ok t') ->
  im_total t' + im_failed t' + im_skipped t' = length items + (im_total t + im_failed t + im_skipped t).
Proof.
  induction items as [|[e|] items IH]; intros n s t s' t' H; cbn [load_items] in H; [injection H as <- <-; reflexivity| |discriminate].
  destruct (import_one I evs o n s e) as [s1 f]. destruct f; try discriminate; apply IH in H; cbn [tally im_total im_failed im_skipped] in H; cbn [length]; lia.
Qed.
Lemma rounds_done evs o e k : (forall s t, rounds I evs o e k (Finished I s t) = Finished I s t) /\ (forall s, rounds I evs o e k (Dead I s) = Dead I s).
Proof. split; induction k as [|k IH]; intros; cbn; auto. Qed.
Lemma rounds_app evs o e k j : forall p, rounds I evs o e (k + j) p = rounds I evs o e j (rounds I evs o e k p).
Proof. induction k as [|k IH]; intros p; cbn; auto. Qed.
Lemma rounds_sum evs o e k : forall l n s t s' t', rounds I evs o e k (Running I l n s t) = Finished I s' t' ->
  im_total t' + im_failed t' + im_skipped t' = length l + (im_total t + im_failed t + im_skipped t).
Proof.
  induction k as [|k IH]; intros l n s t s' t'; [discriminate|]. cbn [rounds]. destruct l as [|[x|] l]; cbn [jsonl_round].
  - destruct e; [rewrite (proj1 (rounds_done evs o JEof k)); intros [= <- <-]; reflexivity|]. intros H.
    exfalso. clear - H. assert (K : forall k n t, rounds I evs o JBroken k (Running I [] n s t) <> Finished I s' t').
    { clear. induction k as [|k IH]; intros n t; cbn; [discriminate|apply IH]. } eapply K; eauto.
  - destruct (import_one I evs o n s x) as [s1 f]. destruct f; try (intros H; apply IH in H; cbn [tally im_total im_failed im_skipped] in H; cbn [length]; lia).
    rewrite (proj2 (rounds_done evs o e k)). discriminate.
  - intros H. apply IH in H. cbn [tally im_total im_failed im_skipped] in H. cbn [length]. lia.
Qed.
(** *** Load: termination *)
Lemma rounds_broken evs o k : forall l n s t, (exists rest n' s' t', rounds I evs o JBroken k (Running I l n s t) = Running I rest n' s' t') \/
  (exists s', rounds I evs o JBroken k (Running I l n s t) = Dead I s').
Proof.
  induction k as [|k IH]; intros l n s t; [left; do 4 eexists; reflexivity|]. cbn [rounds]. destruct l as [|[x|] l]; cbn [jsonl_round]; auto.
  destruct (import_one I evs o n s x) as [s1 f]. destruct f; auto. right. exists s1. apply (proj2 (rounds_done evs o JBroken k)).
Qed.
Lemma rounds_eof evs o l : forall k n s t, length l < k -> (exists s' t', rounds I evs o JEof k (Running I l n s t) = Finished I s' t') \/
  (exists s', rounds I evs o JEof k (Running I l n s t) = Dead I s').
Proof.
  induction l as [|[x|] l IH]; intros [|k] n s t H; cbn [length] in H; try lia; cbn [rounds jsonl_round].
  - left. exists s, t. apply (proj1 (rounds_done evs o JEof k)).
  - destruct (import_one I evs o n s x) as [s1 f]. destruct f; try (apply IH; lia). right. exists s1. apply (proj2 (rounds_done evs o JEof k)).
  - apply IH. lia.
Qed.
Lemma adapt_no_panic noise p v t : (0 <= t)%Z -> DimensionModel.adapt_vector noise p v (Z.of_nat (length v)) t <> Panic.
Proof.
  intros Ht. unfold DimensionModel.adapt_vector, DimensionModel.smart_adapt, DimensionModel.truncate_with_importance, DimensionModel.pad_with_noise, DimensionModel.truncate_vector, DimensionModel.pad_vector, DimensionModel.make_zeros.
  destruct (Z.ltb_spec t 0); [lia|]. destruct (negb _); [discriminate|]. destruct (Z.eqb _ _); [discriminate|].
  destruct p; try discriminate; repeat match goal with |- context [if ?c then _ else _] => destruct c end; discriminate.
Qed.
(** Upsert does not panic on a store whose dimension is not negative. *)
Lemma upsert_no_panic ev (s : store) e : (0 <= st_dim I s)%Z -> snd (upsert I ev s e) <> Panic.
Proof.
  intros Hd. unfold upsert. destruct (st_closed I s); [discriminate|].
  set (s1 := if Z.eqb (st_dim I s) 0 then with_dim I s (Z.of_nat (length (vec_of e))) else s).
  assert (D1 : (0 <= st_dim I s1)%Z) by (unfold s1; destruct (Z.eqb_spec (st_dim I s) 0); cbn; lia). clearbody s1.
  assert (A : (if Z.eqb (Z.of_nat (length (vec_of e))) (st_dim I s1) then Ok (e_vec e)
         else bind (adapt_bits (ev_noise ev) (st_policy I s1) (vec_of e) (st_dim I s1)) (fun w => Ok (Some w))) <> Panic).
  { destruct (Z.eqb _ _); [discriminate|]. unfold adapt_bits. pose proof (adapt_no_panic (ev_noise ev) (st_policy I s1) (map f32_of_bits (vec_of e)) (st_dim I s1) D1) as K. rewrite map_length in K.
    destruct (DimensionModel.adapt_vector _ _ _ _ _); cbn [bind]; try discriminate. congruence. }
  destruct (if Z.eqb _ _ then _ else _) as [v| |]; [|discriminate|congruence].
  assert (B : resolve_coll (st_db I s1) e <> Panic). { unfold resolve_coll. destruct (Z.eqb _ _); [|discriminate]. destruct (String.eqb _ _); [discriminate|]. destruct (find_coll _ _); discriminate. }
  destruct (resolve_coll _ _); [|discriminate|congruence].
  assert (D : encode_vector v <> Panic). { unfold encode_vector. destruct v; [|discriminate]. destruct (N.ltb _ _); discriminate. }
  destruct (encode_vector v); [|discriminate|congruence]. destruct (if ev_ok ev 0 then _ else _); discriminate.
Qed.
Lemma upsert_dim ev (s : store) e : (0 <= st_dim I s)%Z -> (0 <= st_dim I (fst (upsert I ev s e)))%Z.
Proof.
  intros Hd. unfold upsert. destruct (st_closed I s); [exact Hd|].
  set (s1 := if Z.eqb (st_dim I s) 0 then with_dim I s (Z.of_nat (length (vec_of e))) else s).
  assert (D1 : (0 <= st_dim I s1)%Z) by (unfold s1; destruct (Z.eqb_spec (st_dim I s) 0); cbn; lia). clearbody s1.
  destruct (if Z.eqb _ _ then _ else _); [|exact D1..]. destruct (resolve_coll _ _); [|exact D1..]. destruct (encode_vector _); [|exact D1..].
  destruct (if ev_ok ev 0 then _ else _); exact D1.
Qed.
Lemma import_one_fate evs o n s e : (0 <= st_dim I s)%Z -> (0 <= st_dim I (fst (import_one I evs o n s e)))%Z /\ snd (import_one I evs o n s e) <> Crashed.
Proof.
  intros Hd. unfold import_one. destruct (_ && _); [cbn; split; [auto|discriminate]|]. pose proof (upsert_no_panic (evs n) s e Hd) as A. pose proof (upsert_dim (evs n) s e Hd) as B.
  destruct (upsert I (evs n) s e) as [s1 [u| |]]; cbn [fst snd] in *; (split; [auto|discriminate || congruence]).
Qed.

(** *** Load: effect *)
Lemma upsert_restores ev (s : store) e v dim : st_closed I s = false -> ev_ok ev 0 = true -> NoDup (map c_id (t_colls (st_db I s))) -> NoDup (map c_name (t_colls (st_db I s))) ->
  e_collid e = 0%Z -> e_coll e <> "" -> e_acl e = [] -> e_vec e = Some v -> float32_bits v -> (N.of_nat (length v) <= 2^31 - 1)%N -> length v = dim ->
  (st_dim I s = 0%Z \/ st_dim I s = Z.of_nat dim) ->
  (exists c, In c (t_colls (st_db I s)) /\ c_name c = e_coll e) -> (e_doc e = "" \/ In (e_doc e) (map d_id (t_docs (st_db I s)))) ->
  exists s', upsert I ev s e = (s', Ok tt) /\ st_closed I s' = false /\ t_colls (st_db I s') = t_colls (st_db I s) /\ t_docs (st_db I s') = t_docs (st_db I s) /\
    (st_dim I s' = 0%Z \/ st_dim I s' = Z.of_nat dim) /\ get_by_id I s' (e_id e) = Ok e /\ forall id, id <> e_id e -> get_by_id I s' id = get_by_id I s id.
Proof.
  intros C Ho N1 N2 Hc Hn Ha Hv Hb Hl Hd Hs (c & Hin & Ec) Hdoc.
  destruct (upsert_accepts_lemma I ev s e C Ho) as (s' & U).
  { split; [exists v; auto|]. split; [|exact Hdoc]. exists (c_id c). split; [|apply in_map; exact Hin]. right. right. split; auto. split; auto. exists c. auto. }
  { unfold vec_of. rewrite Hv. rewrite Hd. exact Hs. }
  exists s'. split; [exact U|]. pose proof (upsert_inv I ev s e s' U) as (w & cid & blob & _ & _ & _ & _ & Db & _ & C' & _ & Dm & _).
  split; [exact C'|]. rewrite Db. split; [reflexivity|]. split; [reflexivity|]. split.
  { rewrite Dm. destruct (Z.eqb_spec (st_dim I s) 0); [|tauto]. right. unfold vec_of. rewrite Hv. congruence. }
  assert (Hbits : emb_bits e) by (unfold emb_bits, vec_of; rewrite Hv; exact Hb).
  destruct (get_after_upsert_lemma I ev s e s' Hbits U) as (v' & cid' & T & Sv & G & F). split; [|exact F]. rewrite G. f_equal.
  assert (v' = v) as ->. { destruct Sv as [[E _]|(H1 & H2 & _)]; [congruence|]. exfalso. unfold vec_of in H2. rewrite Hv in H2. rewrite Hd in H2. tauto. }
  assert (cid' = c_id c) as ->.
  { destruct T as [[X _]|[(_ & X & _)|(_ & _ & c' & Hin' & En & <-)]]; try congruence. f_equal. apply (NoDup_map_eq c_name _ _ _ N2 Hin' Hin). congruence. }
  unfold seen_as, coll_name. destruct (find (fun c0 => Z.eqb (c_id c0) (c_id c)) (t_colls (st_db I s))) as [c'|] eqn:Fc.
  - apply find_some in Fc as [Hin' Ei]. apply Z.eqb_eq in Ei. assert (c' = c) as -> by (apply (NoDup_map_eq c_id _ _ _ N1 Hin' Hin); auto).
    rewrite Ec. destruct e; cbn in *. subst. reflexivity.
  - pose proof (find_none _ _ Fc c Hin) as X. cbn in X. rewrite Z.eqb_refl in X. discriminate.
Qed.

Lemma load_restores evs o dim es : (forall n, ev_ok (evs n) 0 = true) -> NoDup (map e_id es) ->
  forall n (s : store) t, st_closed I s = false -> NoDup (map c_id (t_colls (st_db I s))) -> NoDup (map c_name (t_colls (st_db I s))) ->
  (st_dim I s = 0%Z \/ st_dim I s = Z.of_nat dim) ->
  (forall e, In e es -> e_collid e = 0%Z /\ e_coll e <> "" /\ e_acl e = [] /\ (exists v, e_vec e = Some v /\ float32_bits v /\ (N.of_nat (length v) <= 2^31 - 1)%N /\ length v = dim) /\
     (exists c, In c (t_colls (st_db I s)) /\ c_name c = e_coll e) /\ (e_doc e = "" \/ In (e_doc e) (map d_id (t_docs (st_db I s))))) ->
  (forall e, In e es -> get_by_id I s (e_id e) = Err ENotFound) ->
  exists s', load_items I evs o n s t (map Some es) = (s', Ok {| im_total := length es + im_total t; im_failed := im_failed t; im_skipped := im_skipped t |}) /\
    (forall e, In e es -> get_by_id I s' (e_id e) = Ok e) /\ (forall id, ~ In id (map e_id es) -> get_by_id I s' id = get_by_id I s id).
Proof.
  intros Ho. induction es as [|e es IH]; intros Hn n s t C N1 N2 Hd Hes Hno.
  { exists s. cbn [map load_items length Nat.add]. split; [destruct t; reflexivity|]. split; [intros e []|auto]. }
  cbn [map] in Hn. inversion Hn as [|? ? Hni Hn']; subst.
  destruct (Hes e (or_introl eq_refl)) as (H1 & H2 & H3 & (v & H4 & H5 & H6 & H7) & H8 & H9).
  destruct (upsert_restores (evs n) s e v dim C (Ho n) N1 N2 H1 H2 H3 H4 H5 H6 H7 Hd H8 H9) as (s1 & U & C1 & K1 & K2 & Hd1 & G & F).
  destruct (IH Hn' (S n) s1 (tally Stored t) C1) as (s' & L & A & B).
  - rewrite K1. exact N1.
  - rewrite K1. exact N2.
  - exact Hd1.
  - intros x Hx. rewrite K1, K2. apply Hes. right. exact Hx.
  - intros x Hx. rewrite F; [apply Hno; right; exact Hx|]. intros E. apply Hni. rewrite <- E. apply in_map. exact Hx.
  - exists s'. split; [|split].
    + cbn [map load_items]. unfold import_one. rewrite (Hno e (or_introl eq_refl)), andb_false_r, U, L. cbn [tally im_total im_failed im_skipped length]. do 3 f_equal. lia.
    + intros x [<-|Hx]; [|apply A; exact Hx]. rewrite B; [exact G|exact Hni].
    + intros id Hid. cbn [map] in Hid. rewrite B by (intros X; apply Hid; right; exact X). apply F. intros E. apply Hid. left. auto.
Qed.

Lemma lines_as_items evs o es : forall n s t s' t' k, length es < k -> load_items I evs o n s t (map Some es) = (s', Ok t') ->
  rounds I evs o JEof k (Running I (map JFits es) n s t) = Finished I s' t'.
Proof.
  induction es as [|e es IH]; intros n s t s' t' [|k] Hk H; cbn [length] in Hk; try lia; cbn [map load_items] in H; cbn [rounds map jsonl_round].
  - injection H as <- <-. apply (proj1 (rounds_done evs o JEof k)).
  - destruct (import_one I evs o n s e) as [s1 f]. destruct f; try discriminate; apply IH; auto; lia.
Qed.

Lemma reachable_dim envs s : reachable I envs s -> (0 <= st_dim I s)%Z.
Proof.
  induction 1 as [dim p i s H|s ev o H IH He|s dim p i s' H IH Ho]; try (unfold open_store in *; destruct (Z.ltb_spec dim 0); [discriminate|]; match goal with X : Ok _ = Ok _ |- _ => injection X as <- end; cbn; lia).
  destruct o; cbn [step fst]; try (apply upsert_dim; exact IH).
  - unfold upsert_batch. destruct (st_closed I s); [exact IH|]. destruct es; [exact IH|]. destruct (negb _); [exact IH|]. destruct (batch_rows _ _ _ _); try exact IH. destruct (ev_ok _ _); exact IH.
  - unfold delete. destruct (st_closed I s); [exact IH|]. destruct (String.eqb _ _); [exact IH|]. destruct (negb _); [exact IH|]. destruct (existsb _ _); exact IH.
  - unfold delete_by_doc. destruct (st_closed I s); [exact IH|]. destruct (String.eqb _ _); [exact IH|]. destruct (negb _); exact IH.
  - unfold delete_batch. destruct (st_closed I s); [exact IH|]. destruct (filter _ _); [exact IH|]. destruct (delete_chunks _ _ _ _ _) as [[rows cnt] b]. destruct (negb _); [exact IH|]. destruct (Nat.eqb _ _); exact IH.
  - unfold delete_where. destruct (st_closed I s); [exact IH|]. destruct (negb _); [exact IH|]. destruct (map _ _); [exact IH|]. destruct (_ || _); exact IH.
  - unfold clear. destruct (st_closed I s); [exact IH|]. destruct (negb _); exact IH.
  - unfold clear_by_docs. destruct (st_closed I s); [exact IH|]. destruct docs; [exact IH|]. destruct (negb _); [exact IH|]. destruct (clear_docs_tx _ _ _ _); [|exact IH]. destruct (ev_ok _ _); exact IH.
  - unfold create_collection. destruct (st_closed I s); [exact IH|]. destruct (find_coll _ _); [exact IH|]. destruct (Z.ltb _ _); [exact IH|]. destruct (negb _); exact IH.
  - unfold delete_collection. destruct (st_closed I s); [exact IH|]. destruct (find_coll _ _); [|exact IH]. destruct (_ && _); exact IH.
  - unfold create_document. destruct (st_closed I s); [exact IH|]. destruct (existsb _ _); [exact IH|]. destruct (negb _); exact IH.
  - unfold update_document. destruct (st_closed I s); [exact IH|]. destruct (negb _); [exact IH|]. destruct (existsb _ _); exact IH.
  - unfold delete_document. destruct (st_closed I s); [exact IH|]. destruct (ev_ok ev 0); destruct (negb _); exact IH.
  - exact IH.
Qed.

Lemma get_vector envs (s : store) id e : reachable I envs s -> get_by_id I s id = Ok e -> exists v, e_vec e = Some v /\ float32_bits v /\ (N.of_nat (length v) <= 2^31 - 1)%N.
Proof.
  intros R H. pose proof (get_ok_inv I s id e H) as (r & _ & F & S & _ & _ & E & Hin). unfold scan_get in S. destruct (decode_vector (r_blob r)) as [v| |] eqn:D; try discriminate.
  cbn [bind] in S. injection S as <-. exists v. split; [reflexivity|]. destruct (decode_total (r_blob r)) as [T|(xs & rest & enc & T & Hb & He & _)]; [congruence|].
  rewrite D in T. injection T as ->. split; [exact Hb|]. unfold encode_vector in He. cbv zeta in He. pose proof (N.ltb_spec max_int32 (N.of_nat (length xs))) as L. destruct (N.ltb max_int32 (N.of_nat (length xs))); [discriminate|].
  inversion L as [|L']. exact L'.
Qed.

Lemma dump_json_ok utf8 Nm scan (s : store) envs o f : reachable I envs s -> st_closed I s = false -> filter_plain I Nm s (do_filter o) -> (forall l, Permutation l (scan l)) ->
  do_format o = f -> f = FJson \/ f = FJsonl ->
  (forall id e, get_by_id I s id = Ok e -> chosen Nm (do_filter o) e -> valid_texts utf8 e /\ (do_vectors o = true -> finite_vector e)) ->
  exists l, dump_store utf8 I Nm scan s o = Ok (match f with FJson => DDoc | _ => DLines end l, length l) /\ NoDup (map e_id l) /\
  forall x, In x l <-> exists e, get_by_id I s (e_id x) = Ok e /\ chosen Nm (do_filter o) e /\ x = exported (do_vectors o) e.
Proof.
  intros R C Hf Hs Ef Hff Hv. destruct (all_embeddings_exact Nm scan s envs o R C Hf Hs) as (es & A & N1 & X).
  assert (J : forall x, In x es -> exists e0, get_by_id I s (e_id x) = Ok e0 /\ chosen Nm (do_filter o) e0 /\ json_embedding utf8 x = exported (do_vectors o) e0 /\ encodes x = true).
  { intros x Hx. apply X in Hx as (e0 & G & Ch & E). exists e0. split; [exact G|]. split; [exact Ch|]. destruct (Hv _ _ G Ch) as [V F]. destruct (get_collid s _ _ G) as [Hc _].
    rewrite E at 1. split; [apply json_exported; auto|]. subst x. unfold encodes, drop_vector. cbn [e_vec without_acl]. destruct (do_vectors o); [|reflexivity].
    destruct (e_vec e0) as [v|] eqn:Ev; [|reflexivity]. apply forallb_forall. intros n Hn. apply (F eq_refl v n Ev Hn). }
  exists (map (json_embedding utf8) es). unfold dump_store. rewrite C, Ef, A. cbn [bind]. rewrite map_length.
  replace (forallb encodes es) with true by (symmetry; apply forallb_forall; intros x Hx; destruct (J x Hx) as (e0 & _ & _ & _ & E); exact E).
  split; [destruct Hff as [-> | ->]; reflexivity|]. split.
  - rewrite map_map. replace (map (fun x => e_id (json_embedding utf8 x)) es) with (map e_id es); [exact N1|]. apply map_ext_in. intros x Hx.
    destruct (J x Hx) as (e0 & G & _ & E & _). rewrite E. destruct (get_collid s _ _ G) as [_ Hc]. cbn [exported e_id]. auto.
  - intros y. rewrite in_map_iff. split.
    + intros (x & <- & Hx). destruct (J x Hx) as (e0 & G & Ch & E & _). exists e0. rewrite E. destruct (get_collid s _ _ G) as [_ Hc]. cbn [exported e_id]. rewrite Hc. auto.
    + intros (e0 & G & Ch & E). exists (drop_vector (do_vectors o) (without_acl e0)). destruct (get_collid s _ _ G) as [Hc Hi]. destruct (Hv _ _ G Ch) as [V _].
      split; [rewrite json_exported by auto; auto|]. apply X. exists e0. split; [|auto]. change (e_id (drop_vector (do_vectors o) (without_acl e0))) with (e_id e0). congruence.
Qed.
Lemma dump_json_refuses utf8 Nm scan (s : store) envs o id e : reachable I envs s -> st_closed I s = false -> filter_plain I Nm s (do_filter o) -> (forall l, Permutation l (scan l)) ->
  do_format o = FJson \/ do_format o = FJsonl -> do_vectors o = true -> get_by_id I s id = Ok e -> chosen Nm (do_filter o) e -> ~ finite_vector e ->
  dump_store utf8 I Nm scan s o = Err EOther.
Proof.
  intros R C Hf Hs Hff Hv G Ch Hn. destruct (all_embeddings_exact Nm scan s envs o R C Hf Hs) as (es & A & _ & X). unfold dump_store. rewrite C, A. cbn [bind].
  destruct (forallb encodes es) eqn:F; [|destruct Hff as [-> | ->]; reflexivity]. exfalso. apply Hn. intros v n Ev Hin. rewrite forallb_forall in F.
  specialize (F (drop_vector (do_vectors o) (without_acl e))). rewrite Hv in F. unfold encodes in F. cbn [drop_vector e_vec without_acl] in F. rewrite Ev in F.
  rewrite forallb_forall in F. apply F; [|exact Hin]. rewrite <- Hv. apply X. exists e. split; [|auto]. destruct (get_collid s _ _ G) as [_ Hi]. cbn [drop_vector e_id without_acl]. congruence.
Qed.
Lemma dump_csv_ok utf8 Nm scan (s : store) envs o : reachable I envs s -> st_closed I s = false -> filter_plain I Nm s (do_filter o) -> (forall l, Permutation l (scan l)) ->
  do_format o = FCsv ->
  exists l, dump_store utf8 I Nm scan s o = Ok (DCsv l, length l) /\ NoDup (map (fun '(i, _, _, _, _) => i) l) /\
  forall i c dc m v, In (i, c, dc, m, v) l <-> exists e, get_by_id I s i = Ok e /\ chosen Nm (do_filter o) e /\ c = e_content e /\ dc = e_doc e /\ m = e_meta e /\ v = if do_vectors o then e_vec e else None.
Proof.
  intros R C Hf Hs Ef. destruct (all_embeddings_exact Nm scan s envs o R C Hf Hs) as (es & A & N1 & X). unfold dump_store. rewrite C, Ef, A. cbn [bind]. eexists. split.
  { rewrite <- (map_length (fun e => (e_id e, e_content e, e_doc e, e_meta e, if do_vectors o then e_vec e else None)) es). reflexivity. }
  split; [rewrite map_map; exact N1|]. intros i c dc m v. rewrite in_map_iff. split.
  - intros (x & [= <- <- <- <- <-] & Hx). apply X in Hx as (e0 & G & Ch & E). exists e0. split; [exact G|]. split; [exact Ch|]. rewrite E. cbn. destruct (do_vectors o); auto.
  - intros (e0 & G & Ch & -> & -> & -> & ->). exists (drop_vector (do_vectors o) (without_acl e0)). destruct (get_collid s _ _ G) as [_ Hi]. split; [cbn; rewrite Hi; destruct (do_vectors o); reflexivity|].
    apply X. exists e0. split; [|auto]. cbn. congruence.
Qed.
End P.
