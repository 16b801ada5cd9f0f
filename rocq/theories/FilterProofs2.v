From Coq Require Import String Ascii List NArith ZArith Bool Lia Permutation.
From Verif Require Import Base Floats64 TopK EncodingModel DimensionModel StoreModel StoreSpec StoreProofs StoreInv StoreProofs2 StoreProofs3
  SearchModel SearchSpec SearchProofs SqlModel FilterModel FilterSpec FilterProofs.
Import ListNotations.
Open Scope string_scope.
Open Scope list_scope.

(** *** the text of a filter always reads the metadata column *)
Lemma reads_paren t : reads_metadata_atom (AParen t) = reads_metadata t.
Proof.
  cbn [reads_metadata_atom]. unfold reads_metadata. induction t as [|l t IH]; [reflexivity|]. cbn [existsb]. rewrite <- IH. f_equal.
Qed.
Lemma children_read l ts : Forall (fun x => forall t, build_sql x = Ok t -> t <> [] -> reads_metadata t = true) l ->
  build_children l = Ok ts -> Forall (fun a => reads_metadata_atom a = true) ts.
Proof.
  intros H. revert ts. induction H as [|x l Hx H IH]; cbn [build_children]; intros ts.
  - intros [= <-]. constructor.
  - destruct (build_sql x) as [t| |]; cbn [bind]; try discriminate. destruct (build_children l) as [ts'| |]; cbn [bind]; try discriminate.
    intros [= <-]. specialize (IH ts' eq_refl). destruct t as [|a t]; [exact IH|]. constructor; [|exact IH]. rewrite reads_paren. apply Hx; auto. discriminate.
Qed.
Lemma built_reads f : forall t, build_sql f = Ok t -> t <> [] -> reads_metadata t = true.
Proof.
  induction f as [|l IH|l IH|l IH|op k v|k vs|k vs|k p|] using fexpr_rect2; intros t B Ne; try (injection B as <-; congruence).
  - rewrite build_and in B. destruct (build_children l) as [ts| |] eqn:E; cbn [bind] in B; try discriminate.
    pose proof (children_read l ts IH E) as H. injection B as <-. destruct ts as [|a ts]; [congruence|]. inversion H; subst. unfold reads_metadata. cbn [existsb]. rewrite H2. reflexivity.
  - rewrite build_or in B. destruct (build_children l) as [ts| |] eqn:E; cbn [bind] in B; try discriminate.
    pose proof (children_read l ts IH E) as H. injection B as <-. destruct ts as [|a ts]; [destruct Ne; reflexivity|]. inversion H; subst. unfold reads_metadata. cbn [map existsb]. rewrite H2. reflexivity.
  - injection B as <-. reflexivity.
  - destruct vs as [[|a [|b vs]]|]; try discriminate. injection B as <-. reflexivity.
  - destruct vs as [vs|]; try discriminate. injection B as <-. reflexivity.
  - injection B as <-. reflexivity.
Qed.

Section P.
Variable I : index_ops.
Notation store := (store I).

Lemma row_of_get (s : store) envs r : reachable I envs s -> st_closed I s = false -> In r (t_rows (st_db I s)) ->
  exists e, get_by_id I s (r_id r) = Ok e /\ e_meta e = r_meta r /\ e_id e = r_id r.
Proof.
  intros R C H. unfold get_by_id. rewrite C, (find_uniq _ r (reachable_uniq I envs s R) H).
  destruct (reachable_decodes I envs s R r H) as [[w W] _]. unfold scan_get. rewrite W. cbn [bind]. eexists. split; [reflexivity|]. auto.
Qed.
Lemma get_meta (s : store) id e r : get_by_id I s id = Ok e -> find (row_is id) (t_rows (st_db I s)) = Some r -> r_meta r = e_meta e.
Proof.
  intros H F. apply get_ok_inv in H as (r' & _ & F' & S & _). assert (r' = r) as -> by congruence. unfold scan_get in S.
  destruct (decode_vector _); try discriminate. cbn [bind] in S. injection S as <-. reflexivity.
Qed.

(** *** deletion *)
Lemma delete_by_filter_unchanged N ev (s s' : store) f r : delete_by_filter I N ev s f = (s', r) -> r <> Ok tt -> s' = s.
Proof.
  unfold delete_by_filter. destruct f as [f|]; [|congruence]. destruct (st_closed I s) eqn:C; [congruence|].
  destruct (build_sql f) as [[|l t]| |]; try congruence. cbn [step]. unfold delete_where. rewrite C.
  destruct (negb (ev_ok ev 0)); [congruence|]. destruct (map r_id _); [congruence|]. destruct (_ || _); congruence.
Qed.

Lemma delete_by_filter_effect N envs ev (s : store) f :
  reachable I envs s -> st_closed I s = false -> (forall n, ev_ok ev n = true) -> casts_numerals N ->
  (exists m, expressible N f m) ->
  (forall id e, get_by_id I s id = Ok e -> exists m, e_meta e = Some m /\ expressible N f m) ->
  exists s', delete_by_filter I N ev s (Some f) = (s', Ok tt) /\ st_closed I s' = false /\
    (forall id e m, get_by_id I s id = Ok e -> e_meta e = Some m ->
       (satisfies N f m -> get_by_id I s' id = Err ENotFound) /\ (~ satisfies N f m -> get_by_id I s' id = Ok e)) /\
    (forall id e, get_by_id I s' id = Ok e -> get_by_id I s id = Ok e).
Proof.
  intros R C Hev Hcast [m0 Hm0] Hx. unfold delete_by_filter. rewrite C.
  destruct (sql_meaning N "" (make_row {| e_id := ""; e_collid := 0; e_coll := ""; e_vec := None; e_content := ""; e_doc := ""; e_meta := Some m0; e_acl := [] |} 0 []) m0 eq_refl Hcast f Hm0)
    as (t & B & Ne & _). rewrite B. destruct t as [|l t]; [congruence|]. set (c := clause_of N (st_db I s) (l :: t)).
  assert (Hc : forall r m, In r (t_rows (st_db I s)) -> r_meta r = Some m -> failing c r = false /\ (selects c r = true <-> satisfies N f m)).
  { intros r m Hr Hm. destruct (row_of_get s envs r R C Hr) as (e & Hg & He & _). destruct (Hx _ _ Hg) as (m' & Hm' & Hex).
    assert (m' = m) as -> by congruence.
    destruct (sql_meaning N (coll_name (st_db I s) (r_coll r)) r m Hm Hcast f Hex) as (t' & B' & _ & NE & T). assert (t' = l :: t) as -> by congruence.
    unfold failing, selects, c, clause_of. destruct (eval_text _ _ _ _); try (split; [reflexivity|]; rewrite <- T; split; congruence). congruence. }
  assert (Hmeta : forall r, In r (t_rows (st_db I s)) -> exists m, r_meta r = Some m).
  { intros r Hr. destruct (row_of_get s envs r R C Hr) as (e & Hg & He & _). destruct (Hx _ _ Hg) as (m & Hm & _). exists m. congruence. }
  assert (Hf : existsb (failing c) (t_rows (st_db I s)) = false).
  { apply not_true_iff_false. intros H. apply existsb_exists in H as (r & Hr & H). destruct (Hmeta r Hr) as [m Hm]. destruct (Hc r m Hr Hm). congruence. }
  pose proof (reachable_uniq I envs s R) as Hu.
  cbn [step]. unfold delete_where. rewrite C, !Hev, (select_rows_all c _ Hf), Hf. cbn [negb orb].
  set (p := fun r => negb (selects c r)).
  assert (Eff : forall s', st_closed I s' = st_closed I s -> t_colls (st_db I s') = t_colls (st_db I s) -> t_rows (st_db I s') = filter p (t_rows (st_db I s)) ->
    (forall id e m, get_by_id I s id = Ok e -> e_meta e = Some m ->
       (satisfies N f m -> get_by_id I s' id = Err ENotFound) /\ (~ satisfies N f m -> get_by_id I s' id = Ok e)) /\
    (forall id e, get_by_id I s' id = Ok e -> get_by_id I s id = Ok e)).
  { intros s' E1 E2 E3. split.
    - intros id e m Hg Hm. destruct (get_filter_ok I s s' p id e E1 E2 Hu E3 Hg) as (r & F & _ & _ & _ & G).
      pose proof (get_meta s id e r Hg F) as Em. rewrite Hm in Em. apply find_some in F as [Hr _]. destruct (Hc r m Hr Em) as [_ Hs].
      unfold p in G. destruct (selects c r); cbn [negb] in G; split; intros H; auto; [destruct (H (proj1 Hs eq_refl))|apply Hs in H; discriminate].
    - intros id e Hg. apply get_ok_inv in Hg as (r & _ & F & S & _ & _ & Er & Hr). rewrite E3 in Hr. apply filter_In in Hr as [Hr _].
      subst id. unfold get_by_id. rewrite C, (find_uniq _ r Hu Hr). rewrite <- S. unfold scan_get, coll_name. rewrite E2. reflexivity. }
  destruct (map r_id (filter (selects c) (t_rows (st_db I s)))) as [|i0 ids] eqn:Eids.
  - exists s. split; [reflexivity|]. split; [exact C|]. apply Eff; auto. symmetry. apply filter_all. intros r Hr. unfold p. destruct (selects c r) eqn:Es; auto.
    apply map_eq_nil in Eids. assert (X : In r (filter (selects c) (t_rows (st_db I s)))) by (apply filter_In; auto). rewrite Eids in X. contradiction.
  - eexists. split; [reflexivity|]. split; [exact C|]. apply Eff; reflexivity.
Qed.

(** *** lists of stored embeddings chosen by a property of the whole embedding *)

Lemma scanned_where (s : store) (p : row -> bool) (P : embedding -> Prop) (f : embedding -> float) :
  st_closed I s = false -> uniq (st_db I s) ->
  (forall r e0, In r (t_rows (st_db I s)) -> scan_get true (st_db I s) r = Ok e0 -> (p r = true <-> P e0)) ->
  lists_where I s P f (map (fun e => (e, f e)) (oks (map (scan_search (st_db I s)) (filter p (t_rows (st_db I s)))))).
Proof.
  intros Hc Hu HP. split.
  - rewrite map_map. cbn. apply oks_scan_NoDup. apply NoDup_map_filter. exact Hu.
  - intros e x. rewrite in_map_iff. split.
    + intros (e' & [= -> <-] & He). apply in_oks in He. apply in_map_iff in He as (r & Er & Hr). apply filter_In in Hr as [Hr Hp].
      pose proof (proj1 (scan_search_get _ _ _) Er) as (e0 & Eg & Ee). exists e0. split; [|split; [auto|split; [|reflexivity]]].
      * unfold get_by_id. rewrite Hc. apply scan_search_id in Er as [-> _]. rewrite (find_uniq _ r Hu Hr). exact Eg.
      * apply (HP r e0); auto.
    + intros (e0 & Hg & Ee & HPe & ->). exists e. split; auto.
      pose proof (get_ok_inv I s _ _ Hg) as (r & _ & F & S & _ & _ & Er & Hr).
      assert (Es : scan_search (st_db I s) r = Ok e) by (apply scan_search_get; eauto).
      apply in_oks. apply in_map_iff. exists r. split; auto. apply filter_In. split; auto. apply (HP r e0); auto.
Qed.
Lemma where_weak_order (s : store) P f all : lists_where I s P f all -> (forall id e, get_by_id I s id = Ok e -> not_nan (f (without_acl e))) ->
  weak_order_on by_score all.
Proof.
  intros [_ H] Hf. apply (weak_order_desc (fun x : scored => snd x)). intros [e x] Hin. apply H in Hin as (e0 & Hg & -> & _ & ->). cbn. eapply Hf; eauto.
Qed.
Lemma where_stored (s : store) P f all : lists_where I s (fun e0 => P (without_acl e0)) f all -> lists_stored I s P f all.
Proof.
  intros [A B]. split; auto. intros e x. rewrite B. split; intros (e0 & H1 & H2 & H3 & H4); exists e0; subst e; auto.
Qed.

Lemma limit_topk srt o all : sort_ok by_score srt -> weak_order_on by_score all ->
  is_topk by_score (limit_count o all) all (limit o (srt all)).
Proof.
  intros Hs Hw. unfold limit_count, limit. destruct (Z.ltb 0 (o_topk o)); [apply topk_of_sort; auto|].
  rewrite <- (firstn_all (srt all)). destruct (Hs all) as [P _]. rewrite <- (Permutation_length P). apply topk_of_sort; auto.
Qed.

(** *** search without a pre-filter *)
Lemma post_filter_spec N fm post cs :
  (forall f e, post = Some f -> In e cs -> evaluable N f (meta_map e)) ->
  exists p, post_filter N fm post cs = Ok (filter p cs) /\ forall e, In e cs -> (p e = true <-> wanted N post e).
Proof.
  intros H. destruct post as [f|].
  - exists (fun e => match mem_eval N fm f (meta_map e) with Ok b => b | _ => false end). split.
    + induction cs as [|e cs IH]; [reflexivity|]. cbn [post_filter filter].
      destruct (mem_meaning N fm (meta_map e) f) as (b & -> & _); [apply (H f e eq_refl); left; auto|]. cbn [bind].
      rewrite IH by (intros f' e' E Hin; apply (H f' e' E); right; auto). reflexivity.
    + intros e Hin. destruct (mem_meaning N fm (meta_map e) f) as (b & -> & B); [apply (H f e eq_refl Hin)|]. exact B.
  - exists (fun _ => true). split; [|cbn; tauto]. clear H. induction cs as [|e cs IH]; [reflexivity|]. cbn [post_filter bind filter]. rewrite IH. reflexivity.
Qed.

Lemma coll_filter N (s : store) envs o : reachable I envs s -> exists p,
  fetch_sql N (st_db I s) [] o = Ok (oks (map (scan_search (st_db I s)) (filter p (t_rows (st_db I s))))) /\
  forall r e0, In r (t_rows (st_db I s)) -> scan_get true (st_db I s) r = Ok e0 -> (p r = true <-> in_collection o e0).
Proof.
  intros R. unfold fetch_sql, with_collection, in_collection. destruct (String.eqb_spec (o_coll o) "") as [E|E].
  - exists (fun _ => true). cbn [reads_metadata existsb]. rewrite filter_all by auto. split; [reflexivity|]. intros; split; auto.
  - cbn [join_and is_empty]. cbn [reads_metadata existsb reads_metadata_atom leaf_reads_metadata orb].
    eexists. split; [reflexivity|]. intros r e0 Hr S. unfold scan_get in S. destruct (decode_vector _); try discriminate. cbn [bind] in S. injection S as <-. cbn [e_coll].
    unfold selects, clause_of. cbn [eval_text eval_conj eval_atom eval_leaf]. destruct (String.eqb_spec (coll_name (st_db I s) (r_coll r)) (o_coll o)); cbn [of_bool]; split; auto; intros; try tauto; try discriminate.
Qed.

Lemma advanced_exact N fm srt sc (s : store) envs q o post :
  sort_ok by_score srt -> reachable I envs s -> st_closed I s = false ->
  (forall id e, get_by_id I s id = Ok e -> not_nan (sc_sim sc q (vec_of e))) ->
  (forall f id e, post = Some f -> get_by_id I s id = Ok e -> evaluable N f (meta_map e)) ->
  exists out all, advanced_search I srt N fm sc s q o None post = Ok out /\
    lists_stored I s (fun e => in_collection o e /\ wanted N post e) (fun e => sc_sim sc q (vec_of e)) all /\
    is_topk by_score (limit_count o all) all out.
Proof.
  intros Hs R C Hn Hev. unfold advanced_search. rewrite C. cbn [bind].
  destruct (coll_filter N s envs o R) as (p & -> & Hp). cbn [bind].
  set (cs := oks _).
  assert (Hcs : forall e, In e cs -> exists r e0, In r (t_rows (st_db I s)) /\ p r = true /\ scan_get true (st_db I s) r = Ok e0 /\ e = without_acl e0 /\ scan_search (st_db I s) r = Ok e).
  { intros e He. apply in_oks in He. apply in_map_iff in He as (r & Er & Hr). apply filter_In in Hr as [Hr Hpr].
    destruct (proj1 (scan_search_get _ _ _) Er) as (e0 & A & B). exists r, e0. auto. }
  destruct (post_filter_spec N fm post cs) as (pf & -> & Hpf).
  { intros f e Ef He. destruct (Hcs e He) as (r & e0 & Hr & _ & Sg & -> & _).
    change (meta_map (without_acl e0)) with (meta_map e0). apply (Hev f (r_id r) e0 Ef). unfold get_by_id. rewrite C, (find_uniq _ r (reachable_uniq I envs s R) Hr). exact Sg. }
  cbn [bind]. eexists. eexists. split; [reflexivity|]. unfold score_and_sort.
  assert (L : lists_stored I s (fun e => in_collection o e /\ wanted N post e) (fun e => sc_sim sc q (vec_of e))
    (map (fun e => (e, sc_sim sc q (vec_of e))) (filter pf cs))).
  { set (m := fun e => match post with None => true | Some f => match mem_eval N fm f (meta_map e) with Ok b => b | _ => false end end).
    assert (E : filter pf cs = filter m cs).
    { apply filter_ext_in. intros e He. apply eq_true_iff_eq. rewrite (Hpf e He). unfold m, wanted. destruct post as [f|]; [|tauto].
      destruct (Hcs e He) as (r & e0 & Hr & _ & Sg & -> & _). change (meta_map (without_acl e0)) with (meta_map e0).
      destruct (mem_meaning N fm (meta_map e0) f) as (b & -> & B); [|symmetry; exact B].
      apply (Hev f (r_id r) e0 eq_refl). unfold get_by_id. rewrite C, (find_uniq _ r (reachable_uniq I envs s R) Hr). exact Sg. }
    rewrite E. apply (scanned_stored I s p m); auto; [exact (reachable_uniq I envs s R)|].
    intros r e Hr Sr. destruct (proj1 (scan_search_get _ _ _) Sr) as (e0 & Sg & ->).
    change (in_collection o (without_acl e0)) with (in_collection o e0). rewrite (Hp r e0 Hr Sg).
    unfold m, wanted. destruct post as [f|]; [|tauto]. change (meta_map (without_acl e0)) with (meta_map e0).
    destruct (mem_meaning N fm (meta_map e0) f) as (b & -> & B); [|rewrite B; tauto].
    apply (Hev f (r_id r) e0 eq_refl). unfold get_by_id. rewrite C, (find_uniq _ r (reachable_uniq I envs s R) Hr). exact Sg. }
  split; [exact L|]. apply limit_topk; auto. eapply lists_not_nan; [exact L|]. exact Hn.
Qed.

Lemma advanced_refused N fm srt sc (s : store) q o f post t :
  st_closed I s = false -> build_sql f = Ok t -> t <> [] -> advanced_search I srt N fm sc s q o (Some f) post = Err EOther.
Proof.
  intros C B Ne. unfold advanced_search. rewrite C, B. cbn [bind]. unfold fetch_sql. pose proof (built_reads f t B Ne) as H.
  replace (reads_metadata (with_collection o t)) with true; [reflexivity|]. symmetry. unfold with_collection. destruct (String.eqb _ _); [exact H|].
  destruct t as [|l t]; [congruence|]. unfold reads_metadata in *. clear B Ne C.
  revert l H. induction t as [|l' t IH]; intros l H; cbn in *.
  - rewrite orb_false_r in H. rewrite existsb_app, H. reflexivity.
  - apply orb_true_iff in H as [H|H]; [rewrite H; reflexivity|]. rewrite (IH l' H). apply orb_true_r.
Qed.
End P.
