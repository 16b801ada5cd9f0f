From Coq Require Import String Ascii List NArith ZArith Bool Lia Permutation Sorted.
From Coq Require Import Init.Byte.
From Verif Require Import Base Floats64 TopK EncodingModel EncodingSpec EncodingProofs DimensionModel DimensionProofs
  StoreModel StoreSpec StoreProofs StoreInv StoreProofs2 SearchModel SearchSpec.
Import ListNotations.
Open Scope string_scope.
Open Scope list_scope.

Lemma in_oks {A} (x : A) l : In x (oks l) <-> In (Ok x) l.
Proof.
  unfold oks. rewrite in_flat_map. split.
  - intros ([a|e|] & H & Hx); cbn in Hx; try tauto. destruct Hx as [->|[]]. exact H.
  - intros H. exists (Ok x). split; auto. cbn. auto.
Qed.

Lemma scan_search_get d r e : scan_search d r = Ok e <-> exists e0, scan_get true d r = Ok e0 /\ e = without_acl e0.
Proof.
  unfold scan_search, scan_get. destruct (decode_vector (r_blob r)); cbn.
  - split; [intros [= <-]; eexists; split; [reflexivity|reflexivity]|intros (e0 & [= <-] & ->); reflexivity].
  - split; [discriminate|intros (? & ? & _); discriminate].
  - split; [discriminate|intros (? & ? & _); discriminate].
Qed.
Lemma scan_search_id d r e : scan_search d r = Ok e -> e_id e = r_id r /\ e_doc e = doc_of r /\ e_coll e = coll_name d (r_coll r).
Proof. unfold scan_search. destruct (decode_vector (r_blob r)); cbn; try discriminate. intros [= <-]. auto. Qed.

Lemma find_uniq rows r : NoDup (map r_id rows) -> In r rows -> find (row_is (r_id r)) rows = Some r.
Proof.
  induction rows as [|a rows IH]; cbn; [tauto|]. intros H Hin. inversion H as [|? ? Hn Hd]; subst.
  destruct Hin as [->|Hin]; [unfold row_is; rewrite String.eqb_refl; reflexivity|].
  destruct (row_is (r_id r) a) eqn:E; auto. apply row_is_true in E. exfalso. apply Hn. rewrite E. apply in_map; auto.
Qed.

Lemma oks_scan_NoDup d rows : NoDup (map r_id rows) -> NoDup (map e_id (oks (map (scan_search d) rows))).
Proof.
  induction rows as [|r rows IH]; cbn; [constructor|]. intros H. inversion H as [|? ? Hn Hd]; subst.
  destruct (scan_search d r) as [e|x|] eqn:E; cbn; auto. constructor; auto.
  rewrite in_map_iff. intros (e' & Ee & He). apply in_oks in He. apply in_map_iff in He as (r' & Er & Hr).
  apply scan_search_id in E as [E _]. apply scan_search_id in Er as [Er _]. apply Hn. rewrite <- E, <- Ee, Er. apply in_map; auto.
Qed.

Lemma filter_len {A} (p : A -> bool) l : length (filter p l) <= length l.
Proof. induction l; cbn; auto. destruct (p a); cbn; lia. Qed.

Lemma topk_count o : topk_of o = result_count o.
Proof. unfold topk_of, result_count. destruct (Z.leb_spec (o_topk o) 0), (Z.ltb_spec 0 (o_topk o)); auto; lia. Qed.
Lemma score_blended sc o q e : score sc o q e = blended sc o q e.
Proof.
  unfold score, blended, text_part, text_weight, weight_used. destruct (sc_text sc) as [f|].
  - cbn [andb]. destruct (String.eqb (o_qtext o) ""); [rewrite andb_false_r; auto|].
    destruct (fgt (f _ _) f_zero); [rewrite andb_true_r|rewrite andb_false_r]; auto.
  - rewrite andb_false_r; auto.
Qed.

Section P.
Variable I : index_ops.
Notation store := (store I).

(** Lists of scanned rows as readers see them. *)
Lemma scanned_stored (s : store) (p : row -> bool) (m : embedding -> bool) (P : embedding -> Prop) (f : embedding -> float) :
  st_closed I s = false -> uniq (st_db I s) ->
  (forall r e, In r (t_rows (st_db I s)) -> scan_search (st_db I s) r = Ok e -> (p r = true /\ m e = true <-> P e)) ->
  lists_stored I s P f (map (fun e => (e, f e)) (filter m (oks (map (scan_search (st_db I s)) (filter p (t_rows (st_db I s))))))).
Proof.
  intros Hc Hu HP. split.
  - rewrite map_map. cbn. apply NoDup_map_filter. apply oks_scan_NoDup. apply NoDup_map_filter. exact Hu.
  - intros e x. rewrite in_map_iff. split.
    + intros (e' & [= -> <-] & He). apply filter_In in He as [He Hm]. apply in_oks in He.
      apply in_map_iff in He as (r & Er & Hr). apply filter_In in Hr as [Hr Hp].
      pose proof (proj1 (scan_search_get _ _ _) Er) as (e0 & Eg & Ee). exists e0. split; [|split; [auto|split; [|reflexivity]]].
      * unfold get_by_id. rewrite Hc. apply scan_search_id in Er as [-> _]. rewrite (find_uniq _ r Hu Hr). exact Eg.
      * apply (HP r e); auto.
    + intros (e0 & Hg & Ee & HPe & ->). exists e. split; auto.
      pose proof (get_ok_inv I s _ _ Hg) as (r & _ & F & S & _ & _ & Er & Hr).
      assert (Es : scan_search (st_db I s) r = Ok e) by (apply scan_search_get; eauto).
      destruct (HP r e Hr Es) as [_ HP2]. destruct (HP2 HPe) as [Hp Hm].
      apply filter_In. split; auto. apply in_oks. apply in_map_iff. exists r. split; auto. apply filter_In. auto.
Qed.

Lemma lists_filter (s : store) P f (all : list scored) (t : float -> bool) (Q : embedding -> Prop) :
  lists_stored I s P f all -> (forall id e0, get_by_id I s id = Ok e0 -> (Q (without_acl e0) <-> P (without_acl e0) /\ t (f (without_acl e0)) = true)) ->
  lists_stored I s Q f (filter (fun x => t (snd x)) all).
Proof.
  intros [H1 H2] HQ. split; [apply NoDup_map_filter; exact H1|].
  intros e x. rewrite filter_In, H2. cbn. split.
  - intros ((e0 & A & B & C & ->) & D). exists e0. repeat split; auto. subst e. apply (HQ _ _ A). auto.
  - intros (e0 & A & B & C & ->). pose proof C as C'. rewrite B in C'. apply (HQ _ _ A) in C' as [C1 C2].
    rewrite <- B in *. split; auto. exists e0. auto.
Qed.

Lemma matches_filter_spec e f : matches_filter e f = true <-> forall k v, In (k, v) f -> k <> "doc_id" -> meta_is e k v.
Proof.
  unfold matches_filter. rewrite forallb_forall. split.
  - intros H k v Hin Hk. specialize (H _ Hin). cbn in H. destruct (String.eqb_spec k "doc_id"); [congruence|]. cbn in H.
    destruct (e_meta e) as [m|] eqn:E; [|discriminate]. exists m. split; auto. apply String.eqb_eq; auto.
  - intros H [k v] Hin. cbn. destruct (String.eqb_spec k "doc_id"); auto. cbn.
    destruct (H k v Hin n) as (m & -> & Hm). apply String.eqb_eq; auto.
Qed.

Lemma coll_of_name d (r : row) name c : colls_ok d -> name <> "" -> find_coll d name = Some c ->
  (Z.eqb (r_coll r) (c_id c) = true <-> coll_name d (r_coll r) = name).
Proof.
  intros (H1 & H2 & _) Hn F. apply find_some in F as [Hin En]. apply String.eqb_eq in En. split.
  - intros E. apply Z.eqb_eq in E. unfold coll_name. rewrite E, (find_by_id _ c); auto.
  - unfold coll_name. destruct (find _ _) as [c1|] eqn:F1; [|congruence]. intros E1.
    apply find_some in F1 as [I1 E]. apply Z.eqb_eq in E. apply Z.eqb_eq. rewrite <- E. f_equal.
    eapply (NoDup_map_in_eq c_name); eauto. congruence.
Qed.
Lemma coll_of_name_none d (r : row) name : name <> "" -> find_coll d name = None -> coll_name d (r_coll r) <> name.
Proof.
  intros Hn F. unfold coll_name. destruct (find _ _) as [c1|] eqn:F1; [|congruence].
  apply find_some in F1 as [I1 _]. intros E. eapply find_none in F; [|exact I1]. cbn in F. apply String.eqb_neq in F. congruence.
Qed.

Lemma where_spec d o r e : colls_ok d -> docs_named d -> In r (t_rows d) -> scan_search d r = Ok e ->
  (where_ok d o r = true <-> in_collection o e /\ doc_matches o e).
Proof.
  intros Hco Hdn Hr Es. apply scan_search_id in Es as (_ & Ed & Ec). unfold where_ok. rewrite andb_true_iff.
  assert (A : (String.eqb (o_coll o) "" || match find_coll d (o_coll o) with Some c => Z.eqb (r_coll r) (c_id c) | None => false end) = true
              <-> in_collection o e).
  { unfold in_collection. rewrite Ec. destruct (String.eqb_spec (o_coll o) "") as [E|E]; cbn [orb]; [tauto|].
    destruct (find_coll d (o_coll o)) as [c|] eqn:F.
    - rewrite (coll_of_name d r (o_coll o) c); auto. tauto.
    - pose proof (coll_of_name_none d r _ E F). split; [discriminate|tauto]. }
  assert (B : forallb (fun kv => negb (String.eqb (fst kv) "doc_id") || doc_is (snd kv) r) (o_filter o) = true <-> doc_matches o e).
  { unfold doc_matches. rewrite forallb_forall. rewrite Ed. unfold doc_of. specialize (Hdn r Hr). split.
    - intros H v Hin. specialize (H _ Hin). cbn in H. unfold doc_is in H. destruct (r_doc r) as [y|]; [|discriminate].
      apply String.eqb_eq in H. subst. split; auto. congruence.
    - intros H [k v] Hin. cbn. destruct (String.eqb_spec k "doc_id") as [->|]; auto. cbn. destruct (H v Hin) as [H1 H2].
      unfold doc_is. destruct (r_doc r) as [y|]; [subst; apply String.eqb_refl|congruence]. }
  tauto.
Qed.

Definition kept (o : sopts) (x : float) : bool := negb (fgt (o_threshold o) f_zero) || fge x (o_threshold o).
Lemma kept_spec o x : kept o x = true <-> above_threshold o x.
Proof. unfold kept, above_threshold. destruct (fgt _ _); cbn; split; auto; intuition. Qed.
Lemma kept_filter o (l : list scored) :
  (if fgt (o_threshold o) f_zero then filter (fun x => fge (snd x) (o_threshold o)) l else l) = filter (fun x => kept o (snd x)) l.
Proof.
  unfold kept. destruct (fgt _ _); cbn; auto. symmetry. apply filter_all. auto.
Qed.

Definition well_scored (sc : scorer) (o : sopts) (q : list N) : Prop := forall e, not_nan (score sc o q e).

Lemma lists_not_nan (s : store) P f all : lists_stored I s P f all -> (forall id e, get_by_id I s id = Ok e -> not_nan (f (without_acl e))) ->
  weak_order_on by_score all.
Proof.
  intros [_ H] Hf. apply (weak_order_desc (fun x : scored => snd x)). intros [e x] Hin. apply H in Hin as (e0 & Hg & -> & _ & ->). cbn. eapply Hf; eauto.
Qed.

Lemma search_linear_exact srt sc s o q envs :
  sort_ok by_score srt -> reachable I envs s -> st_closed I s = false ->
  (forall id e, get_by_id I s id = Ok e -> not_nan (score sc o q (without_acl e))) ->
  exists all, lists_stored I s (fun e => qualifies o e /\ above_threshold o (score sc o q e)) (score sc o q) all /\
              is_topk by_score (topk_of o) all (search_linear I srt sc s o q).
Proof.
  intros Hs Hr Hc Hnan. pose proof (reachable_uniq I envs s Hr) as Hu. pose proof (reachable_colls I envs s Hr) as Hco.
  pose proof (reachable_named I envs s Hr) as Hdn.
  unfold search_linear, score_candidates, fetch_candidates. rewrite kept_filter.
  match goal with |- context [srt ?l] => set (all := l) end.
  assert (L : lists_stored I s (fun e => qualifies o e /\ above_threshold o (score sc o q e)) (score sc o q) all).
  { eapply lists_filter.
    - apply (scanned_stored s _ _ (qualifies o)); auto.
      intros r e Hin Hsc. rewrite (where_spec _ o r e Hco Hdn Hin Hsc), matches_filter_spec. unfold qualifies, meta_matches. tauto.
    - intros id e _. rewrite kept_spec. tauto. }
  exists all. split; auto. apply topk_of_sort; auto.
  eapply lists_not_nan; [exact L|]. exact Hnan.
Qed.

(** *** indexed search *)
Definition indexed_ok (o : sopts) (e : embedding) : bool :=
  (String.eqb (o_coll o) "" || String.eqb (e_coll e) (o_coll o)) && matches_filter e (o_filter o).
Lemma indexed_ok_spec o e : indexed_ok o e = true <-> in_collection o e /\ meta_matches o e.
Proof.
  unfold indexed_ok, in_collection, meta_matches. rewrite andb_true_iff, orb_true_iff, matches_filter_spec, !String.eqb_eq. tauto.
Qed.

Lemma process_exact srt sc s o q ids envs :
  sort_ok by_score srt -> reachable I envs s -> st_closed I s = false ->
  (forall id e, get_by_id I s id = Ok e -> not_nan (score sc o q (without_acl e))) -> not_nan (o_threshold o) ->
  exists all, lists_stored I s (fun e => In (e_id e) ids /\ in_collection o e /\ meta_matches o e /\ above_threshold o (score sc o q e)) (score sc o q) all /\
              is_topk by_score (topk_of o) all (process_candidates srt sc o q (fetch_by_ids (st_db I s) ids)).
Proof.
  intros Hs Hr Hc Hnan Hth. pose proof (reachable_uniq I envs s Hr) as Hu.
  unfold process_candidates, fetch_by_ids. fold (indexed_ok o).
  match goal with |- context [srt ?l] => set (all := l) end.
  assert (L : lists_stored I s (fun e => In (e_id e) ids /\ in_collection o e /\ meta_matches o e /\ above_threshold o (score sc o q e)) (score sc o q) all).
  { eapply (lists_filter _ _ _ _ (fun x => negb (fgt (o_threshold o) f_zero && flt x (o_threshold o)))).
    - apply (scanned_stored s _ _ (fun e => In (e_id e) ids /\ in_collection o e /\ meta_matches o e)); auto.
      intros r e Hin Hsc. rewrite indexed_ok_spec. apply scan_search_id in Hsc as [Hid _]. rewrite Hid, mem_In. tauto.
    - intros id e Hg. rewrite <- kept_spec. unfold kept. rewrite negb_andb. unfold fge.
      fold (fle (o_threshold o) (score sc o q (without_acl e))). rewrite fle_flt by eauto. tauto. }
  exists all. split; auto. apply topk_of_sort; auto. eapply lists_not_nan; [exact L|]. exact Hnan.
Qed.

(** *** query preparation *)
Lemma prepare_accepts noise s v : validate_vector (Some v) = Ok tt -> (st_dim I s = 0%Z \/ st_dim I s = Z.of_nat (length v)) ->
  prepare_query I noise s (Some v) = Ok v.
Proof.
  intros Hv Hd. unfold prepare_query.
  assert (E : Z.ltb 0 (st_dim I s) && negb (Z.eqb (Z.of_nat (length v)) (st_dim I s)) = false).
  { destruct Hd as [->| ->]; [reflexivity|]. rewrite Z.eqb_refl. apply andb_false_r. }
  rewrite E. cbn [bind]. rewrite Hv. cbn [bind]. destruct Hd as [->| ->]; [reflexivity|].
  rewrite Z.eqb_refl. destruct (Z.eqb _ 0); reflexivity.
Qed.
Lemma prepare_inv noise s q w : prepare_query I noise s q = Ok w ->
  (exists v, q = Some v /\ w = v /\ (st_dim I s <= 0 \/ st_dim I s = Z.of_nat (length v))%Z) \/
  (0 < st_dim I s /\ adapt_bits noise (st_policy I s) (match q with Some v => v | None => [] end) (st_dim I s) = Ok w)%Z.
Proof.
  unfold prepare_query.
  destruct (Z.ltb 0 (st_dim I s) && negb (Z.eqb (Z.of_nat (length match q with Some v => v | None => [] end)) (st_dim I s))) eqn:E.
  - apply andb_prop in E as [E1 _]. apply Z.ltb_lt in E1.
    destruct (adapt_bits _ _ _ _) as [v|x|]; cbn [bind]; try discriminate.
    destruct (validate_vector (Some v)) as [[]|x|]; cbn [bind]; try discriminate.
    destruct (Z.eqb_spec (st_dim I s) 0); [lia|]. destruct (Z.eqb _ _); try discriminate. intros [= ->]. auto.
  - cbn [bind]. destruct q as [v|]; [|cbn; discriminate].
    destruct (validate_vector (Some v)) as [[]|x|]; cbn [bind]; try discriminate.
    intros H. left. exists v. split; auto.
    assert (w = v). { destruct (Z.eqb _ 0); [congruence|]. destruct (Z.eqb _ _); congruence. }
    split; auto. apply andb_false_iff in E as [E|E].
    + apply Z.ltb_ge in E. auto.
    + apply negb_false_iff, Z.eqb_eq in E. auto.
Qed.

(** *** SearchWithFilter *)
Lemma filter_by_metadata_in fmt_g fs cs x : In x (filter_by_metadata fmt_g fs cs) <->
  In x cs /\ (forall k f, In (k, f) fs -> exists m a, e_meta (fst x) = Some m /\ assoc k m = Some a /\ compare_value fmt_g a f = true).
Proof.
  unfold filter_by_metadata. destruct fs as [|kv fs]; [cbn; intuition|]. set (l := kv :: fs).
  rewrite filter_In. apply and_iff_compat_l. destruct (e_meta (fst x)) as [m|] eqn:E.
  - rewrite forallb_forall. split.
    + intros H k f Hin. specialize (H _ Hin). cbn in H. destruct (assoc k m) as [a|] eqn:Ea; [|discriminate]. exists m, a. auto.
    + intros H [k f] Hin. cbn. destruct (H k f Hin) as (m' & a & [= <-] & Ea & Hc). rewrite Ea. exact Hc.
  - split; [discriminate|]. intros H. destruct kv as [k f]. destruct (H k f (or_introl eq_refl)) as (? & ? & ? & _). discriminate.
Qed.
Lemma filter_by_metadata_sorted fmt_g fs cs : StronglySorted (fun a b => by_score b a = false) cs ->
  StronglySorted (fun a b => by_score b a = false) (filter_by_metadata fmt_g fs cs).
Proof.
  intros H. unfold filter_by_metadata. destruct fs as [|kv fs]; auto.
  match goal with |- context [filter ?p cs] => set (pp := p) end. clearbody pp.
  induction H as [|a l Hs IH HF]; cbn; [constructor|]. destruct (pp a); auto. constructor; auto.
  rewrite Forall_forall in *. intros x Hx. apply filter_In in Hx as [Hx _]. auto.
Qed.
End P.

Section Q.
Variable I : index_ops.
Notation store := (store I).

Lemma compare_value_spec fmt_g a f : compare_value fmt_g a f = true <->
  match f with FStr x => a = x | FInt z => a = fmt_d z | FFloat g => a = fmt_g g | FBool b => a = fmt_t b | FOther => False end.
Proof. destruct f; cbn; try apply String.eqb_eq. split; [discriminate|tauto]. Qed.

Lemma passes_in fmt_g fs cs x : In x (filter_by_metadata fmt_g fs cs) <-> In x cs /\ passes fmt_g fs (fst x).
Proof.
  rewrite filter_by_metadata_in. apply and_iff_compat_l. unfold passes. split; intros H k f Hin; destruct (H k f Hin) as (m & a & E & Ea & C);
    exists m, a; (split; [|split]); auto; apply compare_value_spec in C || apply compare_value_spec; auto.
Qed.

Lemma search_inv srt noise m sc (s : store) q o out : search I srt noise m sc s q o = Ok out ->
  st_closed I s = false /\ exists w, query_used noise (st_policy I s) (st_dim I s) q w /\ out = search_core I srt m sc s o w.
Proof.
  unfold search. destruct (st_closed I s); [discriminate|]. destruct (prepare_query I noise s q) as [w|x|] eqn:E; cbn [bind]; try discriminate.
  intros [= <-]. split; auto. exists w. split; auto. apply prepare_inv in E. unfold query_used.
  destruct E as [(v & -> & -> & H)|[H1 H2]]; auto.
Qed.

Lemma search_ok srt noise m sc (s : store) v o : st_closed I s = false -> validate_vector (Some v) = Ok tt ->
  (st_dim I s = 0%Z \/ st_dim I s = Z.of_nat (length v)) ->
  search I srt noise m sc s (Some v) o = Ok (search_core I srt m sc s o v).
Proof. intros Hc Hv Hd. unfold search. rewrite Hc, prepare_accepts; auto. Qed.

Lemma search_exact_lemma srt noise sc (s : store) q o out envs :
  sort_ok by_score srt -> reachable I envs s -> scores_are_numbers I noise sc o s q ->
  search I srt noise Linear sc s q o = Ok out ->
  exists w all, query_used noise (st_policy I s) (st_dim I s) q w /\
    lists_stored I s (fun e => qualifies o e /\ above_threshold o (score sc o w e)) (score sc o w) all /\
    is_topk by_score (topk_of o) all out.
Proof.
  intros Hs Hr Hn H. apply search_inv in H as (Hc & w & Hq & ->). cbn.
  destruct (search_linear_exact I srt sc s o w envs Hs Hr Hc) as (all & H1 & H2); auto; try (intros ? ? G; exact (Hn _ _ _ Hq G)). eauto.
Qed.

Lemma topk_sound (s : store) P f all out n : lists_stored I s P f all -> is_topk by_score n all out ->
  NoDup (map (fun x => e_id (fst x)) out) /\ best_first out /\ length out <= n /\
  forall e x, In (e, x) out -> exists e0, get_by_id I s (e_id e) = Ok e0 /\ e = without_acl e0 /\ P e /\ x = f e.
Proof.
  intros [HN HL] T. split; [eapply is_topk_NoDup in T; eauto|].
  split; [|split].
  - destruct T as (rest & _ & _ & S & _). exact S.
  - destruct T as (rest & _ & L & _). rewrite L. apply Nat.le_min_l.
  - intros e x Hin. apply HL. eapply is_topk_in; eauto.
Qed.

Lemma search_core_cases srt m sc (s : store) o w :
  search_core I srt m sc s o w = search_linear I srt sc s o w \/
  exists ids, search_core I srt m sc s o w = process_candidates srt sc o w (fetch_by_ids (st_db I s) ids) /\
    m <> Linear /\ ids <> [] /\ ids = ix_search I (st_ix I s) w (topk_of o * match m with UseIVF => 4 | _ => 2 end).
Proof.
  destruct m; cbn; auto; unfold search_indexed.
  - destruct (ix_search I (st_ix I s) w (topk_of o * 2)) as [|i l] eqn:E; auto.
    right. exists (i :: l). split; [reflexivity|]. split; [discriminate|]. split; [discriminate|auto].
  - destruct (ix_search I (st_ix I s) w (topk_of o * 4)) as [|i l] eqn:E; auto.
    right. exists (i :: l). split; [reflexivity|]. split; [discriminate|]. split; [discriminate|auto].
Qed.

Lemma search_sound_lemma srt noise m sc (s : store) q o out envs :
  sort_ok by_score srt -> reachable I envs s -> scores_are_numbers I noise sc o s q -> not_nan (o_threshold o) ->
  search I srt noise m sc s q o = Ok out ->
  exists w, query_used noise (st_policy I s) (st_dim I s) q w /\
    NoDup (map (fun x => e_id (fst x)) out) /\ best_first out /\ length out <= topk_of o /\
    forall e x, In (e, x) out ->
      (exists e0, get_by_id I s (e_id e) = Ok e0 /\ e = without_acl e0) /\
      in_collection o e /\ meta_matches o e /\ above_threshold o x /\ x = score sc o w e.
Proof.
  intros Hs Hr Hn Ht H. apply search_inv in H as (Hc & w & Hq & ->). exists w. split; auto.
  destruct (search_core_cases srt m sc s o w) as [->|(ids & -> & _)].
  - destruct (search_linear_exact I srt sc s o w envs Hs Hr Hc) as (all & H1 & H2); auto; try (intros ? ? G; exact (Hn _ _ _ Hq G)).
    destruct (topk_sound s _ _ _ _ _ H1 H2) as (A & B & C & D). repeat (split; auto).
    + destruct (D e x H) as (e0 & E1 & E2 & _). eauto.
    + destruct (D e x H) as (e0 & E1 & E2 & [[E3 _] _] & _). auto.
    + destruct (D e x H) as (e0 & E1 & E2 & [[_ [E3 _]] _] & _). auto.
    + destruct (D e x H) as (e0 & E1 & E2 & [_ E3] & ->). auto.
    + destruct (D e x H) as (e0 & E1 & E2 & _ & E3). auto.
  - destruct (process_exact I srt sc s o w ids envs Hs Hr Hc) as (all & H1 & H2); auto; try (intros ? ? G; exact (Hn _ _ _ Hq G)).
    destruct (topk_sound s _ _ _ _ _ H1 H2) as (A & B & C & D). repeat (split; auto).
    + destruct (D e x H) as (e0 & E1 & E2 & _). eauto.
    + destruct (D e x H) as (e0 & E1 & E2 & (_ & E3 & _) & _). auto.
    + destruct (D e x H) as (e0 & E1 & E2 & (_ & _ & E3 & _) & _). auto.
    + destruct (D e x H) as (e0 & E1 & E2 & (_ & _ & _ & E3) & ->). auto.
    + destruct (D e x H) as (e0 & E1 & E2 & _ & E3). auto.
Qed.

Lemma search_over_index_lemma srt noise m sc (s : store) q o out envs :
  sort_ok by_score srt -> reachable I envs s -> scores_are_numbers I noise sc o s q -> not_nan (o_threshold o) ->
  m <> Linear -> search I srt noise m sc s q o = Ok out ->
  exists w, query_used noise (st_policy I s) (st_dim I s) q w /\
    let ids := ix_search I (st_ix I s) w (topk_of o * match m with UseIVF => 4 | _ => 2 end) in
    (ids = [] -> search I srt noise Linear sc s q o = Ok out) /\
    (ids <> [] -> exists all,
       lists_stored I s (fun e => In (e_id e) ids /\ in_collection o e /\ meta_matches o e /\ above_threshold o (score sc o w e)) (score sc o w) all /\
       is_topk by_score (topk_of o) all out).
Proof.
  intros Hs Hr Hn Ht Hm H. pose proof H as H0. unfold search in H0. apply search_inv in H as (Hc & w & Hq & E).
  rewrite Hc in H0. destruct (prepare_query I noise s q) as [w'|x|] eqn:E'; cbn [bind] in H0; try discriminate.
  assert (Hq' : query_used noise (st_policy I s) (st_dim I s) q w').
  { apply prepare_inv in E'. unfold query_used. destruct E' as [(v & -> & -> & ?)|[? ?]]; auto. }
  injection H0 as H0. exists w'. split; auto. cbn zeta. split; intros Hi.
  - unfold search. rewrite Hc, E'. cbn [bind search_core]. rewrite <- H0.
    destruct m; cbn [search_core]; [congruence| |]; unfold search_indexed; rewrite Hi; reflexivity.
  - assert (E2 : out = process_candidates srt sc o w' (fetch_by_ids (st_db I s) (ix_search I (st_ix I s) w' (topk_of o * match m with UseIVF => 4 | _ => 2 end)))).
    { rewrite <- H0. destruct m; cbn [search_core]; [congruence| |]; unfold search_indexed.
      - destruct (ix_search I (st_ix I s) w' (topk_of o * 2)); [congruence|reflexivity].
      - destruct (ix_search I (st_ix I s) w' (topk_of o * 4)); [congruence|reflexivity]. }
    rewrite E2. apply (process_exact I srt sc s o w' _ envs); auto. intros ? ? G; exact (Hn _ _ _ Hq' G).
Qed.

Lemma search_with_filter_inv srt fmt_g noise m sc (s : store) q o fs out :
  search_with_filter I srt fmt_g noise m sc s q o fs = Ok out ->
  exists res, search I srt noise m sc s q o = Ok res /\ out = filter_by_metadata fmt_g fs res.
Proof.
  unfold search_with_filter, search. destruct (st_closed I s); [discriminate|].
  destruct (prepare_query I noise s q) as [w|x|]; cbn [bind]; try discriminate. intros [= <-]. eauto.
Qed.

Lemma filter_by_metadata_NoDup {B} (g : scored -> B) fmt_g fs cs : NoDup (map g cs) -> NoDup (map g (filter_by_metadata fmt_g fs cs)).
Proof. intros H. unfold filter_by_metadata. destruct fs; auto. apply NoDup_map_filter. exact H. Qed.

Lemma search_with_filter_sound srt fmt_g noise m sc (s : store) q o fs out envs :
  sort_ok by_score srt -> reachable I envs s -> scores_are_numbers I noise sc o s q -> not_nan (o_threshold o) ->
  search_with_filter I srt fmt_g noise m sc s q o fs = Ok out ->
  exists w, query_used noise (st_policy I s) (st_dim I s) q w /\
    NoDup (map (fun x => e_id (fst x)) out) /\ best_first out /\ length out <= topk_of o /\
    forall e x, In (e, x) out ->
      (exists e0, get_by_id I s (e_id e) = Ok e0 /\ e = without_acl e0) /\
      in_collection o e /\ meta_matches o e /\ passes fmt_g fs e /\ above_threshold o x /\ x = score sc o w e.
Proof.
  intros Hs Hr Hn Ht H. apply search_with_filter_inv in H as (res & H & ->).
  destruct (search_sound_lemma srt noise m sc s q o res envs Hs Hr Hn Ht H) as (w & Hq & A & B & C & D).
  exists w. split; auto. split; [apply filter_by_metadata_NoDup; auto|]. split; [apply filter_by_metadata_sorted; auto|].
  split.
  - etransitivity; [|exact C]. unfold filter_by_metadata. destruct fs; auto. apply filter_len.
  - intros e x Hin. apply passes_in in Hin as [Hin HP]. destruct (D e x Hin) as (E1 & E2 & E3 & E4 & E5). auto 6.
Qed.

Lemma search_with_filter_complete srt fmt_g noise sc (s : store) q o fs out envs :
  sort_ok by_score srt -> reachable I envs s -> scores_are_numbers I noise sc o s q ->
  search_with_filter I srt fmt_g noise Linear sc s q o fs = Ok out ->
  exists w all, query_used noise (st_policy I s) (st_dim I s) q w /\
    lists_stored I s (fun e => qualifies o e /\ above_threshold o (score sc o w e)) (score sc o w) all /\
    (length all <= topk_of o -> forall e x, In (e, x) out <-> In (e, x) all /\ passes fmt_g fs e).
Proof.
  intros Hs Hr Hn H. apply search_with_filter_inv in H as (res & H & ->).
  destruct (search_exact_lemma srt noise sc s q o res envs Hs Hr Hn H) as (w & all & Hq & L & T).
  exists w, all. split; auto. split; auto. intros Hl e x. rewrite passes_in. cbn.
  pose proof (is_topk_all _ _ _ _ T Hl) as P.
  split; intros [A B]; split; auto; [eapply Permutation_in; [apply Permutation_sym; exact P|exact A]|eapply Permutation_in; [exact P|exact A]].
Qed.
End Q.
