(** What a router leaves in its store. *)
From Coq Require Import String List NArith ZArith Bool Lia Permutation.
From Verif Require Import Base Floats64 EncodingModel DimensionModel StoreModel StoreSpec StoreInv StoreProofs2 StoreProofs3 SearchModel SearchSpec SearchProofs
  RouterModel RouterSpec RouterProofs.
Import ListNotations.
Open Scope string_scope.
Open Scope list_scope.

Section S.
Variable I : index_ops.
Variable srt : list (embedding * float) -> list (embedding * float).
Variable noise : nat -> float.
Variable md : mode.
Variable sc : scorer.
Hypothesis Hsrt : sort_ok by_score srt.
Notation rstep := (rstep I srt noise md sc).
Notation rrun := (rrun I srt noise md sc).

(** Whatever the index answers, a search of one collection lists rows of it, each once. *)
Lemma search_rows envs s q o out : reachable I envs s -> o_coll o <> "" -> search I srt noise md sc s q o = Ok out ->
  NoDup (map (fun x => e_id (fst x)) out) /\
  forall x, In x out -> exists r, In r (t_rows (st_db I s)) /\ scan_search (st_db I s) r = Ok (fst x) /\ coll_name (st_db I s) (r_coll r) = o_coll o.
Proof.
  intros R C H. apply search_inv in H as (_ & w & _ & ->). pose proof (reachable_uniq I envs s R) as U. pose proof (reachable_colls I envs s R) as CO.
  set (d := st_db I s) in *.
  assert (T : forall (p : row -> bool) (m : embedding -> bool) (t : embedding * float -> bool) n (P : row -> embedding -> Prop),
    (forall r e, In r (t_rows d) -> scan_search d r = Ok e -> p r = true -> m e = true -> P r e) ->
    let l := firstn n (srt (filter t (map (fun e => (e, score sc o w e)) (filter m (oks (map (scan_search d) (filter p (t_rows d)))))))) in
    NoDup (map (fun x => e_id (fst x)) l) /\ forall x, In x l -> exists r, In r (t_rows d) /\ scan_search d r = Ok (fst x) /\ P r (fst x)).
  { intros p m t n P HP l. split.
    - unfold l. rewrite <- firstn_map. apply NoDup_firstn. eapply Permutation_NoDup; [apply Permutation_map; apply (proj1 (Hsrt _))|].
      apply NoDup_map_filter. rewrite map_map. cbn. apply NoDup_map_filter. apply oks_scan_NoDup. apply NoDup_map_filter. exact U.
    - intros x Hx. apply in_firstn in Hx. apply (Permutation_in _ (Permutation_sym (proj1 (Hsrt _)))) in Hx. apply filter_In in Hx as [Hx _].
      apply in_map_iff in Hx as (e & <- & He). apply filter_In in He as [He Hm]. apply in_oks in He. apply in_map_iff in He as (r & Er & Hr).
      apply filter_In in Hr as [Hr Hp]. exists r. cbn [fst]. eauto. }
  destruct (search_core_cases I srt md sc s o w) as [E|(ids & E & _)]; rewrite E.
  - unfold search_linear, score_candidates, fetch_candidates. rewrite kept_filter. fold d.
    apply (T (where_ok d o) (fun e => matches_filter e (o_filter o)) (fun x => kept o (snd x)) (topk_of o) (fun r _ => coll_name d (r_coll r) = o_coll o)). intros r e Hr Es Hw _.
    unfold where_ok in Hw. apply andb_prop in Hw as [Hw _]. rewrite (proj2 (String.eqb_neq _ _) C) in Hw. cbn [orb] in Hw. fold d in Hw.
    destruct (find_coll d (o_coll o)) as [c|] eqn:F; [|discriminate]. apply (coll_of_name d r _ c CO C F). exact Hw.
  - unfold process_candidates, fetch_by_ids. fold d.
    destruct (T (fun r => mem (r_id r) ids) (fun e => (String.eqb (o_coll o) "" || String.eqb (e_coll e) (o_coll o)) && matches_filter e (o_filter o))
             (fun x => negb (fgt (o_threshold o) f_zero && flt (snd x) (o_threshold o))) (topk_of o) (fun r e => coll_name d (r_coll r) = o_coll o)) as [N A]; [|auto].
    intros r e Hr Es Hp Hm. rewrite (proj2 (String.eqb_neq _ _) C) in Hm. cbn [orb] in Hm. apply andb_prop in Hm as [Hm _]. apply String.eqb_eq in Hm.
    apply scan_search_id in Es as (_ & _ & Ec). congruence.
Qed.

(** A route handed to the router in the history. *)
Definition handed (ops : list rop) (r : route) : Prop :=
  exists o, In o ops /\ (op_call o = CAdd (Some r) \/ exists l, op_call o = CAddBatch l /\ In (Some r) l).

(** Rows of the routes collection have an empty id and hold an utterance handed in. *)
Definition route_row (P : route -> Prop) (r : row) : Prop :=
  r_id r = "" /\ exists rr, P rr /\ In (r_content r) (rt_utts rr) /\ r_meta r = Some [("route_name", rt_name rr)].
Definition only_route_rows (P : route -> Prop) (d : db) : Prop :=
  forall r, In r (t_rows d) -> coll_name d (r_coll r) = routes_coll -> route_row P r.
Definition good_store (P : route -> Prop) (s : store I) : Prop := reachable I fk_env s /\ only_route_rows P (st_db I s).

Lemma good_weaken (P Q : route -> Prop) s : (forall r, P r -> Q r) -> good_store P s -> good_store Q s.
Proof. intros W [A B]. split; auto. intros r Hr Hc. destruct (B r Hr Hc) as (X & rr & Y & Z). split; eauto. Qed.

Lemma good_create P ev s n k : ev_fk ev = true -> good_store P s -> good_store P (fst (create_collection I ev s n k)).
Proof.
  intros F [A B]. split.
  - pose proof (reach_step I fk_env s ev (OCreateColl n k) A F) as R. cbn [step] in R. destruct (create_collection I ev s n k). exact R.
  - unfold create_collection. destruct (st_closed I s); auto. destruct (find_coll (st_db I s) n) eqn:FC; auto. destruct (Z.ltb k 0); auto.
    destruct (negb (ev_ok ev 0)); auto. cbn. unfold only_route_rows. cbn. intros r Hr Hc. apply B; auto. rewrite <- Hc. unfold coll_name. cbn.
    destruct (reachable_integrity I s A) as (_ & _ & _ & _ & _ & RC & _). specialize (RC r Hr). apply in_map_iff in RC as (c & Ec & Hin).
    clear Hc. induction (t_colls (st_db I s)) as [|c0 l IH]; [destruct Hin|]. cbn. destruct (Z.eqb (c_id c0) (r_coll r)) eqn:E; auto.
    apply IH. destruct Hin as [->|]; auto. apply Z.eqb_neq in E. contradiction.
Qed.

Lemma batch_colls ev es : forall d n d', batch_rows ev d n es = Ok d' -> t_colls d' = t_colls d.
Proof.
  clear. induction es as [|e es IH]; intros d n d'; cbn [batch_rows]; [intros [= ->]; reflexivity|].
  destruct (resolve_coll d e); cbn [bind]; try discriminate. destruct (encode_vector (e_vec e)); cbn [bind]; try discriminate.
  destruct (ev_ok ev n); [|discriminate]. unfold insert_row. destruct (_ && _); [discriminate|]. intros E. apply IH in E. exact E.
Qed.
Lemma batch_rows_in ev es : forall d n d', batch_rows ev d n es = Ok d' ->
  forall r, In r (t_rows d') -> In r (t_rows d) \/ exists e cid blob, In e es /\ r = make_row e cid blob.
Proof.
  clear. induction es as [|e es IH]; intros d n d'; cbn [batch_rows]; [intros [= ->]; auto|].
  destruct (resolve_coll d e) as [cid| |]; cbn [bind]; try discriminate. destruct (encode_vector (e_vec e)) as [blob| |]; cbn [bind]; try discriminate.
  destruct (ev_ok ev n); [|discriminate]. unfold insert_row. destruct (_ && _); [discriminate|]. intros E r Hr.
  destruct (IH _ _ _ E r Hr) as [H|(e' & c' & b' & H & ->)]; [|right; exists e', c', b'; split; [right; exact H|reflexivity]].
  cbn in H. unfold put_row in H. apply in_app_or in H as [H|[<-|[]]]; [left; apply filter_In in H; tauto|].
  right. exists e, cid, blob. split; [left|]; reflexivity.
Qed.
Lemma good_persist (P : route -> Prop) ev1 ev2 em s r : ev_fk ev1 = true -> ev_fk ev2 = true -> P r -> good_store P s ->
  good_store P (fst (persist I ev1 ev2 em s r)).
Proof.
  intros F1 F2 Pr G. unfold persist. pose proof (good_create P ev1 s routes_coll (em_dim em) F1 G) as G1.
  set (s1 := fst (create_collection I ev1 s routes_coll (em_dim em))) in *. clearbody s1. clear G.
  destruct (embed_vectors em (rt_utts r)) as [vs| |]; auto. destruct (Nat.ltb _ _); auto.
  set (es := map (fun uv => utterance_embedding r (fst uv) (snd uv)) (List.combine (rt_utts r) vs)).
  destruct G1 as [A B]. split; [exact (reach_step I fk_env s1 ev2 (OUpsertBatch es) A F2)|].
  assert (Hes : forall e, In e es -> exists u v, In u (rt_utts r) /\ e = utterance_embedding r u v).
  { intros e H. apply in_map_iff in H as ([u v] & <- & H). exists u, v. split; auto. exact (in_combine_l _ _ _ _ H). }
  clearbody es. unfold upsert_batch. destruct (st_closed I s1); auto. destruct es as [|e0 es0] eqn:Ees; auto. rewrite <- Ees in *.
  destruct (negb (ev_ok ev2 0)); auto. destruct (batch_rows ev2 (st_db I s1) 1 es) as [d| |] eqn:E; auto. destruct (ev_ok ev2 _); auto.
  cbn. intros r0 Hr Hc. destruct (batch_rows_in _ _ _ _ _ E r0 Hr) as [H|(e & cid & blob & He & ->)].
  - apply B; auto. rewrite <- Hc. unfold coll_name. rewrite (batch_colls _ _ _ _ _ E). reflexivity.
  - destruct (Hes e He) as (u & v & Hu & ->). cbn. split; [reflexivity|]. exists r. auto.
Qed.
Lemma good_persist_all (P : route -> Prop) evs em rs : (forall n, ev_fk (evs n) = true) -> (forall r, In r rs -> P r) ->
  forall n s, good_store P s -> good_store P (fst (persist_all I evs n em s rs)).
Proof.
  intros F. induction rs as [|r rs IH]; intros Pr n s G; auto. cbn [persist_all].
  pose proof (good_persist P (evs n) (evs (S n)) em s r (F _) (F _) (Pr r (or_introl eq_refl)) G) as G1.
  destruct (persist I _ _ em s r) as [s' res]. cbn [fst] in G1. destruct res as [[]| |]; auto. apply IH; auto. intros r' H. apply Pr. right. exact H.
Qed.
Lemma good_delete P ev s ids : ev_fk ev = true -> good_store P s -> good_store P (fst (delete_batch I ev s ids)).
Proof.
  intros F [A B]. split; [exact (reach_step I fk_env s ev (ODeleteBatch ids) A F)|].
  unfold delete_batch. destruct (st_closed I s); auto. destruct (filter _ ids) as [|i l]; auto.
  destruct (delete_chunks ev 0 (chunks 500 (i :: l)) (t_rows (st_db I s)) 0) as [[rows cnt] b] eqn:E. apply delete_chunks_filter in E as [p ->].
  assert (G : only_route_rows P (with_rows (st_db I s) (filter p (t_rows (st_db I s))))).
  { intros r Hr Hc. cbn in Hr. apply filter_In in Hr as [Hr _]. apply B; auto. }
  destruct (negb b); [exact G|]. destruct (Nat.eqb cnt 0); exact G.
Qed.
Lemma delete_blank ev s ids : (forall i, In i ids -> i = "") -> fst (delete_batch I ev s ids) = s.
Proof.
  intros A. unfold delete_batch. destruct (st_closed I s); auto. replace (filter (fun id => negb (all_space id)) ids) with (@nil string); auto.
  symmetry. apply filter_none. intros i H. rewrite (A i H). reflexivity.
Qed.

Definition fk_calls (ops : list rop) : Prop := forall o, In o ops -> forall n, ev_fk (op_evs o n) = true.
Lemma good_step (P : route -> Prop) rt o s : ro_store I rt = Some s -> good_store P s -> (forall n, ev_fk (op_evs o n) = true) ->
  (forall r, handed [o] r -> P r) -> exists s', ro_store I (fst (rstep rt o)) = Some s' /\ good_store P s'.
Proof.
  intros E G F H. unfold RouterModel.rstep. destruct (op_call o) as [r|l|n|q|qs] eqn:C.
  - unfold add. destruct r as [r|]; [|eauto]. destruct (negb _); [eauto|]. rewrite E.
    assert (G1 : good_store P (fst (persist I (op_evs o 0) (op_evs o 1) (op_emb o) s r))).
    { apply good_persist; auto. apply H. exists o. split; [left; reflexivity|]. left. exact C. }
    destruct (persist I _ _ _ s r) as [s' res]. exists s'. split; [reflexivity|exact G1].
  - unfold add_batch. destruct (check_batch (ro_entries I rt) l) as [rs| |] eqn:K; [|eauto|eauto]. rewrite E.
    assert (G1 : good_store P (fst (persist_all I (op_evs o) 0 (op_emb o) s rs))).
    { apply good_persist_all; auto. intros r Hr. apply H. exists o. split; [left; reflexivity|]. right. exists l. split; [exact C|].
      apply check_batch_ok in K as [-> _]. apply in_map. exact Hr. }
    destruct (persist_all I _ _ _ s rs) as [s' res]. exists s'. split; [reflexivity|exact G1].
  - unfold remove. destruct (drop_route n (ro_entries I rt)) as [es|]; [|eauto]. rewrite E.
    destruct (stored_vectors I srt noise md sc (op_emb o) s n) as [l| |]; cbn; [|eauto|eauto].
    eexists. split; [reflexivity|]. apply good_delete; auto.
  - pose proof (query_same I srt noise md sc (op_emb o) rt q) as [_ Q]. destruct (route_query I srt noise md sc _ rt q). cbn in *. exists s. split; congruence.
  - pose proof (batch_same I srt noise md sc (op_emb o) qs rt) as [_ Q]. destruct (route_batch I srt noise md sc _ rt qs). cbn in *. exists s. split; congruence.
Qed.
Lemma good_run (P : route -> Prop) rt ops s : ro_store I rt = Some s -> good_store P s -> fk_calls ops -> (forall r, handed ops r -> P r) ->
  exists s', ro_store I (rrun rt ops) = Some s' /\ good_store P s'.
Proof.
  intros E G. induction ops as [|o ops IH] using rev_ind; intros F H; [eauto|]. rewrite rrun_snoc.
  destruct IH as (s1 & E1 & G1).
  - intros o' Ho. apply F. apply in_or_app. auto.
  - intros r (o' & Ho & X). apply H. exists o'. split; [apply in_or_app; auto|exact X].
  - apply (good_step P _ o s1); auto.
    + apply F. apply in_or_app. right. left. reflexivity.
    + intros r (o' & [<-|[]] & X). apply H. exists o. split; [apply in_or_app; right; left; reflexivity|exact X].
Qed.

Lemma all_blank_short {A} (f : A -> string) l : NoDup (map f l) -> (forall x, In x l -> f x = "") -> l = [] \/ exists x, l = [x].
Proof.
  clear. intros N H. destruct l as [|a [|b l]]; eauto. exfalso. inversion N as [|? ? X _]; subst. apply X. cbn. left.
  rewrite (H a), (H b); cbn; auto.
Qed.
(** Reopening finds at most one utterance. *)
Lemma load_at_most_one (P : route -> Prop) ord em s es : good_store P s -> (forall l, Permutation l (ord l)) ->
  load_routes I srt noise md sc ord em s = Ok es ->
  es = [] \/ exists r u, P r /\ In u (rt_utts r) /\ es = [new_entry {| rt_name := rt_name r; rt_utts := [u]; rt_handler := None |}].
Proof.
  intros [A B] O. unfold load_routes. destruct (list_collections I (fun l => l) s) as [cs| |]; [|intros [= <-]; auto|discriminate].
  destruct (negb _); [intros [= <-]; auto|].
  destruct (search I srt noise md sc s _ _) as [res| |] eqn:S0; [|intros [= <-]; auto|discriminate].
  assert (NE : o_coll (route_opts [] 10000) <> "") by (cbn; discriminate). destruct (search_rows _ _ _ _ _ A NE S0) as [N R]. intros [= <-].
  assert (Z : forall x, In x res -> exists rr, P rr /\ In (e_content (fst x)) (rt_utts rr) /\ e_meta (fst x) = Some [("route_name", rt_name rr)] /\ e_id (fst x) = "").
  { intros x Hx. destruct (R x Hx) as (r & Hr & Es & Ec). destruct (B r Hr Ec) as (X1 & rr & X2 & X3 & X4). exists rr.
    unfold scan_search in Es. destruct (decode_vector (r_blob r)); cbn in Es; try discriminate. injection Es as <-. cbn. auto. }
  assert (Bl : forall x, In x res -> e_id (fst x) = "") by (intros x Hx; destruct (Z x Hx) as (rr & _ & _ & _ & E); exact E).
  destruct (all_blank_short (fun x => e_id (fst x)) res N Bl) as [->|(x & ->)].
  - left. cbn. rewrite (Permutation_nil (O [])). reflexivity.
  - destruct (Z x (or_introl eq_refl)) as (rr & X1 & X2 & X3 & _). unfold group_results. cbn [fold_left]. rewrite X3. cbn [meta_get assoc]. cbn [String.eqb Ascii.eqb Bool.eqb].
    unfold meta_get. cbn [assoc String.eqb Ascii.eqb Bool.eqb]. destruct (String.eqb (rt_name rr) "").
    + left. rewrite (Permutation_nil (O [])). reflexivity.
    + right. exists rr, (e_content (fst x)). split; auto. split; auto. cbn [group_in].
      rewrite (Permutation_length_1_inv (O [_])). reflexivity.
Qed.
End S.
