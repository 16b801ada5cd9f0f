(** Proofs for C19 and C20: histories, small stores, reopening. *)
From Coq Require Import String List NArith ZArith Bool Lia Permutation.
From Coq Require Import Floats.SpecFloat.
From Verif Require Import Base Floats64 TopK EncodingModel EncodingSpec EncodingProofs DimensionModel StoreModel StoreSpec
  StoreProofs StoreInv StoreProofs2 StoreProofs3 SearchModel SearchSpec SearchProofs HnswModel HnswSpec HnswProofs HnswProofs2 StoreIndexModel StoreIndexSpec StoreIndexProofs.
Import ListNotations.
Open Scope string_scope.
Open Scope list_scope.

Section P.
Variable dist : list N -> list N -> float.
Variable keep : list N -> list N.
Variable ef : nat.
Variable M0 : nat.
Notation I := (hnsw_ops dist keep ef).
Notation vecN := (list N).
Notation Inv := (Inv dist keep ef M0).
Notation in_sync := (in_sync keep).
Notation gix := (gix M0).

Lemma run_sync h : forall used s, reachable I fk_env s -> Inv used s -> NoDup (flat_map (fun eo => written (snd eo)) h) ->
  (forall x, In x (flat_map (fun eo => written (snd eo)) h) -> ~ In x used) ->
  Forall (fun eo => statements_succeed (fst eo) /\ tells_index (snd eo) /\ well_formed_op (snd eo)) h ->
  Inv (used ++ flat_map (fun eo => written (snd eo)) h) (run I s h) /\ reachable I fk_env (run I s h).
Proof.
  induction h as [|[ev o] h IH]; intros used s R V N F P; cbn [flat_map].
  - cbn. rewrite app_nil_r. auto.
  - cbn [flat_map snd fst] in *. inversion P as [|? ? (A & B & C) P']; subst. cbn [fst snd] in *.
    pose proof (step_sync dist keep ef M0 used s ev o R V A B C (NoDup_app_l _ _ N) (fun x Hx => F x (in_or_app _ _ _ (or_introl Hx)))) as V1.
    destruct (IH (used ++ written o) (fst (step I ev s o))) as [V2 R2]; auto.
    + apply reach_step; auto. apply A.
    + eapply NoDup_app_r; eauto.
    + intros x Hx Hu. apply in_app_or in Hu as [Hu|Hu]; [exact (F x (in_or_app _ _ _ (or_intror Hx)) Hu)|exact (NoDup_app_disj _ _ N x Hu Hx)].
    + rewrite <- app_assoc in V2. cbn [run fold_left]. auto.
Qed.

Definition fresh (rand : nat -> nat) (efc : nat) : hix := {| hx_graph := new_hnsw M0 efc; hx_rand := rand; hx_used := 0 |}.
Lemma init_rows dim d : t_rows (init_db dim d) = t_rows d.
Proof. unfold init_db. destruct (existsb _ _); auto. Qed.
Lemma open_fresh dim p rand efc s : open_store I dim p empty_db (fresh rand efc) = Ok s -> Inv [] s /\ reachable I fk_env s /\ st_closed I s = false.
Proof.
  intros E. split; [|split; [exact (reach_new I fk_env dim p (fresh rand efc) s E)|]].
  - unfold open_store in E. destruct (Z.ltb dim 0); [discriminate|]. injection E as <-. cbn [st_ix st_db].
    split; [split; [apply new_good|split; [apply new_small|reflexivity]]|]. cbn [st_db st_ix]. rewrite init_rows. split.
    + intros id x. cbn. split; [intros []|]. intros (r & v & [] & _).
    + intros x [].
  - unfold open_store in E. destruct (Z.ltb dim 0); [discriminate|]. injection E as <-. reflexivity.
Qed.
Lemma follows_lemma dim p rand efc s h : open_store I dim p empty_db (fresh rand efc) = Ok s -> write_once h -> st_closed I (run I s h) = false ->
  index_matches_store dist keep ef (run I s h) (hx_graph (st_ix I (run I s h))).
Proof.
  intros E [N F] C. apply open_fresh in E as (V & R & _). destruct (run_sync h [] s R V N) as [(G & S & _) R']; auto.
  apply (matches_iff dist keep ef M0 fk_env); auto.
Qed.

(** Small stores *)
Lemma small_index_ids s used q k : Inv used s -> 1 <= M0 -> length used <= 2 * M0 + 1 -> length used <= ef -> length used <= k -> ~ In "" used ->
  index_distances_are_numbers dist (st_ix I s) q ->
  forall id, In id (ix_search I (st_ix I s) q k) <-> exists r v, In r (t_rows (st_db I s)) /\ r_id r = id /\ decode_vector (r_blob r) = Ok v.
Proof.
  intros ((G & Sm & Em) & S & U) HM L1 L2 L3 Ne Nn id. pose proof G as (W & EO & ES).
  assert (ND : NoDup (ids_of (h_nodes (hx_graph (st_ix I s))))) by apply W.
  assert (Hi : ids_of (h_nodes (hx_graph (st_ix I s))) = ids (cont (st_ix I s))) by (rewrite ids_proj; reflexivity).
  assert (Ln : length (h_nodes (hx_graph (st_ix I s))) <= length used).
  { rewrite <- (map_length fst). change (length (ids_of (h_nodes (hx_graph (st_ix I s)))) <= length used). apply NoDup_incl_length; auto. rewrite Hi. auto. }
  assert (N1 : ~ In "" (ids_of (h_nodes (hx_graph (st_ix I s))))) by (rewrite Hi; intros H; apply Ne, U, H).
  destruct (HnswProofs.search_exact_lemma dist (hx_graph (st_ix I s)) q (Z.of_nat k) ef G) as (out & E & T); auto; try lia.
  { apply Sm; auto; rewrite Em; lia. }
  cbn [ix_search hnsw_ops]. unfold hx_search. rewrite E.
  destruct T as (rest & P & Lo & _).
  assert (Lw : length (with_distance dist q (live (proj (h_nodes (hx_graph (st_ix I s)))))) <= k).
  { unfold with_distance, live. rewrite !map_length. eapply Nat.le_trans; [apply filter_len|]. unfold proj. rewrite map_length. lia. }
  assert (Er : rest = []).
  { rewrite Nat2Z.id in Lo. pose proof (Permutation_length P) as Lp. rewrite app_length in Lp. destruct rest; auto. cbn in Lp. lia. }
  subst rest. rewrite app_nil_r in P. rewrite in_map_iff. split.
  - intros ([d i] & <- & H). cbn [snd]. apply (Permutation_in _ (Permutation_sym P)) in H. unfold with_distance in H. apply in_map_iff in H as ([i' v] & [= <- <-] & H).
    apply S in H as (r & w & Hr & Ei & D & _). exists r, w. auto.
  - intros (r & v & Hr & Ei & D). assert (H : In (id, keep v) (live (cont (st_ix I s)))) by (apply S; exists r, v; auto).
    exists (dist q (keep v), id). split; auto. apply (Permutation_in _ P). unfold with_distance. apply in_map_iff. exists (id, keep v). auto.
Qed.
Lemma small_search_lemma srt noise sc s used q o out :
  sort_ok by_score srt -> reachable I fk_env s -> Inv used s -> scores_are_numbers I noise sc o s q -> not_nan (o_threshold o) ->
  1 <= M0 -> length used <= 2 * M0 + 1 -> length used <= ef -> length used <= 2 * result_count o -> ~ In "" used ->
  (forall w, query_used noise (st_policy I s) (st_dim I s) q w -> index_distances_are_numbers dist (st_ix I s) w) ->
  (forall v, ~ In ("doc_id", v) (o_filter o)) ->
  search I srt noise UseHNSW sc s q o = Ok out ->
  exists w all, query_used noise (st_policy I s) (st_dim I s) q w /\
    lists_stored I s (fun e => qualifies o e /\ above_threshold o (score sc o w e)) (score sc o w) all /\
    is_topk by_score (result_count o) all out.
Proof.
  intros Hs R V Sn Nt HM L1 L2 L3 Ne Nn Nd E. pose proof E as E0.
  apply (search_over_index_lemma I srt noise UseHNSW sc s q o out fk_env Hs R Sn Nt ltac:(discriminate)) in E0 as (w & Q & A & B).
  assert (Tk : topk_of o = result_count o).
  { unfold topk_of, result_count. destruct (Z.leb_spec (o_topk o) 0), (Z.ltb_spec 0 (o_topk o)); auto; lia. }
  rewrite Tk in *. cbv beta iota zeta in *.
  set (cs := ix_search I (st_ix I s) w (result_count o * 2)) in *.
  destruct cs as [|c0 cs'] eqn:Ec.
  - specialize (A eq_refl). apply (SearchProofs.search_exact_lemma I srt noise sc s q o out fk_env Hs R Sn) in A. rewrite Tk in A. exact A.
  - rewrite <- Ec in *. destruct B as (all & (N & LA) & T); [unfold cs in *; rewrite Ec; discriminate|]. exists w, all. split; auto. split; auto. split; auto.
    intros e x. rewrite LA. split.
    + intros (e0 & Ge & -> & (_ & H1 & H2 & H3) & ->). exists e0. split; auto. split; auto. split; auto. split; auto. split; auto. split; auto.
      intros v Hv. exfalso. eapply Nd; eauto.
    + intros (e0 & Ge & -> & ((H1 & H2 & _) & H3) & ->). exists e0. split; auto. split; auto. split; auto. split; auto.
      apply (small_index_ids s used w (result_count o * 2) V HM L1 L2 ltac:(lia) Ne (Nn w Q)).
      apply get_ok_inv in Ge as (r & _ & _ & Sc & _ & _ & Ei & Hr). unfold scan_get in Sc. destruct (decode_vector (r_blob r)) as [v| |] eqn:D; try discriminate.
      exists r, v. auto.
Qed.

(** *** C20 *)
Lemma rebuild_in rs id v : In (id, v) (rebuild_vectors rs) <-> exists r, In r rs /\ r_id r = id /\ decode_vector (r_blob r) = Ok v.
Proof.
  induction rs as [|r rs IH]; cbn [rebuild_vectors].
  - split; [intros []|intros (r & [] & _)].
  - destruct (decode_vector (r_blob r)) as [w|x|] eqn:D.
    + cbn [In]. rewrite IH. split.
      * intros [[= <- <-]|(r' & H & A)]; [exists r; auto|exists r'; auto].
      * intros (r' & [<-|H] & E & D'); [left; congruence|right; exists r'; auto].
    + rewrite IH. split; [intros (r' & H & A); exists r'; split; auto; right; auto|]. intros (r' & [<-|H] & E & D'); [congruence|exists r'; auto].
    + rewrite IH. split; [intros (r' & H & A); exists r'; split; auto; right; auto|]. intros (r' & [<-|H] & E & D'); [congruence|exists r'; auto].
Qed.
Lemma rebuild_nodup rs : NoDup (map r_id rs) -> NoDup (map fst (rebuild_vectors rs)).
Proof.
  induction rs as [|r rs IH]; intros N; cbn [rebuild_vectors]; [constructor|]. inversion N; subst.
  destruct (decode_vector (r_blob r)); auto. cbn. constructor; auto. intros H. apply in_map_iff in H as ([i v] & E & H). cbn in E. subst i.
  apply rebuild_in in H as (r' & Hr & Ei & _). apply H1. rewrite <- Ei. apply in_map. auto.
Qed.
Lemma with_levels_fst rand vs : map fst (with_levels rand vs) = vs.
Proof.
  unfold with_levels. assert (K : forall (l : list (string * vecN)) (ns : list nat), length ns = length l -> map fst (combine l ns) = l).
  { induction l as [|x l IH]; intros [|n ns] H; cbn in *; auto; try discriminate. f_equal. apply IH. lia. }
  apply K. rewrite map_length, seq_length. auto.
Qed.
Lemma rebuild_ok c d : NoDup (map r_id (t_rows d)) -> exists h, rebuild dist keep c d = Ok h /\ Good h /\ in_sync (t_rows d) (proj (h_nodes h)).
Proof.
  intros N. unfold rebuild. set (vs := with_levels (ss_rand c) (rebuild_vectors (t_rows d))).
  assert (Hv : map fst vs = rebuild_vectors (t_rows d)) by apply with_levels_fst.
  assert (Sync : in_sync (t_rows d) (fold_left (c_insert keep) (map fst vs) [])).
  { intros id x. rewrite live_iff, Hv. split.
    - intros H. apply c_insert_from in H as [[]|([i v] & Hx & [= -> ->])]. apply rebuild_in in Hx as (r & Hr & E & D). exists r, v. auto.
    - intros (r & v & Hr & E & D & ->). apply c_insert_get; [cbn; apply rebuild_nodup; auto|]. apply rebuild_in. exists r. auto. }
  destruct (_ && _).
  - destruct (parallel_ok dist keep (new_hnsw (ss_M c) (ss_efc c)) vs (if Nat.eqb (ss_workers c) 0 then 4 else ss_workers c) (new_good _ _)) as (h & E & G & P & _).
    exists h. split; auto. split; auto. rewrite P. exact Sync.
  - pose proof (new_good (vec := vecN) (ss_M c) (ss_efc c)) as (W & EO & ES).
    destruct (insert_all_ok dist keep true vs _ W EO) as (h & E & W1 & EO1 & P & _ & _ & _ & S1).
    exists h. split; auto. split; [split; [auto|split; auto]|]. rewrite P. exact Sync.
Qed.

Definition matches (y : sys dist keep ef) : Prop := index_matches_store dist keep ef (y_store _ _ _ y) (hx_graph (st_ix I (y_store _ _ _ y))).
Notation ys := (y_store dist keep ef).
Notation yn := (y_snap dist keep ef).
Lemma good_matches (s : store I) h : Good h -> NoDup (map r_id (t_rows (st_db I s))) -> st_closed I s = false ->
  (in_sync (t_rows (st_db I s)) (proj (h_nodes h)) <-> index_matches_store dist keep ef s h).
Proof.
  intros (W & _) R C. destruct W as [W _]. unfold StoreIndexProofs.in_sync, index_matches_store.
  split; intros H id x; specialize (H id x); rewrite holds_live in * by auto; rewrite (row_get dist keep ef s id x R C) in *; auto.
Qed.
Lemma reopen_none_lemma envs y c : reachable I envs (ys y) -> yn y = None -> (0 <= ss_dim c)%Z ->
  exists y', sys_step dist keep ef y (EReopen c) = Ok y' /\ matches y' /\ t_rows (st_db I (ys y')) = t_rows (st_db I (ys y)) /\ st_closed I (ys y') = false.
Proof.
  intros R Y Hd. cbn [sys_step]. unfold open_sys, load_index. rewrite Y.
  destruct (rebuild_ok c (st_db I (ys y)) (reachable_uniq I envs _ R)) as (h & E & G & S). rewrite E. cbn [bind].
  unfold open_store. destruct (Z.ltb_spec (ss_dim c) 0); [lia|]. cbn [bind]. eexists. split; [reflexivity|].
  split; [|split; [cbn; apply init_rows|reflexivity]]. unfold matches. cbn [y_store st_ix st_db hx_graph].
  eapply good_matches; [exact G| |reflexivity|cbn [st_db]; rewrite init_rows; exact S].
  cbn [st_db]. rewrite init_rows. exact (reachable_uniq I envs _ R).
Qed.

(** After a save, nothing but a write separates the snapshot from the rows. *)
Lemma quiet_lemma es : forall y y',
  yn y = Some (hx_graph (st_ix I (ys y))) -> Forall not_an_operation es -> sys_run dist keep ef y es = Ok y' ->
  yn y' = Some (hx_graph (st_ix I (ys y))) /\ hx_graph (st_ix I (ys y')) = hx_graph (st_ix I (ys y)) /\
  t_rows (st_db I (ys y')) = t_rows (st_db I (ys y)).
Proof.
  induction es as [|e es IH]; intros y y' Y F E; cbn [sys_run] in E.
  - injection E as <-. auto.
  - inversion F as [|? ? Fe Fes]; subst. destruct (sys_step dist keep ef y e) as [y1| |] eqn:E1; cbn [bind] in E; try discriminate.
    assert (K : t_rows (st_db I (ys y1)) = t_rows (st_db I (ys y)) /\ yn y1 = Some (hx_graph (st_ix I (ys y))) /\ hx_graph (st_ix I (ys y1)) = hx_graph (st_ix I (ys y))).
    { destruct e; cbn [sys_step not_an_operation] in *; [contradiction| | |].
      - injection E1 as <-. cbn [y_store y_snap]. split; auto. split; auto. unfold save. destruct (st_closed _ _), saved; auto.
      - destruct (st_closed I (ys y)) eqn:C; injection E1 as <-; auto. cbn [y_store y_snap close fst st_db st_ix]. split; auto. split; auto.
        unfold save. destruct saved; auto.
      - unfold open_sys, load_index in E1. rewrite Y in E1. cbn [bind] in E1. destruct (open_store I _ _ _ _) as [s1| |] eqn:O; cbn [bind] in E1; try discriminate.
        injection E1 as <-. cbn [y_store y_snap].
        unfold open_store in O. destruct (Z.ltb _ _); [discriminate|]. injection O as <-. cbn [st_db st_ix hx_graph]. rewrite init_rows. auto. }
    destruct K as (T1 & Y1 & X1). rewrite <- X1 in Y1. destruct (IH y1 y' Y1 Fes E) as (A1 & A2 & A3). rewrite X1 in A1, A2. rewrite T1 in A3. auto.
Qed.
(** [sv] is a save that succeeds. *)
Lemma saved_lemma envs y y1 y' sv es : reachable I envs (ys y) -> st_closed I (ys y) = false -> Good (hx_graph (st_ix I (ys y))) -> matches y ->
  sv = EAutoSave true \/ sv = EClose true -> sys_step dist keep ef y sv = Ok y1 ->
  Forall not_an_operation es -> sys_run dist keep ef y1 es = Ok y' -> st_closed I (ys y') = false -> matches y'.
Proof.
  intros R C G Mt Hsv E1 F E C'.
  assert (K : yn y1 = Some (hx_graph (st_ix I (ys y1))) /\ hx_graph (st_ix I (ys y1)) = hx_graph (st_ix I (ys y)) /\ t_rows (st_db I (ys y1)) = t_rows (st_db I (ys y))).
  { destruct Hsv as [-> | ->]; cbn [sys_step] in E1; rewrite C in E1; injection E1 as <-; cbn; auto. }
  destruct K as (K1 & K2 & K3). destruct (quiet_lemma es y1 y' K1 F E) as (_ & A2 & A3). rewrite K2 in A2. rewrite K3 in A3.
  pose proof (reachable_uniq I envs _ R) as U. unfold matches. apply good_matches; [rewrite A2; auto|rewrite A3; exact U|exact C'|].
  rewrite A2, A3. apply good_matches; auto.
Qed.
Lemma saved_rows_lemma y y1 y' sv es : st_closed I (ys y) = false ->
  sv = EAutoSave true \/ sv = EClose true -> sys_step dist keep ef y sv = Ok y1 ->
  Forall not_an_operation es -> sys_run dist keep ef y1 es = Ok y' -> t_rows (st_db I (ys y')) = t_rows (st_db I (ys y)).
Proof.
  intros C Hsv E1 F E.
  assert (K : yn y1 = Some (hx_graph (st_ix I (ys y1))) /\ t_rows (st_db I (ys y1)) = t_rows (st_db I (ys y))).
  { destruct Hsv as [-> | ->]; cbn [sys_step] in E1; rewrite C in E1; injection E1 as <-; cbn; auto. }
  destruct K as (K1 & K3). destruct (quiet_lemma es y1 y' K1 F E) as (_ & _ & A3). congruence.
Qed.

(** *** Whole histories *)
Lemma fold_good {A} (f : hix -> A -> hix) l : (forall i a, Good (hx_graph i) -> Good (hx_graph (f i a))) -> forall i, Good (hx_graph i) -> Good (hx_graph (fold_left f l i)).
Proof. intros H. induction l; cbn; auto. Qed.
Lemma hx_insert_good i id v : Good (hx_graph i) -> Good (hx_graph (hx_insert dist keep i id v)).
Proof.
  intros G. destruct (step_good dist keep (hx_graph i) (HInsert id v (hx_rand i (hx_used i))) G) as (h & E & G' & _).
  unfold hx_insert. cbn [hstep] in E. destruct E as [E|[[e E] ->]]; rewrite E; auto.
Qed.
Lemma hx_delete_good i id : Good (hx_graph i) -> Good (hx_graph (hx_delete i id)).
Proof.
  intros G. destruct (step_good dist keep (hx_graph i) (HDelete id (hx_rand i (hx_used i))) G) as (h & E & G' & _).
  unfold hx_delete. cbn [hstep] in E. destruct E as [E|[[e E] ->]]; rewrite E; auto.
Qed.
Lemma step_good_ix ev s o : Good (hx_graph (st_ix I s)) -> Good (hx_graph (st_ix I (fst (step I ev s o)))).
Proof.
  intros G. destruct o; cbn [step].
  - destruct (upsert I ev s e) as [s' [[]|x|]] eqn:E.
    + apply upsert_inv in E as (v & cid & blob & _ & _ & _ & _ & _ & X & _). cbn [fst]. rewrite X. apply hx_insert_good; auto.
    + apply upsert_fail in E as (_ & X & _); [|discriminate]. cbn [fst]. rewrite X. auto.
    + apply upsert_fail in E as (_ & X & _); [|discriminate]. cbn [fst]. rewrite X. auto.
  - unfold upsert_batch. destruct (st_closed I s); [exact G|]. destruct es; [exact G|]. destruct (ev_ok ev 0); [|exact G]. cbn [negb].
    destruct (batch_rows _ _ _ _); [|exact G|exact G]. destruct (ev_ok _ _); [|exact G]. cbn [negb fst].
    apply (fold_good (fun i e => hx_insert dist keep i (e_id e) (vec_of e))); auto. intros; apply hx_insert_good; auto.
  - unfold delete. destruct (st_closed I s); [exact G|]. destruct (String.eqb id ""); [exact G|]. destruct (ev_ok ev 0); [|exact G]. cbn [negb].
    destruct (existsb _ _); [|exact G]. cbn. apply hx_delete_good; auto.
  - unfold delete_by_doc. repeat (match goal with |- context [if ?b then _ else _] => destruct b | |- context [match ?b with _ => _ end] => destruct b end; try exact G).
  - unfold delete_batch. destruct (st_closed I s); [exact G|]. destruct (filter _ _); [exact G|]. destruct (delete_chunks _ _ _ _ _) as [[rows cnt] dn].
    destruct dn; [|exact G]. cbn [negb]. destruct (Nat.eqb cnt 0); [exact G|]. cbn [fst st_ix with_ix].
    apply (fold_good (fun i x => hx_delete i x)); auto. intros; apply hx_delete_good; auto.
  - unfold delete_where. destruct (st_closed I s); [exact G|]. destruct (negb (ev_ok ev 0)); [exact G|].
    destruct (map r_id _); [exact G|]. destruct (_ || _); [exact G|]. cbn [fst st_ix with_ix].
    apply (fold_good (fun i x => hx_delete i x)); auto. intros; apply hx_delete_good; auto.
  - unfold clear. repeat (match goal with |- context [if ?b then _ else _] => destruct b | |- context [match ?b with _ => _ end] => destruct b end; try exact G).
  - unfold clear_by_docs. repeat (match goal with |- context [if ?b then _ else _] => destruct b | |- context [match ?b with _ => _ end] => destruct b end; try exact G).
  - unfold create_collection. repeat (match goal with |- context [if ?b then _ else _] => destruct b | |- context [match ?b with _ => _ end] => destruct b end; try exact G).
  - unfold delete_collection. repeat (match goal with |- context [if ?b then _ else _] => destruct b | |- context [match ?b with _ => _ end] => destruct b end; try exact G).
  - unfold create_document. repeat (match goal with |- context [if ?b then _ else _] => destruct b | |- context [match ?b with _ => _ end] => destruct b end; try exact G).
  - unfold update_document. repeat (match goal with |- context [if ?b then _ else _] => destruct b | |- context [match ?b with _ => _ end] => destruct b end; try exact G).
  - unfold delete_document. destruct (st_closed I s); [exact G|].
    assert (G1 : forall l, Good (hx_graph (fold_left (fun i x => hx_delete i x) l (st_ix I s)))) by (intros l; apply fold_good; auto; intros; apply hx_delete_good; auto).
    repeat (match goal with |- context [if ?b then _ else _] => destruct b | |- context [match ?b with _ => _ end] => destruct b end; try exact G; try apply G1).
  - exact G.
Qed.

Definition sys_ok (y : sys dist keep ef) : Prop :=
  reachable I any_env (ys y) /\ Good (hx_graph (st_ix I (ys y))) /\ (forall h, yn y = Some h -> Good h).
Lemma open_sys_ok y c y' : reachable I any_env (ys y) -> (forall h, yn y = Some h -> Good h) -> sys_step dist keep ef y (EReopen c) = Ok y' -> sys_ok y' /\ yn y' = yn y.
Proof.
  intros R G. cbn [sys_step]. unfold open_sys. destruct (load_index _ _ _ _ _) as [i| |] eqn:L; cbn [bind]; try discriminate.
  destruct (open_store I _ _ _ i) as [s1| |] eqn:O; cbn [bind]; try discriminate. intros [= <-]. cbn [y_snap]. split; auto. split; [|split; [|exact G]]; cbn [y_store].
  - eapply reach_reopen; [exact R|exact O].
  - unfold open_store in O. destruct (Z.ltb _ _); [discriminate|]. injection O as <-. cbn [st_ix].
    unfold load_index in L. destruct (yn y) as [h|] eqn:Y; cbn [bind] in L.
    + injection L as <-. cbn. auto.
    + destruct (rebuild_ok c (st_db I (ys y)) (reachable_uniq I _ _ R)) as (h & E & Gh & _). rewrite E in L. cbn [bind] in L. injection L as <-. exact Gh.
Qed.
Lemma sys_step_ok y e y' : sys_ok y -> sys_step dist keep ef y e = Ok y' -> sys_ok y'.
Proof.
  intros (R & G & Gs) E. destruct e; try (apply (open_sys_ok y _ y' R Gs E)); cbn [sys_step] in E.
  - injection E as <-. split; [|split]; cbn [y_store y_snap]; auto. + apply reach_step; auto. exact Logic.I. + apply step_good_ix; auto.
  - injection E as <-. split; [|split]; cbn [y_store y_snap]; auto. intros h. unfold save. destruct (st_closed _ _), saved; auto. intros [= <-]. auto.
  - destruct (st_closed I (ys y)); injection E as <-; [split; auto|]. split; [|split]; cbn [y_store y_snap]; auto.
    + apply (reach_step I any_env _ {| ev_ok := fun _ => true; ev_fk := true; ev_noise := fun _ => f_zero |} OClose R Logic.I).
    + intros h. unfold save. destruct saved; auto. intros [= <-]. auto.
Qed.
Lemma sys_run_ok es : forall y y', sys_ok y -> sys_run dist keep ef y es = Ok y' -> sys_ok y'.
Proof.
  induction es as [|e es IH]; intros y y' H E; cbn [sys_run] in E; [injection E as <-; auto|].
  destruct (sys_step dist keep ef y e) as [y1| |] eqn:E1; cbn [bind] in E; try discriminate. eapply IH; [|exact E]. eapply sys_step_ok; eauto.
Qed.
Lemma open_new_ok c y : open_sys dist keep ef c empty_db None = Ok y -> sys_ok y /\ yn y = None.
Proof.
  unfold open_sys. destruct (load_index _ _ _ _ _) as [i| |] eqn:L; cbn [bind]; try discriminate.
  destruct (open_store I _ _ _ i) as [s1| |] eqn:O; cbn [bind]; try discriminate. intros [= <-]. cbn [y_snap]. split; auto. split; [|split; [|discriminate]]; cbn [y_store].
  - eapply reach_new; exact O.
  - unfold open_store in O. destruct (Z.ltb _ _); [discriminate|]. injection O as <-. cbn [st_ix].
    unfold load_index in L. cbn [bind] in L. destruct (rebuild_ok c empty_db) as (h & E & Gh & _); [constructor|]. rewrite E in L. cbn [bind] in L. injection L as <-. exact Gh.
Qed.
Lemma unsaved_lemma es : forall y y', Forall (fun e => e <> EAutoSave true /\ e <> EClose true) es -> yn y = None -> sys_run dist keep ef y es = Ok y' -> yn y' = None.
Proof.
  induction es as [|e es IH]; intros y y' F Y E; cbn [sys_run] in E; [injection E as <-; auto|].
  destruct (sys_step dist keep ef y e) as [y1| |] eqn:E1; cbn [bind] in E; try discriminate. inversion F as [|? ? [F1 F2] F']; subst.
  apply (IH y1 y'); auto. destruct e; cbn [sys_step] in E1.
  - injection E1 as <-. auto.
  - injection E1 as <-. cbn. destruct (st_closed _ _), saved; auto; congruence.
  - destruct (st_closed _ _); injection E1 as <-; auto. cbn. destruct saved; auto; congruence.
  - unfold open_sys in E1. destruct (load_index _ _ _ _ _) as [i| |]; cbn [bind] in E1; try discriminate.
    destruct (open_store I _ _ _ i) as [s1| |]; cbn [bind] in E1; try discriminate. injection E1 as <-. auto.
Qed.
End P.
