(** Proofs about the sessions of a store. *)
From Coq Require Import String List NArith ZArith Bool Lia Permutation.
From Coq Require Import Floats.SpecFloat.
From Verif Require Import Base Floats64 HnswModel HnswSpec HnswSearchProofs HnswProofs IvfModel SnapModel SnapProofs TrainModel StartModel.
Import ListNotations.
Local Notation vec := (list N).

Section P.
Variable dist : vec -> vec -> float.
Variable keep : vec -> vec.
Variable idist : vec -> vec -> float.
Variable ord : nodes vec -> nodes vec.
Hypothesis Hord : forall l, Permutation (ord l) l.

(** Two indexes that differ at most in the order of their nodes. *)
Definition alike (a b : hnsw vec) : Prop := h_M a = h_M b /\ h_efc a = h_efc b /\ h_entry a = h_entry b /\ Permutation (h_nodes a) (h_nodes b).
Lemma alike_refl a : alike a a. Proof. repeat split; auto. Qed.
Lemma alike_trans a b c : alike a b -> alike b c -> alike a c.
Proof. intros (A1 & A2 & A3 & A4) (B1 & B2 & B3 & B4). repeat split; try congruence. eapply Permutation_trans; eauto. Qed.
Lemma alike_good a b : Good a -> alike b a -> Good b.
Proof. intros G (E1 & E2 & E3 & P). destruct b as [M e ns en]. cbn in *. subst. apply good_perm; auto. Qed.
Lemma load_alike h0 h : Good h -> exists h', hnsw_load h0 (hnsw_save ord h) = (h', true) /\ alike h' h.
Proof. intros G. eexists. split; [apply hnsw_load_saved; [apply G|exact Hord]|]. split; [reflexivity|]. split; [reflexivity|]. split; [reflexivity|]. cbn [h_nodes]. apply Hord. Qed.

Lemma rebuild_good c rand h rows : Good h -> exists h', rebuild_on dist keep c rand h rows = Ok h' /\ Good h' /\
  proj (h_nodes h') = fold_left (c_insert keep) rows (proj (h_nodes h)).
Proof.
  intros G. unfold rebuild_on. set (vs := combine rows _).
  assert (Ev : map fst vs = rows).
  { unfold vs. assert (Hl : length rows = length (map rand (seq 0 (length rows)))) by (rewrite map_length, seq_length; auto). revert Hl. generalize (map rand (seq 0 (length rows))).
    induction rows as [|r rows IH]; intros [|x xs] Hl; cbn in *; try discriminate; auto. now rewrite IH by lia. }
  destruct (_ && _).
  - destruct (parallel_ok dist keep h vs (if Nat.eqb (sc_workers c) 0 then 4 else sc_workers c) G) as (h' & E & G' & P & _). rewrite Ev in P. eauto.
  - destruct G as (W & EO & ES). destruct (insert_all_ok dist keep true vs h W EO) as (h' & E & W' & EO' & P & _ & _ & _ & S'). rewrite Ev in P. exists h'. split; [auto|]. split; [split; auto|auto].
Qed.

Definition Inv (w : world) : Prop :=
  (forall g, f_hnsw (w_file w) = Some g -> exists h, Good h /\ g = hnsw_save ord h) /\
  (forall m h, w_mem w = Some m -> m_hnsw m = Some h -> Good h) /\
  NoDup (map fst (f_rows (w_file w))).
Lemma start_ok c reads rand f : (forall g, f_hnsw f = Some g -> exists h, Good h /\ g = hnsw_save ord h) ->
  exists m, start dist keep c reads rand f = Ok m /\ (forall h, m_hnsw m = Some h -> Good h) /\ m_conf m = c.
Proof.
  intros H. unfold start, start_hnsw, load_hnsw. destruct (sc_on c); cbn [bind]; [|eexists; split; [reflexivity|]; split; [discriminate|reflexivity]].
  destruct (if reads then f_hnsw f else None) as [g|] eqn:E.
  - assert (Eg : f_hnsw f = Some g) by (destruct reads; congruence). destruct (H _ Eg) as (h & G & ->).
    destruct (load_alike (new_hnsw (sc_M c) (sc_efc c)) h G) as (h' & El & A). rewrite El. cbn [bind]. eexists. split; [reflexivity|]. split; [|reflexivity].
    cbn [m_hnsw]. intros x [= <-]. eapply alike_good; eauto.
  - destruct (rebuild_good c rand _ (f_rows f) (new_good (sc_M c) (sc_efc c))) as (h' & Er & G & _). rewrite Er. cbn [bind]. eexists. split; [reflexivity|]. split; [|reflexivity].
    cbn [m_hnsw]. intros x [= <-]. exact G.
Qed.
Lemma save_cases b m f : save_snapshot ord b m f = f \/
  (exists h, m_hnsw m = Some h /\ save_snapshot ord b m f = {| f_rows := f_rows f; f_hnsw := Some (hnsw_save ord h); f_ivf := f_ivf f |}) \/
  (exists x, m_ivf m = Some x /\ save_snapshot ord b m f = {| f_rows := f_rows f; f_hnsw := f_hnsw f; f_ivf := Some (ivf_save x) |}).
Proof.
  unfold save_snapshot. repeat match goal with |- context [match ?x with _ => _ end] => destruct x end; eauto.
Qed.
Lemma save_inv b m f : (forall g, f_hnsw f = Some g -> exists h, Good h /\ g = hnsw_save ord h) -> (forall h, m_hnsw m = Some h -> Good h) ->
  forall g, f_hnsw (save_snapshot ord b m f) = Some g -> exists h, Good h /\ g = hnsw_save ord h.
Proof.
  intros H G g. destruct (save_cases b m f) as [->|[(h & Eh & ->)|(x & Ex & ->)]]; cbn [f_hnsw]; auto. intros [= <-]. eauto.
Qed.
Lemma save_rows b m f : f_rows (save_snapshot ord b m f) = f_rows f.
Proof. destruct (save_cases b m f) as [->|[(h & Eh & ->)|(x & Ex & ->)]]; reflexivity. Qed.
Lemma insert_same (h : hnsw vec) id v lvl : Good h -> Good (or_same h (hnsw_insert dist keep h id v lvl)).
Proof. intros G. destruct (step_good dist keep h (HInsert id v lvl) G) as (h' & [E|[[e E] ->]] & G' & _); cbn [hstep] in E; rewrite E; auto. Qed.
Lemma delete_same (h : hnsw vec) id ch : Good h -> Good (or_same h (hnsw_delete h id ch)).
Proof. intros G. destruct (step_good dist keep h (HDelete id ch) G) as (h' & [E|[[e E] ->]] & G' & _); cbn [hstep] in E; rewrite E; auto. Qed.
Lemma nodup_filter (p : string * vec -> bool) rows : NoDup (map fst rows) -> NoDup (map fst (filter p rows)).
Proof.
  induction rows as [|r rows IH]; cbn; auto. intros N. inversion N; subst. destruct (p r); cbn; auto. constructor; auto.
  intros H. apply H1. apply in_map_iff in H as (x & <- & Hx). apply filter_In in Hx as [Hx _]. now apply in_map.
Qed.
Lemma put_nodup rows id v : NoDup (map fst rows) -> NoDup (map fst (put_row rows id v)).
Proof.
  intros N. unfold put_row. rewrite map_app. cbn. eapply Permutation_NoDup; [apply Permutation_cons_append|]. constructor; [|apply nodup_filter, N].
  intros H. apply in_map_iff in H as (x & E & Hx). apply filter_In in Hx as [_ Hx]. rewrite E, String.eqb_refl in Hx. discriminate.
Qed.
Lemma train_hnsw cents f m : m_hnsw (do_train idist cents f m) = m_hnsw m.
Proof. unfold do_train. destruct (is_ivf _); auto. destruct (match m_ivf m with None => _ | Some _ => _ end); auto. Qed.

Lemma sstep_ok w e : Inv w -> exists w', sstep dist keep idist ord w e = Ok w' /\ Inv w'.
Proof.
  intros (H1 & H2 & H3). destruct e as [id v lvl|id ch|cents|b|b|c reads rand]; cbn [sstep].
  6:{ destruct (start_ok c reads rand (w_file w) H1) as (m & E & G & _). rewrite E. cbn [bind]. eexists. split; [reflexivity|]. split; [exact H1|]. split; [|exact H3]. cbn [w_mem]. intros m0 h [= <-]. apply G. }
  all: destruct (w_mem w) as [m|] eqn:Em; [|exists w; split; [reflexivity|split; [exact H1|split; [rewrite Em; discriminate|exact H3]]]].
  - unfold do_upsert. eexists. split; [reflexivity|]. split; [exact H1|]. split; [|apply put_nodup, H3]. cbn [w_mem m_hnsw m_conf]. intros m0 h [= <-]. cbn [m_hnsw].
    destruct (sc_on (m_conf m)); [|apply H2; auto]. destruct (m_hnsw m) as [h0|] eqn:Eh; [|discriminate]. cbn. intros [= <-]. apply insert_same. eapply H2; eauto.
  - unfold do_delete. destruct (existsb _ _); [|eexists; split; [reflexivity|]; split; [exact H1|]; split; [cbn; intros m0 h [= <-]; apply H2; auto|exact H3]].
    eexists. split; [reflexivity|]. split; [exact H1|]. split; [|apply nodup_filter, H3]. cbn [w_mem m_hnsw m_conf]. intros m0 h [= <-]. cbn [m_hnsw].
    destruct (sc_on (m_conf m)); [|apply H2; auto]. destruct (m_hnsw m) as [h0|] eqn:Eh; [|discriminate]. cbn. intros [= <-]. apply delete_same. eapply H2; eauto.
  - eexists. split; [reflexivity|]. split; [exact H1|]. split; [|exact H3]. cbn [w_mem]. intros m0 h [= <-]. rewrite train_hnsw. apply H2; auto.
  - eexists. split; [reflexivity|]. split; [apply save_inv; [exact H1|intros h0; apply H2; auto]|]. split; [cbn; intros m0 h [= <-]; apply H2; auto|]. cbn. rewrite save_rows. exact H3.
  - eexists. split; [reflexivity|]. split; [apply save_inv; [exact H1|intros h0; apply H2; auto]|]. split; [discriminate|]. cbn. rewrite save_rows. exact H3.
Qed.
Lemma srun_ok es : forall w, Inv w -> exists w', srun dist keep idist ord w es = Ok w' /\ Inv w'.
Proof.
  induction es as [|e es IH]; intros w H; cbn [srun]; [eauto|]. destruct (sstep_ok w e H) as (w1 & E & H1). rewrite E. cbn [bind]. apply IH, H1.
Qed.
Lemma no_file_inv : Inv no_file.
Proof. split; [discriminate|]. split; [discriminate|constructor]. Qed.
Lemma reached_inv es w : srun dist keep idist ord no_file es = Ok w -> Inv w.
Proof. intros E. destruct (srun_ok es no_file no_file_inv) as (w' & E' & H). congruence. Qed.

(** *** Without operations in between *)
Definition quiet (e : sev) : Prop := match e with SSave _ | SClose _ => True | SOpen _ reads _ => reads = true | _ => False end.
Definition kept_h (h : hnsw vec) (w : world) : Prop :=
  (exists h1, Good h1 /\ alike h1 h /\ f_hnsw (w_file w) = Some (hnsw_save ord h1)) /\
  (forall m, w_mem w = Some m -> (sc_on (m_conf m) = true -> m_hnsw m <> None) /\ forall h2, m_hnsw m = Some h2 -> Good h2 /\ alike h2 h).
Lemma save_kept h b m f : (exists h1, Good h1 /\ alike h1 h /\ f_hnsw f = Some (hnsw_save ord h1)) -> (forall h2, m_hnsw m = Some h2 -> Good h2 /\ alike h2 h) ->
  exists h1, Good h1 /\ alike h1 h /\ f_hnsw (save_snapshot ord b m f) = Some (hnsw_save ord h1).
Proof.
  intros H G. destruct (save_cases b m f) as [->|[(h2 & Eh & ->)|(x & Ex & ->)]]; cbn [f_hnsw]; auto. exists h2. destruct (G h2 Eh). auto.
Qed.
Lemma quiet_kept h e w w' : quiet e -> kept_h h w -> sstep dist keep idist ord w e = Ok w' -> kept_h h w' /\ f_rows (w_file w') = f_rows (w_file w).
Proof.
  intros Q (K1 & K2) E. destruct e as [id v lvl|id ch|cents|b|b|c reads rand]; cbn [quiet] in Q; try contradiction; cbn [sstep] in E.
  - destruct (w_mem w) as [m|] eqn:Em; injection E as <-; [|split; [split; [auto|rewrite Em; auto]|auto]].
    split; [|apply save_rows]. split; cbn [w_file w_mem]; [apply save_kept; auto; apply K2; auto|]. auto.
  - destruct (w_mem w) as [m|] eqn:Em; injection E as <-; [|split; [split; [auto|rewrite Em; auto]|auto]].
    split; [|apply save_rows]. split; cbn [w_file w_mem]; [apply save_kept; auto; apply K2; auto|]. discriminate.
  - subst reads. assert (Es : exists m, start dist keep c true rand (w_file w) = Ok m /\ (sc_on (m_conf m) = true -> m_hnsw m <> None) /\ forall h2, m_hnsw m = Some h2 -> Good h2 /\ alike h2 h).
    { destruct K1 as (h1 & G1 & A1 & F). unfold start, start_hnsw, load_hnsw. rewrite F. destruct (sc_on c) eqn:Ec; cbn [bind].
      - destruct (load_alike (new_hnsw (sc_M c) (sc_efc c)) h1 G1) as (h' & El & A). rewrite El. cbn [bind]. eexists. split; [reflexivity|]. cbn [m_hnsw]. split; [discriminate|].
        intros h2 [= <-]. split; [eapply alike_good; eauto|eapply alike_trans; eauto].
      - eexists. split; [reflexivity|]. cbn [m_hnsw m_conf]. split; [congruence|discriminate]. }
    destruct Es as (m & Em & Q1 & Q2). rewrite Em in E. cbn [bind] in E. injection E as <-. split; [|reflexivity]. split; [exact K1|]. cbn [w_mem]. intros m0 [= <-]. auto.
Qed.
Lemma quiet_run h es : forall w w', Forall quiet es -> kept_h h w -> srun dist keep idist ord w es = Ok w' -> kept_h h w' /\ f_rows (w_file w') = f_rows (w_file w).
Proof.
  induction es as [|e es IH]; intros w w' F K E; cbn [srun] in E; [injection E as <-; auto|]. inversion F; subst.
  destruct (sstep dist keep idist ord w e) as [w1| |] eqn:E1; cbn [bind] in E; try discriminate. destruct (quiet_kept h e w w1 ltac:(assumption) K E1) as [K1 R1].
  destruct (IH w1 w' H2 K1 E) as [K2 R2]. split; [auto|congruence].
Qed.
Lemma alike_search a b q k ef : Good b -> alike a b -> hnsw_search dist a q k ef = hnsw_search dist b q k ef.
Proof.
  intros G (E1 & E2 & E3 & P). destruct a as [Ma ea na pa], b as [Mb eb nb pb]. cbn in *. subst. apply hnsw_search_ext; [apply perm_get; [apply G|exact P]|apply Permutation_length, P].
Qed.
Lemma alike_get a b id : Good b -> alike a b -> get (h_nodes a) id = get (h_nodes b) id.
Proof. intros G (E1 & E2 & E3 & P). apply perm_get; auto. apply G. Qed.

Definition kept_i (x : ivf) (w : world) : Prop :=
  f_ivf (w_file w) = Some (ivf_save x) /\ forall m, w_mem w = Some m ->
    (is_ivf (sc_type (m_conf m)) = true -> (0 < sc_dim (m_conf m))%Z -> m_ivf m = Some x) /\ (m_ivf m = None \/ m_ivf m = Some x).
Lemma load_same x y : fst (ivf_load y (ivf_save x)) = x.
Proof. now rewrite ivf_load_saved. Qed.
Lemma save_kept_i x b m f : f_ivf f = Some (ivf_save x) -> (m_ivf m = None \/ m_ivf m = Some x) -> f_ivf (save_snapshot ord b m f) = Some (ivf_save x).
Proof.
  intros H G. destruct (save_cases b m f) as [->|[(h2 & Eh & ->)|(y & Ex & ->)]]; cbn [f_ivf]; auto. destruct G; congruence.
Qed.
Lemma quiet_kept_i x e w w' : quiet e -> kept_i x w -> sstep dist keep idist ord w e = Ok w' -> kept_i x w' /\ f_rows (w_file w') = f_rows (w_file w).
Proof.
  intros Q (K1 & K2) E. destruct e as [id v lvl|id ch|cents|b|b|c reads rand]; cbn [quiet] in Q; try contradiction; cbn [sstep] in E.
  - destruct (w_mem w) as [m|] eqn:Em; injection E as <-; [|split; [split; [auto|rewrite Em; auto]|auto]].
    split; [|apply save_rows]. split; cbn [w_file w_mem]; [apply save_kept_i; auto; apply K2; auto|]. auto.
  - destruct (w_mem w) as [m|] eqn:Em; injection E as <-; [|split; [split; [auto|rewrite Em; auto]|auto]].
    split; [|apply save_rows]. split; cbn [w_file w_mem]; [apply save_kept_i; auto; apply K2; auto|]. discriminate.
  - subst reads. unfold start in E. destruct (start_hnsw dist keep c true rand (w_file w)) as [h| |]; cbn [bind] in E; try discriminate. injection E as <-.
    split; [|reflexivity]. split; [exact K1|]. cbn [w_mem]. intros m [= <-]. cbn [m_conf m_ivf]. unfold start_ivf, init_ivf. rewrite K1. cbn [sc_ivf cf_ivf].
    destruct (is_ivf (sc_type c)); cbn [negb]; [|split; [discriminate|auto]]. destruct (Z.leb_spec (sc_dim c) 0); [split; [lia|auto]|]. rewrite load_same. auto.
Qed.
Lemma quiet_run_i x es : forall w w', Forall quiet es -> kept_i x w -> srun dist keep idist ord w es = Ok w' -> kept_i x w' /\ f_rows (w_file w') = f_rows (w_file w).
Proof.
  induction es as [|e es IH]; intros w w' F K E; cbn [srun] in E; [injection E as <-; auto|]. inversion F; subst.
  destruct (sstep dist keep idist ord w e) as [w1| |] eqn:E1; cbn [bind] in E; try discriminate. destruct (quiet_kept_i x e w w1 H1 K E1) as [K1 R1].
  destruct (IH w1 w' H2 K1 E) as [K2 R2]. split; [auto|congruence].
Qed.

(** *** Rebuilding *)
Lemma insert_fold rows : forall c, NoDup (map fst c ++ map fst rows) -> fold_left (c_insert keep) rows c = c ++ map (fun r => (fst r, (keep (snd r), false))) rows.
Proof.
  induction rows as [|[i v] rows IH]; intros c N; cbn [fold_left map]; [now rewrite app_nil_r|].
  assert (E : c_insert keep c (i, v) = c ++ [(i, (keep v, false))]).
  { unfold c_insert. cbn [fst snd]. destruct (c_has c i) eqn:H; auto. exfalso. unfold c_has in H. apply existsb_exists in H as (x & Hx & Ex). apply String.eqb_eq in Ex.
    cbn in N. apply NoDup_remove_2 in N. apply N. apply in_or_app. left. rewrite <- Ex. now apply in_map. }
  rewrite E, IH; [now rewrite <- app_assoc|]. rewrite map_app, <- app_assoc. exact N.
Qed.
End P.
