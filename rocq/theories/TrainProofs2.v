(** Proofs about searches after the training of the store's IVF index. *)
From Coq Require Import String List NArith ZArith Bool Lia Permutation Sorted.
From Coq Require Import ZifyBool ZifyNat.
From Coq Require Import Floats.SpecFloat.
From Verif Require Import Base Floats64 TopK EncodingModel EncodingProofs DimensionModel DimensionProofs StoreModel StoreSpec StoreProofs StoreInv StoreProofs2 StoreProofs3
  SearchModel SearchSpec SearchProofs IvfModel IvfSpec IvfProofs TrainModel TrainSpec TrainProofs.
Import ListNotations.

Lemma encode_length v blob w : encode_vector (Some v) = Ok blob -> decode_vector blob = Ok w -> length w = length v.
Proof.
  intros E D. assert (K : decode_vector blob = Ok (map (fun x => x mod 2^32)%N v)).
  { apply encode_ok_decode.
    - apply Forall_forall. intros x Hx. apply in_map_iff in Hx as (y & <- & _). apply N.mod_lt. discriminate.
    - rewrite <- E. unfold encode_vector. rewrite map_length. destruct (_ <? _)%N; auto. do 2 f_equal.
      clear. induction v as [|x v IH]; cbn [map flat_map]; auto. rewrite le32_mod, IH. reflexivity. }
  rewrite D in K. injection K as ->. apply map_length.
Qed.
Lemma batch_rows_in ev es : forall d n d' r, batch_rows ev d n es = Ok d' -> In r (t_rows d') ->
  In r (t_rows d) \/ exists e cid blob, In e es /\ r = make_row e cid blob /\ encode_vector (e_vec e) = Ok blob.
Proof.
  induction es as [|e es IH]; cbn [batch_rows]; intros d n d' r H Hr; [injection H as <-; auto|].
  destruct (resolve_coll d e) as [cid| |]; cbn [bind] in H; try discriminate.
  destruct (encode_vector (e_vec e)) as [blob| |] eqn:Ee; cbn [bind] in H; try discriminate.
  destruct (ev_ok ev n); [|discriminate]. destruct (insert_row _ _ _) as [d1|] eqn:Ei; [|discriminate].
  pose proof (insert_row_db _ _ _ _ Ei) as ->. destruct (IH _ _ _ _ H Hr) as [Hi|(e' & c' & b' & A & B & C)].
  - cbn [with_rows t_rows] in Hi. apply put_row_in in Hi as [->|Hi]; auto. right. exists e, cid, blob. split; [left; auto|auto].
  - right. exists e', c', b'. split; [right; auto|auto].
Qed.

Lemma adapt_bits_len noise p v d w : (0 <= d)%Z -> adapt_bits noise p v d = Ok w -> Z.of_nat (length w) = d.
Proof.
  intros Hd. unfold adapt_bits. rewrite <- (map_length f32_of_bits v). set (u := map f32_of_bits v).
  destruct (Z.eq_dec (Z.of_nat (length u)) d) as [<-|Ne]; [rewrite adapt_same by reflexivity; cbn [bind]; intros [= <-]; rewrite map_length; reflexivity|].
  assert (K : (p = SmartAdapt \/ p = AutoTruncate \/ p = AutoPad) \/ (p = StrictMode \/ p = WarnOnly \/ p = UnknownPolicy)) by (destruct p; auto 6).
  destruct K as [K|K].
  - destruct (adapt_dim noise p u d K Hd) as (r & -> & <-). cbn [bind]. intros [= <-]. rewrite map_length. reflexivity.
  - rewrite adapt_refuse; auto. discriminate.
Qed.

Section T.
Variable dist : list N -> list N -> float.
Variable csrt : list (float * nat) -> list (float * nat).
Notation I := (ivf_ix dist csrt).
Notation store := (StoreModel.store I).

Definition good_index (dim : Z) (ix : option ivf) (l : list (string * list N)) : Prop :=
  (0 < dim)%Z /\ exists cents x, ix = Some x /\ Rep dist cents (Z.to_nat dim) x l /\ 1 <= length cents /\ (Z.of_nat (length cents) <= i_nprobe x)%Z.
Definition known (s : store) (l : list (string * list N)) : Prop :=
  forall r v, In r (t_rows (st_db I s)) -> decode_vector (r_blob r) = Ok v -> length v = Z.to_nat (st_dim I s) -> In (r_id r) (map fst l).
Definition covers (s : store) (m : nat) : Prop :=
  exists l, good_index (st_dim I s) (st_ix I s) l /\ length l <= m /\ known s l.

Lemma good_add dim o l id v : good_index dim o l ->
  good_index dim (option_map (fun x => istep dist x (IAdd id v)) o) (if Nat.eqb (length v) (Z.to_nat dim) then l ++ [(id, v)] else l).
Proof.
  intros (Hd & cents & x & -> & R & C & P). split; auto. exists cents, (istep dist x (IAdd id v)). split; [reflexivity|].
  destruct (rep_step dist cents (Z.to_nat dim) x l (IAdd id v) R) as [A B]; [exact Logic.I|]. split; [exact A|]. split; auto. rewrite B. exact P.
Qed.
Lemma good_adds dim ps : forall o l, good_index dim o l -> exists l',
  good_index dim (fold_left (fun z p => option_map (fun x => istep dist x (IAdd (fst p) (snd p))) z) ps o) l' /\
  length l' <= length l + length ps /\ incl l l' /\ forall p, In p ps -> length (snd p) = Z.to_nat dim -> In p l'.
Proof.
  induction ps as [|p ps IH]; intros o l G; cbn [fold_left length].
  - exists l. split; auto. split; [lia|]. split; [apply incl_refl|intros p []].
  - destruct (IH _ _ (good_add dim o l (fst p) (snd p) G)) as (l' & G' & L & In1 & In2). exists l'. split; auto.
    assert (K : length (if Nat.eqb (length (snd p)) (Z.to_nat dim) then l ++ [(fst p, snd p)] else l) <= S (length l)) by (destruct (Nat.eqb _ _); rewrite ?app_length; cbn; lia).
    split; [lia|]. split.
    + intros y Hy. apply In1. destruct (Nat.eqb _ _); auto. apply in_or_app. auto.
    + intros p' [<-|Hp] Hl; auto. apply In1. rewrite Hl, Nat.eqb_refl. apply in_or_app. right. left. destruct p; reflexivity.
Qed.
Lemma fold_option {A} (f : ivf -> A -> ivf) l : forall x, fold_left (fun z a => option_map (fun y => f y a) z) l (Some x) = Some (fold_left f l x).
Proof. induction l as [|a l IH]; intros x; cbn [fold_left option_map]; auto. Qed.
Lemma fold_map {A B C} (f : C -> B -> C) (g : A -> B) l : forall c, fold_left f (map g l) c = fold_left (fun x a => f x (g a)) l c.
Proof. induction l as [|a l IH]; intros c; cbn; auto. Qed.

Lemma covers_sub (s s' : store) m m' : covers s m -> m <= m' -> st_ix I s' = st_ix I s -> st_dim I s' = st_dim I s ->
  incl (t_rows (st_db I s')) (t_rows (st_db I s)) -> covers s' m'.
Proof.
  intros (l & G & L & K) Hm Hx Hd Hr. exists l. rewrite Hx, Hd. split; auto. split; [lia|]. intros r v Hi. rewrite Hd. apply K. apply Hr. exact Hi.
Qed.
Lemma delchunk_incl ev cs n rows cnt : incl (fst (fst (delete_chunks ev n cs rows cnt))) rows.
Proof. destruct (delete_chunks ev n cs rows cnt) as [[rows' c'] b] eqn:E. apply delete_chunks_filter in E as [p ->]. cbn. apply incl_filter. Qed.
Lemma clear_tx_incl ev docs : forall n rows rows', clear_docs_tx ev n docs rows = Some rows' -> incl rows' rows.
Proof.
  induction docs as [|x docs IH]; cbn [clear_docs_tx]; intros n rows rows' H; [injection H as <-; apply incl_refl|].
  destruct (String.eqb x ""); [eauto|]. destruct (ev_ok ev n); [|discriminate]. apply IH in H. eapply incl_tran; [exact H|apply incl_filter].
Qed.
Lemma covers_step ev s o m : covers s m -> keeps_index o ->
  covers (fst (step I ev s o)) (m + embeddings_given [(ev, o)]).
Proof.
  intros C Hk. assert (Same : forall m', m <= m' -> covers s m') by (intros; eapply covers_sub; eauto; apply incl_refl).
  assert (Dpos : (0 < st_dim I s)%Z) by (destruct C as (l & (D & _) & _); exact D).
  destruct o; try contradiction; cbn [step embeddings_given].
  - destruct (upsert I ev s e) as [s' r] eqn:E. cbn [fst]. destruct r as [[]|x|].
    + apply upsert_inv in E as (v & cid & blob & H & _ & Ee & _ & D & Ix & _ & _ & Dm & _ & Hfk).
      destruct (Z.eqb_spec (st_dim I s) 0); [lia|]. destruct C as (l & G & L & K).
      exists (if Nat.eqb (length v) (Z.to_nat (st_dim I s)) then l ++ [(e_id e, v)] else l).
      rewrite Ix, Dm. split; [apply good_add; exact G|]. split; [destruct (Nat.eqb _ _); rewrite ?app_length; cbn; lia|].
      intros r w Hr Hd Hl. rewrite D in Hr. rewrite Dm in Hl. cbn [with_rows t_rows] in Hr. apply put_row_in in Hr as [->|Hr].
      * cbn [make_row r_blob r_id] in *. rewrite (encode_length _ _ _ Ee Hd) in Hl. rewrite Hl, Nat.eqb_refl, map_app, in_app_iff. right. left. reflexivity.
      * assert (K' := K r w Hr Hd Hl). destruct (Nat.eqb _ _); auto. rewrite map_app, in_app_iff. auto.
    + destruct (upsert_fail _ _ _ _ _ _ E) as [F1 F2]; [discriminate|]. eapply covers_sub; [exact C|lia|..]; rewrite ?F1; try apply incl_refl.
      * unfold upsert in E. revert E. destruct (st_closed I s); [intros [= <- _]; reflexivity|]. destruct (Z.eqb_spec (st_dim I s) 0); [lia|]. repeat match goal with |- context [match ?x with _ => _ end] => destruct x end; intros [= <-]; try discriminate; reflexivity.
      * unfold upsert in E. revert E. destruct (st_closed I s); [intros [= <- _]; reflexivity|]. destruct (Z.eqb_spec (st_dim I s) 0); [lia|]. repeat match goal with |- context [match ?x with _ => _ end] => destruct x end; intros [= <-]; try discriminate; reflexivity.
    + destruct (upsert_fail _ _ _ _ _ _ E) as [F1 F2]; [discriminate|]. eapply covers_sub; [exact C|lia|..]; rewrite ?F1; try apply incl_refl.
      * unfold upsert in E. revert E. destruct (st_closed I s); [intros [= <- _]; reflexivity|]. destruct (Z.eqb_spec (st_dim I s) 0); [lia|]. repeat match goal with |- context [match ?x with _ => _ end] => destruct x end; intros [= <-]; try discriminate; reflexivity.
      * unfold upsert in E. revert E. destruct (st_closed I s); [intros [= <- _]; reflexivity|]. destruct (Z.eqb_spec (st_dim I s) 0); [lia|]. repeat match goal with |- context [match ?x with _ => _ end] => destruct x end; intros [= <-]; try discriminate; reflexivity.
  - unfold upsert_batch. destruct (st_closed I s); [apply Same; lia|]. destruct es as [|e0 es0]; [apply Same; lia|]. set (es := e0 :: es0).
    destruct (negb (ev_ok ev 0)); [apply Same; lia|]. destruct (batch_rows ev (st_db I s) 1 es) as [d|x|] eqn:Eb; [|apply Same; lia..].
    destruct (ev_ok ev _); [|apply Same; lia]. destruct C as (l & G & L & K).
    destruct (good_adds (st_dim I s) (map (fun e => (e_id e, vec_of e)) es) _ _ G) as (l' & G' & L' & In1 & In2).
    rewrite fold_map in G'. rewrite map_length in L'. exists l'. cbn [fst with_ix with_db st_ix st_dim]. split; [exact G'|]. split; [lia|].
    intros r v Hr Hd Hl. cbn [with_ix with_db st_db st_dim] in *. destruct (batch_rows_in _ _ _ _ _ _ Eb Hr) as [Hi|(e & cid & blob & He & -> & Ee)].
    + assert (K' := K r v Hi Hd Hl). apply in_map_iff in K' as (p & <- & Hp). apply in_map. auto.
    + destruct (e_vec e) as [w|] eqn:Ev; [|discriminate]. cbn [make_row r_blob r_id] in *. apply (in_map fst l' (e_id e, vec_of e)). apply In2.
      * apply (in_map (fun e => (e_id e, vec_of e))). exact He.
      * cbn [snd]. unfold vec_of. rewrite Ev. rewrite <- (encode_length _ _ _ Ee Hd). exact Hl.
  - unfold delete_by_doc. destruct (st_closed I s); [apply Same; lia|]. destruct (String.eqb _ _); [apply Same; lia|]. destruct (negb _); [apply Same; lia|].
    eapply covers_sub; [exact C|lia|reflexivity|reflexivity|]. apply incl_filter.
  - unfold clear. destruct (st_closed I s); [apply Same; lia|]. destruct (negb _); [apply Same; lia|].
    eapply covers_sub; [exact C|lia|reflexivity|reflexivity|]. intros r [].
  - unfold clear_by_docs. destruct (st_closed I s); [apply Same; lia|]. destruct docs as [|x0 docs0]; [apply Same; lia|]. destruct (negb _); [apply Same; lia|].
    destruct (clear_docs_tx _ _ _ _) eqn:Et; [|apply Same; lia]. destruct (ev_ok _ _); [|apply Same; lia].
    eapply covers_sub; [exact C|lia|reflexivity|reflexivity|]. eapply clear_tx_incl; eauto.
  - unfold create_collection. destruct (st_closed I s); [apply Same; lia|]. destruct (find_coll _ _); [apply Same; lia|]. destruct (Z.ltb dims 0); [apply Same; lia|].
    destruct (negb _); [apply Same; lia|]. eapply covers_sub; [exact C|lia|reflexivity|reflexivity|]. apply incl_refl.
  - unfold delete_collection. destruct (st_closed I s); [apply Same; lia|]. destruct (find_coll _ _); [|apply Same; lia]. destruct (_ && _)%bool; [|apply Same; lia].
    eapply covers_sub; [exact C|lia|reflexivity|reflexivity|]. apply incl_filter.
  - unfold create_document. repeat match goal with |- context [if ?b then _ else _] => destruct b; [apply Same; lia|] end.
    eapply covers_sub; [exact C|lia|reflexivity|reflexivity|]. apply incl_refl.
  - unfold update_document. repeat match goal with |- context [if ?b then _ else _] => destruct b; [apply Same; lia|] end.
    eapply covers_sub; [exact C|lia|reflexivity|reflexivity|]. apply incl_refl.
  - eapply covers_sub; [exact C|lia|reflexivity|reflexivity|]. apply incl_refl.
Qed.
Lemma given_cons eo h : embeddings_given (eo :: h) = embeddings_given [eo] + embeddings_given h.
Proof. destruct eo as [ev o]; destruct o; cbn; lia. Qed.
Lemma covers_run h : forall s m, covers s m -> Forall (fun eo => keeps_index (snd eo)) h -> covers (run I s h) (m + embeddings_given h).
Proof.
  induction h as [|[ev o] h IH]; intros s m C F; cbn [run fold_left].
  - cbn. rewrite Nat.add_0_r. exact C.
  - inversion F; subst. rewrite given_cons, Nat.add_assoc. apply IH; auto. apply covers_step; auto.
Qed.

Lemma read_pairs_in scan s r v : reads_all scan -> In r (t_rows (st_db I s)) -> decode_vector (r_blob r) = Ok v -> In (r_id r, v) (read_pairs dist csrt scan s).
Proof.
  intros Hs Hr Hd. unfold read_pairs, oks. apply in_flat_map. exists (Ok (r_id r, v)). split; [|left; reflexivity].
  apply in_map_iff. exists r. rewrite Hd. split; [reflexivity|]. eapply Permutation_in; [apply Hs|exact Hr].
Qed.
Lemma oks_len {A} (l : list (outcome A)) : length (oks l) <= length l.
Proof. induction l as [|[a|e|] l IH]; cbn in *; auto; unfold oks in *; lia. Qed.
Lemma read_pairs_len scan s : reads_all scan -> length (read_pairs dist csrt scan s) <= length (t_rows (st_db I s)).
Proof. intros Hs. unfold read_pairs. etransitivity; [apply oks_len|]. rewrite map_length, <- (Permutation_length (Hs (t_rows (st_db I s)))). apply le_n. Qed.

Lemma trained_covers cf envs ev scan kmeans s n s' : ivf_store dist csrt cf envs s -> reads_all scan -> clusters kmeans ->
  (n_wanted cf n <= 10)%Z -> (cf_nprobe cf <= 0 \/ n_wanted cf n <= cf_nprobe cf)%Z ->
  train_index dist csrt cf ev scan kmeans s n = (s', Ok tt) -> covers s' (length (t_rows (st_db I s))).
Proof.
  intros Hi Hs [Hk _] H10 Hp E. apply (train_inv dist csrt cf) in E; [|exact (ivf_store_shape dist csrt cf envs s Hi)].
  destruct E as [(_ & E & _)|(_ & _ & _ & x & (Nc & V & Is & (D & Dp & Np & Li & Pr) & _) & [(_ & E & _)|(cents & y & _ & _ & _ & Ek & Et & ->)])]; [congruence..|].
  pose proof (wanted_pos cf n) as Wp. apply Hk in Ek.
  assert (R : Rep dist cents (Z.to_nat (st_dim I s)) y [] /\ i_nprobe y = i_nprobe x).
  { unfold ivf_train in Et. destruct (Nat.ltb _ _); [discriminate|]. destruct (Nat.eqb_spec (i_nc x) 0); [discriminate|]. injection Et as <-. split; [|reflexivity].
    unfold Rep. cbn. split; auto. split; auto. split; auto. split; auto. split; auto. split; auto.
    rewrite Ek, <- Li. clear. generalize 0. induction (i_inv x) as [|a l IH]; intros b; cbn; f_equal; auto. }
  destruct R as [R Py]. assert (G : good_index (st_dim I s) (Some y) []).
  { split; auto. exists cents, y. split; auto. split; auto. split; [lia|]. rewrite Py, Ek. destruct (Z.ltb_spec 0 (cf_nprobe cf)); lia. }
  destruct (good_adds (st_dim I s) (read_pairs dist csrt scan s) _ _ G) as (l & G' & L & _ & In2). rewrite fold_option in G'.
  exists l. cbn [with_ix st_ix st_dim st_db]. split; [exact G'|]. split; [cbn in L; pose proof (read_pairs_len scan s Hs); lia|].
  intros r v Hr Hd Hl. cbn [with_ix st_db st_dim] in *. apply (in_map fst l (r_id r, v)). apply In2; [|exact Hl]. apply read_pairs_in; auto.
Qed.

Lemma covered_search s m w k : sort_ok closer csrt -> covers s m -> m <= k -> Z.of_nat (length w) = st_dim I s ->
  exists x found, st_ix I s = Some x /\ ivf_search dist csrt x w (Z.of_nat k) = Ok found /\
    forall r v, In r (t_rows (st_db I s)) -> decode_vector (r_blob r) = Ok v -> Z.of_nat (length v) = st_dim I s -> In (r_id r) (map snd found).
Proof.
  intros Hc (l & (Dp & cents & x & Ex & R & C & P) & L & K) Hm Hw. exists x.
  destruct (search_form dist cents (Z.to_nat (st_dim I s)) csrt x l w (Z.of_nat k) Hc R) as (cands & h & E & Hh & Pm); [lia..|].
  rewrite (all_probed dist cents csrt x l w Hc C P) in Pm.
  eexists. split; [exact Ex|]. split; [exact E|]. intros r v Hr Hd Hl. assert (Hin : In (r_id r) (map fst l)) by (eapply K; eauto; lia).
  assert (Lc : length cands <= k).
  { rewrite <- (map_length h). rewrite (Permutation_length Pm). unfold with_distance. rewrite map_length. lia. }
  rewrite Nat2Z.id, firstn_all2 by (rewrite <- (Permutation_length (proj1 (Hc cands))); exact Lc).
  eapply Permutation_in; [apply Permutation_map; apply Permutation_map; exact (proj1 (Hc cands))|].
  eapply Permutation_in; [apply Permutation_map; apply Permutation_sym; exact Pm|]. unfold with_distance. rewrite map_map. exact Hin.
Qed.

Lemma lists_same (s : store) (P Q : embedding -> Prop) f all :
  (forall id e0, get_by_id I s id = Ok e0 -> e_id e0 = id -> (P (without_acl e0) <-> Q (without_acl e0))) ->
  lists_stored I s P f all -> lists_stored I s Q f all.
Proof.
  intros H [N L]. split; auto. intros e x. rewrite L. split; intros (e0 & A & -> & B & C); exists e0; (split; [exact A|]); (split; [reflexivity|]); (split; [|exact C]).
  - eapply H; eauto.
  - eapply H; eauto.
Qed.

Lemma trained_search_lemma srt envs noise sc (s : store) q o out m cf :
  sort_ok by_score srt -> sort_ok closer csrt -> ivf_store dist csrt cf envs s -> covers s m -> uniform dist csrt s ->
  scores_are_numbers I noise sc o s q -> not_nan (o_threshold o) -> (forall v, ~ In ("doc_id"%string, v) (o_filter o)) ->
  m <= result_count o * 4 -> search I srt noise UseIVF sc s q o = Ok out ->
  exists w all, query_used noise (st_policy I s) (st_dim I s) q w /\
    (exists x found, st_ix I s = Some x /\ ivf_search dist csrt x w (Z.of_nat (result_count o * 4)) = Ok found) /\
    lists_stored I s (fun e => qualifies o e /\ above_threshold o (score sc o w e)) (score sc o w) all /\
    is_topk by_score (result_count o) all out.
Proof.
  intros Hs Hc Hi Cv Un Hn Ht Hf Hm H. pose proof (frozen_reachable dist csrt cf envs s Hi (st_ix I s)) as Rf.
  assert (Dp : (0 < st_dim I s)%Z) by (destruct Cv as (l & (D & _) & _); exact D).
  destruct (search_over_index_lemma (frozen I) srt noise UseIVF sc (fz I s (st_ix I s)) q o out envs Hs Rf Hn Ht ltac:(discriminate) H) as (w & Hq & A & B).
  rewrite topk_count in *. assert (Lw : Z.of_nat (length w) = st_dim I s).
  { unfold query_used in Hq. cbn [fz st_policy st_dim] in Hq. destruct Hq as [[_ [Q|Q]]|[_ Q]]; [lia|auto|].
    apply adapt_bits_len in Q; [exact Q|lia]. }
  destruct (covered_search s m w (result_count o * 4) Hc Cv Hm Lw) as (x & found & Ex & Ef & Kf).
  assert (Ids : ix_search (frozen I) (st_ix (frozen I) (fz I s (st_ix I s))) w (result_count o * 4) = map snd found).
  { cbn [frozen ix_search fz st_ix ivf_ix]. rewrite Ex, Ef. reflexivity. }
  cbv zeta in A, B. rewrite Ids in A, B. exists w. destruct (map snd found) as [|a fl] eqn:Em.
  - specialize (A eq_refl). destruct (search_exact_lemma (frozen I) srt noise sc (fz I s (st_ix I s)) q o out envs Hs Rf Hn A) as (w' & all & Hq' & L & T).
    assert (All0 : all = []).
    { destruct all as [|[e z] all]; auto. exfalso. destruct L as [_ L]. destruct (proj1 (L e z) (or_introl eq_refl)) as (e0 & G & _).
      destruct (get_ok_inv I s (e_id e) e0 G) as (r & _ & _ & Sc & _ & _ & _ & Hr). unfold scan_get in Sc.
      destruct (decode_vector (r_blob r)) as [v| |] eqn:Ed; cbn [bind] in Sc; try discriminate. injection Sc as Sc. apply (Kf r v Hr Ed).
      rewrite <- (Un _ _ G). rewrite <- Sc. reflexivity. }
    exists []. split; [exact Hq|]. split; [eauto|]. rewrite topk_count in T. rewrite All0 in *. split; [|exact T].
    split; [constructor|]. intros e z. split; [intros []|]. intros (e0 & G & _).
    destruct (get_ok_inv I s (e_id e) e0 G) as (r & _ & _ & Sc & _ & _ & _ & Hr). unfold scan_get in Sc.
    destruct (decode_vector (r_blob r)) as [v| |] eqn:Ed; cbn [bind] in Sc; try discriminate. injection Sc as Sc. exfalso. apply (Kf r v Hr Ed).
    rewrite <- (Un _ _ G). rewrite <- Sc. reflexivity.
  - destruct B as (all & L & T); [discriminate|]. exists all. split; [exact Hq|]. split; [eauto|]. split; [|exact T].
    eapply (lists_same s); [|exact L]. intros id e0 G Hid. cbn beta. unfold qualifies.
    assert (Doc : doc_matches o (without_acl e0)) by (intros v Hv; destruct (Hf v Hv)).
    assert (Hin : In (e_id (without_acl e0)) (a :: fl)).
    { destruct (get_ok_inv I s id e0 G) as (r & _ & _ & Sc & _ & _ & Hrid & Hr). unfold scan_get in Sc.
      destruct (decode_vector (r_blob r)) as [v| |] eqn:Ed; cbn [bind] in Sc; try discriminate. injection Sc as Sc.
      assert (Hv := Un _ _ G). rewrite <- Sc in Hv. specialize (Kf r v Hr Ed Hv). cbn [without_acl e_id]. rewrite Hid, <- Hrid. exact Kf. }
    tauto.
Qed.
End T.
