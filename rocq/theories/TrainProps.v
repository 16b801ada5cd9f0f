(** C189-C193: training the store's IVF index, and searches before and after it. *)
From Coq Require Import String List NArith ZArith Bool Lia Permutation.
From Coq Require Import ZifyBool ZifyNat.
From Coq Require Import Floats.SpecFloat.
From Verif Require Import Base Floats64 TopK EncodingModel EncodingProofs DimensionModel SimilarityModel StoreModel StoreSpec StoreProofs StoreInv
  StoreProofs2 StoreProofs3 StoreProps SearchModel SearchSpec SearchProofs SearchProps IndexDistModel IvfModel IvfSpec IvfProofs IvfProps
  TrainModel TrainSpec TrainProofs TrainProofs2.
Import ListNotations.
Open Scope string_scope.
Open Scope list_scope.

Lemma wanted_is cf n k : centroids_wanted cf n k -> k = n_wanted cf n.
Proof.
  unfold centroids_wanted, n_wanted, conf_centroids. intros [[A ->]|[(A & B & ->)|(A & B & ->)]]; destruct (Z.leb_spec n 0); try lia; destruct (Z.leb_spec (cf_nc cf) 0); lia.
Qed.

Lemma nodup_key l (a b : row) : NoDup (map r_id l) -> In a l -> In b l -> r_id a = r_id b -> a = b.
Proof.
  induction l as [|x l IH]; cbn; [intros _ []|]. intros N Ha Hb E. inversion N as [|? ? Hn Hd]; subst. destruct Ha as [->|Ha], Hb as [->|Hb]; auto.
  - exfalso. apply Hn. rewrite E. apply in_map. auto.
  - exfalso. apply Hn. rewrite <- E. apply in_map. auto.
Qed.

(** ** C189 *)
(** Whatever becomes of the call, the stored data and the settings are the same. *)
Theorem train_index_keeps_data :
  forall dist csrt cf ev scan kmeans s n s' r, train_index dist csrt cf ev scan kmeans s n = (s', r) ->
  st_db _ s' = st_db _ s /\ st_dim _ s' = st_dim _ s /\ st_policy _ s' = st_policy _ s /\ st_closed _ s' = st_closed _ s.
Proof.
  intros dist csrt cf ev scan kmeans s n s' r E. destruct (train_parts dist csrt cf ev scan kmeans s n) as (i & r' & E'). rewrite E' in E. injection E as <- _.
  repeat split; reflexivity.
Qed.

(** On an open store whose vectors all have its dimension the call succeeds exactly when the
    index type is IVF, the dimension is known, the data can be read, and there are as many
    stored embeddings as centroids wanted. *)
Theorem train_index_accepts :
  forall dist csrt cf envs ev scan kmeans s n k ids,
  ivf_store dist csrt cf envs s -> st_closed _ s = false -> stored_ids dist csrt s ids -> uniform dist csrt s ->
  reads_all scan -> clusters kmeans -> centroids_wanted cf n k ->
  (snd (train_index dist csrt cf ev scan kmeans s n) = Ok tt <->
   cf_ivf cf = true /\ (0 < st_dim _ s)%Z /\ ev_ok ev 0 = true /\ (k <= Z.of_nat (length ids))%Z).
Proof.
  intros dist csrt cf envs ev scan kmeans s n k ids Hi Hc [Nd Hids] Un Hs Hk Hw. apply wanted_is in Hw. subst k.
  pose proof (frozen_reachable dist csrt cf envs s Hi (st_ix _ s)) as Rf.
  pose proof (reachable_decodes _ _ _ Rf) as Dec. pose proof (reachable_uniq _ _ _ Rf) as Uq. cbn [fz st_db] in Dec, Uq.
  set (I := ivf_ix dist csrt) in *.
  assert (Lr : length (read_pairs dist csrt scan s) = length ids).
  { assert (E : length (read_pairs dist csrt scan s) = length (scan (t_rows (st_db I s)))).
    { unfold read_pairs. fold I. assert (D : forall r, In r (scan (t_rows (st_db I s))) -> decodes r) by (intros r Hr; apply Dec; eapply Permutation_in; [apply Permutation_sym; apply Hs|exact Hr]).
      induction (scan (t_rows (st_db I s))) as [|r l IH]; [reflexivity|]. cbn [map oks flat_map]. destruct (D r (or_introl eq_refl)) as [[v Hv] _]. rewrite Hv. cbn. f_equal. apply IH. intros r' Hr'. apply D. right. exact Hr'. }
    rewrite E, <- (Permutation_length (Hs _)), <- (map_length r_id). apply Nat.le_antisymm; apply NoDup_incl_length; auto.
    - intros id Hin. apply Hids. apply in_map_iff in Hin as (r & <- & Hr). destruct (Dec r Hr) as [[v Hv] _].
      unfold get_by_id. rewrite Hc. assert (F : find (row_is (r_id r)) (t_rows (st_db I s)) <> None).
      { intros F. apply (find_none _ _ F) in Hr. unfold row_is in Hr. rewrite String.eqb_refl in Hr. discriminate. }
      destruct (find _ _) as [r'|] eqn:Ef; [|congruence]. apply find_some in Ef as [Hr' _]. destruct (Dec r' Hr') as [[v' Hv'] _].
      unfold scan_get. rewrite Hv'. cbn [bind]. eexists; reflexivity.
    - intros id Hin. apply Hids in Hin as [e G]. destruct (get_ok_inv I s id e G) as (r & _ & _ & _ & _ & _ & <- & Hr). apply in_map. exact Hr. }
  assert (Un' : forall v, In v (map snd (read_pairs dist csrt scan s)) -> length v = Z.to_nat (st_dim I s)).
  { intros v Hv. apply in_map_iff in Hv as ([id v'] & <- & Hp). unfold read_pairs, oks in Hp. apply in_flat_map in Hp as (y & Hy & Hp).
    apply in_map_iff in Hy as (r & <- & Hr). destruct (decode_vector (r_blob r)) as [w| |] eqn:Ed; cbn [bind] in Hp; try contradiction. destruct Hp as [[= <- <-]|[]].
    apply (Permutation_in _ (Permutation_sym (Hs _))) in Hr.
    assert (G : get_by_id I s (r_id r) = scan_get true (st_db I s) r).
    { unfold get_by_id. rewrite Hc. destruct (find (row_is (r_id r)) (t_rows (st_db I s))) as [r'|] eqn:Ef.
      - apply find_some in Ef as [Hr' E]. unfold row_is in E. apply String.eqb_eq in E. rewrite (nodup_key (t_rows (st_db I s)) r' r); auto.
      - apply (find_none _ _ Ef) in Hr. unfold row_is in Hr. rewrite String.eqb_refl in Hr. discriminate. }
    unfold scan_get in G. rewrite Ed in G. cbn [bind] in G. apply Un in G. cbn [vec_of e_vec snd] in *. unfold I. lia. }
  destruct (train_index dist csrt cf ev scan kmeans s n) as [s' r] eqn:E. cbn [snd]. pose proof (ivf_store_shape dist csrt cf envs s Hi) as Sh.
  pose proof (wanted_pos cf n) as Wp.
  apply (train_inv dist csrt cf) in E; auto.
  destruct E as [(_ & Er & W)|(_ & Ci & W & x & B & [(_ & Er & W2)|(cents & y & -> & Eo & Le & _)])].
  - split; [intros ->; congruence|]. intros (A1 & A2 & _). fold I in W. destruct W as [W|[W|[_ W]]]; try congruence. lia.
  - split; [intros ->; congruence|]. intros (_ & _ & A3 & A4). destruct W2 as [W2|[W2|W2]]; [congruence|lia|].
    destruct B as (Nc & _). destruct Hk as [_ Hk]. destruct (Hk (map snd (read_pairs dist csrt scan s)) (i_nc x) (Z.to_nat (st_dim I s))) as [cs Hcs]; [lia| |exact Un'|destruct (W2 cs Hcs)].
    rewrite map_length. lia.
  - split; auto. intros _. split; auto. split; [|split; [auto|lia]]. destruct W as [W|W]; auto. fold I in W. destruct (st_ix I s) as [x0|] eqn:Ex; [|congruence]. apply (Sh x0 Ex).
Qed.

(** ** C190 *)
(** After a successful training and any later calls that delete nothing by id, a search is
    exact (the statement of search_exact) as long as four times TopK is at least the number of
    embeddings stored at the training plus those given since. At most ten centroids are asked
    for, and not more than the configured number of probed lists. *)
Theorem trained_search_exact :
  forall dist csrt srt cf envs ev scan kmeans s n k ids s1 h noise sc q o out,
  sort_ok closer csrt -> sort_ok by_score srt -> ivf_store dist csrt cf envs s -> st_closed _ s = false -> stored_ids dist csrt s ids ->
  reads_all scan -> clusters kmeans -> centroids_wanted cf n k -> (k <= 10)%Z -> (cf_nprobe cf <= 0 \/ k <= cf_nprobe cf)%Z ->
  train_index dist csrt cf ev scan kmeans s n = (s1, Ok tt) ->
  Forall (fun eo => envs (fst eo) /\ keeps_index (snd eo)) h ->
  let s2 := run (ivf_ix dist csrt) s1 h in
  uniform dist csrt s2 -> scores_are_numbers _ noise sc o s2 q -> not_nan (o_threshold o) ->
  (forall v, ~ In ("doc_id", v) (o_filter o)) -> length ids + embeddings_given h <= result_count o * 4 ->
  search (ivf_ix dist csrt) srt noise UseIVF sc s2 q o = Ok out ->
  exists w all,
    query_used noise (st_policy _ s2) (st_dim _ s2) q w /\
    (exists x found, st_ix _ s2 = Some x /\ ivf_search dist csrt x w (Z.of_nat (result_count o * 4)) = Ok found) /\
    lists_stored _ s2 (fun e => qualifies o e /\ above_threshold o (score sc o w e)) (score sc o w) all /\
    is_topk by_score (result_count o) all out.
Proof.
  intros dist csrt srt cf envs ev scan kmeans s n k ids s1 h noise sc q o out Hc Hs Hi Hcl [Nd Hids] Hr Hk Hw H10 Hp E F s2 Un Sn Nt Nf Le Es.
  apply wanted_is in Hw. subst k.
  pose proof (trained_covers dist csrt cf envs ev scan kmeans s n s1 Hi Hr Hk H10 Hp E) as Cv.
  apply (covers_run dist csrt h) in Cv; [|eapply Forall_impl; [|exact F]; cbn; tauto]. fold s2 in Cv.
  assert (Hi2 : ivf_store dist csrt cf envs s2).
  { unfold s2. assert (H1 : ivf_store dist csrt cf envs s1) by (change s1 with (fst (s1, Ok tt)); rewrite <- E; apply iv_train; auto).
    clear - H1 F. revert s1 H1. induction h as [|[ev o] h IH]; intros s1 H1; cbn; auto. inversion F; subst. apply IH; auto. apply iv_step; tauto. }
  refine (trained_search_lemma dist csrt srt envs noise sc s2 q o out _ cf Hs Hc Hi2 Cv Un Sn Nt Nf _ Es).
  etransitivity; [|exact Le]. apply Nat.add_le_mono_r.
  pose proof (frozen_reachable dist csrt cf envs s Hi (st_ix _ s)) as Rf.
  pose proof (reachable_decodes _ _ _ Rf) as Dec. pose proof (reachable_uniq _ _ _ Rf) as Uq. cbn [fz st_db] in Dec, Uq.
  rewrite <- (map_length r_id). apply NoDup_incl_length; auto. intros id Hin. apply Hids. apply in_map_iff in Hin as (r & <- & Hr').
  unfold get_by_id. rewrite Hcl. assert (Fn : find (row_is (r_id r)) (t_rows (st_db (ivf_ix dist csrt) s)) <> None).
  { intros Fn. apply (find_none _ _ Fn) in Hr'. unfold row_is in Hr'. rewrite String.eqb_refl in Hr'. discriminate. }
  destruct (find _ _) as [r'|] eqn:Ef; [|congruence]. apply find_some in Ef as [Hr'' _]. destruct (Dec r' Hr'') as [[v' Hv'] _].
  unfold scan_get. rewrite Hv'. cbn [bind]. eexists; reflexivity.
Qed.

(** ** C191 *)
Lemma untrained_inv dist csrt cf envs s : untrained dist csrt cf envs s ->
  ivf_store dist csrt cf envs s /\ forall x, st_ix _ s = Some x -> i_trained x = false.
Proof.
  induction 1 as [s dim p s' [H|H] Ho|s ev o H [IH1 IH2] He|s ev scan kmeans n s' r H [IH1 IH2] Hs Hk E Hr].
  - rewrite H in Ho. split; [eapply iv_new; eauto|]. unfold open_store in Ho. destruct (Z.ltb dim 0); [discriminate|]. injection Ho as <-. cbn [st_ix].
    intros x Hx. eapply init_shape; eauto.
  - split; [eapply iv_reopen; eauto|]. unfold open_store in Ho. destruct (Z.ltb dim 0); [discriminate|]. injection Ho as <-. cbn [st_ix].
    intros x Hx. eapply init_shape; eauto.
  - split; [apply iv_step; auto|]. destruct (step_ix dist csrt ev s o) as [T _]. exact (touched_untrained dist _ _ T IH2).
  - split; [change s' with (fst (s', r)); rewrite <- E; apply iv_train; auto|].
    apply (train_inv dist csrt cf) in E; [|exact (ivf_store_shape dist csrt cf envs s IH1)].
    destruct E as [(-> & _)|(_ & _ & _ & x & (_ & _ & _ & _ & B) & [(-> & _)|(cents & y & -> & _)])]; auto; [|congruence].
    cbn [with_ix st_ix]. intros z [= <-]. destruct B as [B|(x0 & Ex & Et)]; auto. rewrite (IH2 x0 Ex) in Et. discriminate.
Qed.
(** Until a training has succeeded every search, whatever calls and failed trainings came
    before, is the exhaustive search of C16. *)
Theorem untrained_search_exact :
  forall dist csrt srt cf envs s noise sc q o, untrained dist csrt cf envs s ->
  search (ivf_ix dist csrt) srt noise UseIVF sc s q o = search (ivf_ix dist csrt) srt noise Linear sc s q o.
Proof.
  intros dist csrt srt cf envs s noise sc q o H. apply untrained_inv in H as [_ H]. unfold search. destruct (st_closed _ s); auto.
  destruct (prepare_query _ _ _ _) as [w| |]; cbn [bind]; auto. f_equal. cbn [search_core]. unfold search_indexed. cbn [ivf_ix ix_search].
  destruct (st_ix (ivf_ix dist csrt) s) as [x|] eqn:Ex; [|reflexivity]. specialize (H x eq_refl). unfold ivf_search. rewrite H. reflexivity.
Qed.

(** *** A store of one-dimensional vectors to run *)
Definition tconf : iconf := {| cf_ivf := true; cf_nc := 2; cf_nprobe := 0 |}.
Notation TI := (ivf_ix euclidean_distance isrt).
Definition one_half_32 : N := 1069547520.
(** Centroids 1.5 and 10. *)
Definition kmeans2 (vs : list (list N)) (k : nat) : outcome (list (list N)) := Ok (firstn k ([[one_half_32]; [ten]] ++ repeat [] k)).
Lemma kmeans2_ok : clusters kmeans2.
Proof.
  split.
  - intros vs k cs E. unfold kmeans2 in E. assert (E' : cs = firstn k ([[one_half_32]; [ten]] ++ repeat [] k)) by congruence. subst cs. rewrite firstn_length, app_length, repeat_length. cbn. lia.
  - intros vs k d _ _ _. eexists. reflexivity.
Qed.
Definition opened : StoreModel.store TI := Build_store TI (init_db 1 empty_db) 1 SmartAdapt false (init_ivf tconf 1).
Definition upd (l : list op) (s : StoreModel.store TI) : StoreModel.store TI := run TI s (map good l).
Definition trn (n : Z) (s : StoreModel.store TI) : StoreModel.store TI * outcome unit := train_index euclidean_distance isrt tconf good_env (fun rs => rs) kmeans2 s n.
Definition fnd (s : StoreModel.store TI) (q : N) (k : Z) : list string :=
  ids_of (search TI (isort by_score) no_noise UseIVF cosine_scorer s (Some [q]) (opts "" k [] f_zero)).
Lemma opened_ok : ivf_store euclidean_distance isrt tconf fk_env opened.
Proof. eapply (iv_new _ _ _ _ 1%Z SmartAdapt). reflexivity. Qed.
Lemma upd_ok l s : ivf_store euclidean_distance isrt tconf fk_env s -> ivf_store euclidean_distance isrt tconf fk_env (upd l s).
Proof. unfold upd. revert s. induction l as [|o l IH]; intros s H; cbn; auto. apply IH. apply iv_step; auto. reflexivity. Qed.
Lemma trn_ok n s : ivf_store euclidean_distance isrt tconf fk_env s -> ivf_store euclidean_distance isrt tconf fk_env (fst (trn n s)).
Proof. intros H. apply iv_train; auto; [intros rs; apply Permutation_refl|apply kmeans2_ok]. Qed.
Definition three : list op := [OUpsert (emb "c" [ten]); OUpsert (emb "a" [one]); OUpsert (emb "b" [two])].

Example train_index_ex :
  snd (trn 0 (upd three opened)) = Ok tt /\ snd (trn 4 (upd three opened)) = Err EOther /\
  fnd (fst (trn 0 (upd three opened))) one 5 = fnd (upd three opened) one 5 /\
  length (fnd (upd [OUpsert (emb "d" [ten]); OClearDocs ["x"]] (fst (trn 0 (upd three opened)))) one 5) = 4.
Proof. split; [vm_compute; reflexivity|]. split; [vm_compute; reflexivity|]. split; vm_compute; reflexivity. Qed.
Example train_hypotheses_ok :
  ivf_store euclidean_distance isrt tconf fk_env (upd three opened) /\ stored_ids euclidean_distance isrt (upd three opened) ["c"; "a"; "b"] /\
  uniform euclidean_distance isrt (upd three opened) /\ centroids_wanted tconf 0 2 /\
  untrained euclidean_distance isrt tconf fk_env (upd three opened).
Proof.
  assert (K : forall id e, get_by_id TI (upd three opened) id = Ok e -> In id ["c"; "a"; "b"] /\ length (vec_of e) = 1).
  { intros id e G. destruct (get_ok_inv TI _ id e G) as (r & _ & _ & Sc & _ & _ & <- & Hr).
    set (rows := t_rows _) in Hr. vm_compute in rows. subst rows. cbn [In] in Hr.
    destruct Hr as [<-|[<-|[<-|[]]]]; (split; [cbn; auto|]); unfold scan_get in Sc; cbn [r_blob] in Sc;
    match type of Sc with bind ?d _ = _ => let d' := eval vm_compute in d in replace d with d' in Sc by (vm_compute; reflexivity) end; cbn [bind] in Sc; injection Sc as <-; reflexivity. }
  split; [apply upd_ok; apply opened_ok|]. split.
  - split; [repeat constructor; cbn; intuition discriminate|]. intros id. split; [|intros [e G]; apply (K id e G)].
    intros [<-|[<-|[<-|[]]]]; eexists; vm_compute; reflexivity.
  - split; [intros id e G; destruct (K id e G) as [_ L]; rewrite L; reflexivity|]. split; [right; left; cbn; lia|].
    unfold upd. assert (U : untrained euclidean_distance isrt tconf fk_env opened) by (eapply (un_open _ _ _ _ (Build_store TI empty_db 0 SmartAdapt false None) 1%Z SmartAdapt); [left; reflexivity|reflexivity]).
    revert U. generalize opened. generalize three. intros l. induction l as [|o l IH]; intros s U; cbn; auto. apply IH. apply un_step; auto. reflexivity.
Qed.

(** ** C192 refuted: a training that fails leaves an emptied index that still counts as
    trained; the next insertion makes everything stored before invisible to searches. *)
Theorem failed_training_refuted :
  exists s s1 s2,
    ivf_store euclidean_distance isrt tconf fk_env s /\ s1 = fst (trn 2 s) /\ snd (trn 2 s) = Err EOther /\
    s2 = upd [OUpsert (emb "d" [ten])] s1 /\ (exists e, get_by_id TI s2 "c" = Ok e) /\
    fnd s one 5 = ["c"] /\ fnd s1 one 5 = ["c"] /\ fnd s2 one 5 = ["d"].
Proof.
  exists (upd [ODelete "b"; ODelete "a"] (fst (trn 2 (upd three opened)))). eexists. eexists.
  split; [apply upd_ok; apply trn_ok; apply upd_ok; apply opened_ok|]. split; [reflexivity|]. split; [vm_compute; reflexivity|]. split; [reflexivity|].
  split; [eexists; vm_compute; reflexivity|].
  split; [vm_compute; reflexivity|]. split; vm_compute; reflexivity.
Qed.

(** ** C193 refuted: deleting one embedding of a trained store makes the next search panic. *)
Theorem trained_delete_refuted :
  exists s x, ivf_store euclidean_distance isrt tconf fk_env s /\ s = upd [ODelete "a"] (fst (trn 2 (upd three opened))) /\
    st_ix TI s = Some x /\ ivf_search euclidean_distance isrt x [one] 20 = Panic.
Proof.
  exists (upd [ODelete "a"] (fst (trn 2 (upd three opened)))). eexists.
  split; [apply upd_ok; apply trn_ok; apply upd_ok; apply opened_ok|]. split; [reflexivity|]. split; [vm_compute; reflexivity|]. vm_compute. reflexivity.
Qed.

Print Assumptions train_index_keeps_data.
Print Assumptions train_index_accepts.
Print Assumptions trained_search_exact.
Print Assumptions untrained_search_exact.
Print Assumptions failed_training_refuted.
Print Assumptions trained_delete_refuted.
