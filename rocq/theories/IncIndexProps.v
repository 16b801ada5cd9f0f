(** C79, C80: the incremental index, for every schedule of additions, worker steps,
    searches and closing. *)
From Coq Require Import String List NArith ZArith Bool Arith Lia Permutation Sorted.
From Coq Require Import Floats.SpecFloat.
From Verif Require Import Base Floats64 TopK EncodingModel DimensionModel SimilarityModel StoreModel StoreSpec StoreProofs StoreInv StoreProofs2 StoreProofs3 StoreProps
  SearchModel SearchSpec SearchProofs SearchProps DiversityModel DiversitySpec DiversityProofs DiversityProps RerankProps StreamModel StreamSpec StreamProofs StreamProps IncIndexModel.
Import ListNotations.
Open Scope string_scope.
Open Scope list_scope.

(** *** specification *)
(** The embeddings AddAsync has accepted (reported no error for) in a run. *)
Fixpoint accepted_from (s : incr) (evs : list event) : list embedding :=
  match evs with
  | [] => []
  | ev :: evs' => (match ev with EAdd e => if q_crashed s then [] else if accepts s then [e] else [] | _ => [] end) ++ accepted_from (incr_step s ev) evs'
  end.
Definition accepted_adds (evs : list event) : list embedding := accepted_from new_incr evs.
Definition is_take (ev : event) : bool := match ev with ETake => true | _ => false end.

(** *** proofs *)
Definition everything (s : incr) : list embedding := concat (q_written s) ++ q_batch s ++ q_held s ++ q_queue s.
Lemma without_perm {A} n (l : list A) e : nth_error l n = Some e -> Permutation l (e :: without n l).
Proof.
  revert n. induction l as [|x l IH]; intros [|n] H; try discriminate; cbn in H.
  - injection H as ->. auto.
  - unfold without. cbn [firstn skipn app]. eapply perm_trans; [apply perm_skip; apply IH; exact H|]. apply perm_swap.
Qed.
Lemma written_concat s b : concat (match b with [] => q_written s | _ => q_written s ++ [b] end) = concat (q_written s) ++ b.
Proof. destruct b; [rewrite app_nil_r; auto|]. rewrite concat_app. cbn. rewrite app_nil_r. reflexivity. Qed.
Lemma step_conserves s ev : Permutation (everything s ++ (match ev with EAdd e => if q_crashed s then [] else if accepts s then [e] else [] | _ => [] end)) (everything (incr_step s ev)).
Proof.
  unfold incr_step. destruct (q_crashed s); [destruct ev; rewrite app_nil_r; auto|]. destruct ev; rewrite ?app_nil_r.
  - destruct (accepts s); rewrite ?app_nil_r; auto. unfold everything. cbn. rewrite <- !app_assoc. auto.
  - destruct (q_done s); auto. destruct (q_queue s) as [|e queue] eqn:Eq.
    + destruct (q_closed s); auto. unfold everything, flush. cbn [q_written q_batch q_held q_queue]. rewrite written_concat, Eq. rewrite <- !app_assoc. auto.
    + assert (P : Permutation (q_batch s ++ q_held s ++ e :: queue) ((q_batch s ++ [e]) ++ q_held s ++ queue)).
      { rewrite <- app_assoc. apply Permutation_app_head. apply Permutation_sym. exact (Permutation_middle (q_held s) queue e). }
      destruct (100 <=? _)%nat; unfold everything, flush, with_queue; cbn [q_written q_batch q_held q_queue]; rewrite ?written_concat, Eq.
      * rewrite <- (app_assoc (concat _)). cbn [app]. apply Permutation_app_head. exact P.
      * apply Permutation_app_head. exact P.
  - destruct (q_done s); auto. unfold everything, flush. cbn [q_written q_batch q_held q_queue]. rewrite written_concat. rewrite <- !app_assoc. auto.
  - destruct (q_queue s) as [|e queue] eqn:Eq; auto. unfold everything, with_queue. cbn [q_written q_batch q_held q_queue]. rewrite Eq. do 2 apply Permutation_app_head. rewrite <- app_assoc. auto.
  - destruct (nth_error (q_held s) n) as [e|] eqn:E; auto. destruct (q_closed s); auto. destruct (_ <? _)%nat; auto.
    unfold everything, with_queue. cbn [q_written q_batch q_held q_queue]. do 2 apply Permutation_app_head.
    eapply perm_trans; [apply Permutation_app_tail; apply (without_perm n _ e E)|]. cbn. rewrite app_assoc. apply Permutation_cons_append.
  - auto.
Qed.
Lemma run_conserves evs : forall s, Permutation (everything s ++ accepted_from s evs) (everything (fold_left incr_step evs s)).
Proof.
  induction evs as [|ev evs IH]; intros s; cbn [accepted_from fold_left]; [rewrite app_nil_r; auto|].
  eapply perm_trans; [|apply IH]. rewrite app_assoc. apply Permutation_app_tail. apply step_conserves.
Qed.
Definition drained (s : incr) : Prop := q_done s = true -> q_closed s = true /\ q_queue s = [] /\ q_batch s = [].
Lemma step_drained s ev : drained s -> drained (incr_step s ev).
Proof.
  unfold drained, incr_step. intros H. destruct (q_crashed s); auto. destruct ev.
  - destruct (accepts s) eqn:A; auto. cbn. intros D. destruct (H D) as (C & _). unfold accepts in A. rewrite C in A. discriminate.
  - destruct (q_done s) eqn:D; [rewrite D; auto|]. destruct (q_queue s) as [|e queue].
    + destruct (q_closed s) eqn:C; [cbn; auto|]. rewrite D. discriminate.
    + destruct (100 <=? _)%nat; cbn; [discriminate|]. rewrite D. discriminate.
  - destruct (q_done s) eqn:D; [rewrite D; auto|]. cbn. discriminate.
  - destruct (q_queue s) as [|e queue] eqn:Eq; [rewrite Eq; auto|]. cbn. intros D. destruct (H D) as (_ & ? & _). discriminate.
  - destruct (nth_error (q_held s) n); auto. destruct (q_closed s) eqn:C; [cbn; intros D; destruct (H D); auto|]. destruct (length (q_queue s) <? capacity)%nat; cbn; [intros D; destruct (H D); congruence|rewrite C; auto].
  - cbn. intros D. destruct (H D) as (_ & ? & ?). auto.
Qed.
Lemma run_drained evs : drained (incr_run evs).
Proof.
  unfold incr_run. assert (H : drained new_incr) by (intros D; discriminate). revert H. generalize new_incr.
  induction evs as [|ev evs IH]; intros s H; cbn; auto. apply IH. apply step_drained. auto.
Qed.
Definition in_order (s : incr) (acc : list embedding) : Prop := q_held s = [] /\ concat (q_written s) ++ q_batch s ++ q_queue s = acc.
Lemma step_order s ev acc : is_take ev = false -> in_order s acc ->
  in_order (incr_step s ev) (acc ++ match ev with EAdd e => if q_crashed s then [] else if accepts s then [e] else [] | _ => [] end).
Proof.
  intros Ht [H1 H2]. unfold in_order, incr_step. destruct (q_crashed s); [destruct ev; rewrite app_nil_r; auto|]. destruct ev; rewrite ?app_nil_r; try discriminate.
  - destruct (accepts s); rewrite ?app_nil_r; auto. cbn. split; auto. rewrite <- H2, <- !app_assoc. reflexivity.
  - destruct (q_done s); auto. destruct (q_queue s) as [|e queue] eqn:Eq.
    + destruct (q_closed s); auto; [|rewrite Eq; auto]. unfold flush. cbn [q_written q_batch q_held q_queue]. rewrite written_concat. split; auto. rewrite <- H2, !app_nil_r. reflexivity.
    + destruct (100 <=? _)%nat; unfold flush, with_queue; cbn [q_written q_batch q_held q_queue]; rewrite ?written_concat; (split; [auto|]); rewrite <- H2, <- !app_assoc; reflexivity.
  - destruct (q_done s); auto. unfold flush. cbn [q_written q_batch q_held q_queue]. rewrite written_concat. split; auto. rewrite <- H2, <- !app_assoc. reflexivity.
  - rewrite H1. destruct n; cbn; auto.
  - auto.
Qed.
Lemma run_order evs : forall s acc, forallb (fun ev => negb (is_take ev)) evs = true -> in_order s acc -> in_order (fold_left incr_step evs s) (acc ++ accepted_from s evs).
Proof.
  induction evs as [|ev evs IH]; intros s acc Ht H; cbn [fold_left accepted_from]; [rewrite app_nil_r; auto|].
  cbn in Ht. apply andb_true_iff in Ht as [Ht1 Ht2]. rewrite app_assoc. apply IH; auto. apply step_order; auto. destruct (is_take ev); [discriminate|auto].
Qed.

(** ** C79 *)
(** No schedule loses or duplicates an accepted embedding: each is, exactly as often as
    it was accepted, written, in the worker's batch, held by a search or queued. Once the
    worker has ended and no search holds one, all have been written. *)
Theorem pending_updates_conserved :
  forall evs, let s := incr_run evs in
  Permutation (accepted_adds evs) (concat (q_written s) ++ q_batch s ++ q_held s ++ q_queue s) /\
  (q_done s = true -> q_held s = [] -> Permutation (accepted_adds evs) (concat (q_written s))).
Proof.
  intros evs. cbv zeta. pose proof (run_conserves evs new_incr) as P. split; [exact P|].
  intros D Hh. destruct (run_drained evs D) as (_ & Eq & Eb). unfold everything in P. fold (incr_run evs) in P. rewrite Eq, Eb, Hh in P. cbn [app] in P. rewrite !app_nil_r in P. exact P.
Qed.
(** Without searches they are written in the order of acceptance. *)
Theorem pending_updates_in_order_partial :
  forall evs, forallb (fun ev => negb (is_take ev)) evs = true ->
  let s := incr_run evs in accepted_adds evs = concat (q_written s) ++ q_batch s ++ q_queue s.
Proof.
  intros evs Ht. cbv zeta. destruct (run_order evs new_incr [] Ht) as [_ H]; [split; reflexivity|]. symmetry. exact H.
Qed.
Example pending_updates_ex :
  let evs := [EAdd (emb "a" v10); EAdd (emb "b" v01); ETake; EWork; EPut 0; ETick; EWork; EAdd (emb "c" v11); EClose; EAdd (emb "d" v11); EWork; EWork] in
  q_done (incr_run evs) = true /\ q_held (incr_run evs) = [] /\
  map (map e_id) (q_written (incr_run evs)) = [["b"]; ["a"; "c"]] /\ map e_id (accepted_adds evs) = ["a"; "b"; "c"] /\
  (let evs' := [EAdd (emb "a" v10); EAdd (emb "b" v01); EWork; ETick; EClose; EWork; EWork] in
   forallb (fun ev => negb (is_take ev)) evs' = true /\ map (map e_id) (q_written (incr_run evs')) = [["a"]; ["b"]]).
Proof. repeat split; reflexivity. Qed.

(** Findings. A search that looks at the queue can reorder two versions of one id, so
    that the older one ends up stored; closing while a search holds an embedding panics;
    one embedding that cannot be stored loses the accepted ones in its batch. *)
Theorem pending_latest_wins_refuted :
  exists evs (e : embedding), let s := incr_run evs in
  q_done s = true /\ q_held s = [] /\ accepted_adds evs = [emb "a" v10; emb "a" v01] /\
  get_by_id list_index (applied list_index good_env (filled []) (q_written s)) "a" = Ok e /\ e_vec e = Some v10.
Proof.
  exists [EAdd (emb "a" v10); EAdd (emb "a" v01); ETake; EPut 0; EClose; EWork; EWork; EWork]. eexists. cbv zeta.
  split; [reflexivity|]. split; [reflexivity|]. split; [reflexivity|]. split; [vm_compute; reflexivity|]. reflexivity.
Qed.
Theorem pending_close_panics_refuted :
  exists evs, let s := incr_run evs in q_crashed s = true /\ accepted_adds evs = [emb "a" v10] /\ q_written s = [].
Proof. exists [EAdd (emb "a" v10); ETake; EClose; EPut 0]. repeat split. Qed.
Theorem pending_batch_lost_refuted :
  exists evs, let s := incr_run evs in
  q_done s = true /\ In (emb "a" v10) (accepted_adds evs) /\ q_held s = [] /\
  get_by_id list_index (applied list_index good_env (filled []) (q_written s)) "a" = Err ENotFound /\
  (exists e, get_by_id list_index (applied list_index good_env (filled []) [[emb "a" v10]]) "a" = Ok e).
Proof.
  exists [EAdd (emb "a" v10); EAdd (emb_in "b" "nosuch" "" v10); EWork; EWork; EClose; EWork]. cbv zeta.
  split; [reflexivity|]. split; [left; reflexivity|]. split; [reflexivity|]. split; [vm_compute; reflexivity|]. eexists. vm_compute. reflexivity.
Qed.

(** ** C80 *)
(** With positive TopK a search with updates returns the TopK best of the search results
    and the pending embeddings it looked at, best first. *)
Lemma trim_pos k l : (0 < k)%Z -> trim k l = firstn (Z.to_nat k) l.
Proof.
  intros Hk. unfold trim. destruct ((0 <? k)%Z && (k <? Z.of_nat (length l))%Z) eqn:C; auto. symmetry. apply firstn_all2. lia.
Qed.
Lemma trim_le k l : (0 < k /\ Z.of_nat (length l) <= k)%Z -> trim k l = l.
Proof. intros [Hk H]. rewrite trim_pos by auto. apply firstn_all2. lia. Qed.
Lemma merge_one_topk srt sc q k all results e : sort_ok by_score srt -> (0 < k)%Z -> is_topk by_score (Z.to_nat k) all results ->
  (forall x, In x (all ++ [scored_by sc q e]) -> not_nan (snd x)) ->
  exists results', merge_one srt sc q k results e = Ok results' /\ is_topk by_score (Z.to_nat k) (all ++ [scored_by sc q e]) results'.
Proof.
  intros Hs Hk T Hn. unfold merge_one. set (r := scored_by sc q e) in *. change (e, sc_sim sc q (vec_of e)) with r. cbv zeta.
  replace (k =? 0)%Z with false by lia. cbn [orb]. destruct (Z.ltb_spec (Z.of_nat (length results)) k) as [C|C].
  - destruct (grow_topk srt Hs (Z.to_nat k) all results r T ltac:(lia) Hn) as [T' L'].
    rewrite (trim_le k (srt (results ++ [r])) ltac:(lia)). eexists. split; [reflexivity|exact T'].
  - assert (L : length results = Z.to_nat k) by (destruct T as (? & ? & L & _); lia).
    destruct (nth_error results (length results - 1)) as [z|] eqn:Ez; [|apply nth_error_None in Ez; lia]. rewrite L in Ez.
    destruct (fgt (sc_sim sc q (vec_of e)) (snd z)) eqn:G.
    + eexists. split; [reflexivity|].
      assert (Ln : length (srt (results ++ [r])) = S (Z.to_nat k)) by (rewrite <- (Permutation_length (proj1 (Hs _))), app_length; cbn; lia).
      rewrite (trim_pos k _ Hk).
      destruct T as (rest & P & _ & So & B). destruct (Hs (results ++ [r])) as [Ps Ss].
      assert (Hall : forall x, In x ((results ++ [r]) ++ rest) -> not_nan (snd x)).
      { intros x Hx. apply Hn. apply in_or_app. apply in_app_or in Hx as [Hx|Hx]; [apply in_app_or in Hx as [Hx|Hx]; auto|]; left;
        apply (Permutation_in _ (Permutation_sym P)); apply in_or_app; auto. }
      assert (W : weak_order_on by_score (results ++ [r])) by (apply desc_order; intros; apply Hall; apply in_or_app; auto).
      specialize (Ss W). set (l := srt (results ++ [r])) in *.
      exists (skipn (Z.to_nat k) l ++ rest). split; [|split; [|split]].
      * rewrite app_assoc, firstn_skipn. eapply perm_trans; [apply Permutation_app_tail; exact P|]. rewrite <- app_assoc.
        eapply perm_trans; [apply Permutation_app_head; apply Permutation_app_comm|]. rewrite app_assoc. apply Permutation_app_tail. exact Ps.
      * rewrite firstn_length, Ln, app_length. assert (length all = length results + length rest) by (rewrite (Permutation_length P), app_length; auto). cbn. lia.
      * apply sorted_firstn. exact Ss.
      * assert (Hz : forall x, In x (firstn (Z.to_nat k) l) -> by_score z x = false).
        { (* the dropped element is not better than any kept one, and z is not better than the dropped one *)
          destruct (nth_error l (Z.to_nat k)) as [w|] eqn:Ew; [|apply nth_error_None in Ew; lia].
          assert (Hw : forall x, In x l -> by_score w x = false) by (apply (sorted_last l (Z.to_nat k)); auto).
          assert (Hwin : In w (results ++ [r])) by (apply (Permutation_in _ (Permutation_sym Ps)); eapply nth_error_In; eauto).
          assert (Hzin : In z results) by (eapply nth_error_In; eauto).
          assert (Hwz : by_score w z = false) by (apply Hw; apply (Permutation_in _ Ps); apply in_or_app; auto).
          assert (Hzw : by_score z w = false).
          { apply in_app_or in Hwin as [Hwin|[<-|[]]]; [apply (sorted_last results (Z.to_nat k - 1)); auto; lia|]. unfold by_score. apply flt_asym. exact G. }
          intros x Hx. eapply by_score_trans_false with (y := w); [apply Hall; apply in_or_app; left; exact Hwin|exact Hzw|]. apply Hw. eapply in_firstn; eauto. }
        intros x y Hx Hy. apply in_app_or in Hy as [Hy|Hy]; [eapply sorted_top; eauto|].
        eapply by_score_trans_false with (y := z); [|apply B; auto; eapply nth_error_In; eauto|apply Hz; auto].
        apply Hall. apply in_or_app. left. apply in_or_app. left. eapply nth_error_In; eauto.
    + eexists. split; [reflexivity|]. apply (keep_topk (Z.to_nat k) all results r z); auto.
Qed.
Lemma merge_pending_topk srt sc q k : sort_ok by_score srt -> (0 < k)%Z -> forall pending all results, is_topk by_score (Z.to_nat k) all results ->
  (forall x, In x (all ++ map (scored_by sc q) pending) -> not_nan (snd x)) ->
  exists out, merge_pending srt sc q k results pending = Ok out /\ is_topk by_score (Z.to_nat k) (all ++ map (scored_by sc q) pending) out.
Proof.
  intros Hs Hk. induction pending as [|e l IH]; intros all results T Hn; cbn [merge_pending map].
  - exists results. rewrite app_nil_r. auto.
  - destruct (merge_one_topk srt sc q k all results e Hs Hk T) as (r' & E & T').
    { intros x Hx. apply Hn. cbn [map]. apply in_app_or in Hx as [Hx|[<-|[]]]; apply in_or_app; [auto|right; left; auto]. }
    rewrite E. cbn [bind]. destruct (IH (all ++ [scored_by sc q e]) r' T') as (out & E' & T2).
    { rewrite <- app_assoc. exact Hn. }
    exists out. split; auto. rewrite <- app_assoc in T2. exact T2.
Qed.
Theorem search_with_updates_exact_partial :
  forall I srt envs noise m sc s q o taken results,
  sort_ok by_score srt -> reachable I envs s -> scores_are_numbers I noise sc o s (Some q) -> not_nan (o_threshold o) -> (0 < o_topk o)%Z ->
  (forall e, In e taken -> not_nan (sc_sim sc q (vec_of e))) ->
  search I srt noise m sc s (Some q) o = Ok results ->
  exists out, search_with_updates I srt noise m sc s q o taken = Ok out /\
    is_topk by_score (Z.to_nat (o_topk o)) (results ++ map (fun e => (e, sc_sim sc q (vec_of e))) (firstn 10 taken)) out.
Proof.
  intros I srt envs noise m sc s q o taken results Hs R Hn Ht Hk Htk H. unfold search_with_updates. rewrite H. cbn [bind].
  destruct (search_sound_lemma I srt noise m sc s (Some q) o results envs Hs R Hn Ht H) as (w & Q & _ & B & L & A).
  apply merge_pending_topk; auto.
  - exists []. rewrite app_nil_r. split; auto. split; [|split; [exact B|intros x y _ []]].
    unfold topk_of in L. replace (o_topk o <=? 0)%Z with false in L by lia. lia.
  - intros [e x] Hx. apply in_app_or in Hx as [Hx|Hx].
    + destruct (A e x Hx) as ((e0 & G & ->) & _ & _ & _ & ->). cbn. exact (Hn w _ e0 Q G).
    + apply in_map_iff in Hx as (e' & [= <- <-] & He). apply Htk. eapply in_firstn; eauto.
Qed.
Example search_with_updates_ex :
  ids_of (search_with_updates list_index isorted no_noise Linear cosine_scorer cluster v21 (opts "" 2 [] f_zero) [emb "x" v21; emb "y" v01]) = ["x"; "c"].
Proof. vm_compute. reflexivity. Qed.

(** Findings. A pending new version of a stored embedding is reported beside the old
    one; a negative TopK panics on an empty store. *)
Theorem search_with_updates_distinct_refuted :
  exists taken out, search_with_updates list_index isorted no_noise Linear cosine_scorer cluster v21 (opts "" 2 [] f_zero) taken = Ok out /\
    map (fun x : scored => e_id (fst x)) out = ["c"; "c"].
Proof. exists [emb "c" v21]. eexists. split; [vm_compute; reflexivity|]. reflexivity. Qed.
Theorem search_with_updates_panics_refuted :
  exists e out, search list_index isorted no_noise Linear cosine_scorer (filled []) (Some v21) (opts "" (-1) [] f_zero) = Ok out /\
  search_with_updates list_index isorted no_noise Linear cosine_scorer (filled []) v21 (opts "" (-1) [] f_zero) [e] = Panic.
Proof. exists (emb "x" v21). eexists. split; vm_compute; reflexivity. Qed.

Print Assumptions pending_updates_conserved.
Print Assumptions pending_updates_in_order_partial.
Print Assumptions pending_latest_wins_refuted.
Print Assumptions pending_close_panics_refuted.
Print Assumptions pending_batch_lost_refuted.
Print Assumptions search_with_updates_exact_partial.
Print Assumptions search_with_updates_distinct_refuted.
Print Assumptions search_with_updates_panics_refuted.
