(** Proofs about Recall. *)
From Coq Require Import String Ascii List NArith ZArith Bool Lia Permutation Sorted.
From Coq Require Import Floats.SpecFloat.
From Verif Require Import Base Floats64 TopK EncodingModel DimensionModel StoreModel StoreSpec StoreInv StoreProofs SearchModel SearchSpec SearchProofs FilterModel
  AdvSearchModel AdvSearchSpec AdvSearchProofs GraphModel ChatModel ChatSpec RagModel RagSearchProofs MemSearchProofs HindModel HindSpec HindProofs.
Import ListNotations.
Open Scope string_scope.
Open Scope list_scope.
Open Scope nat_scope.

Lemma strat_eqb_eq a b : strat_eqb a b = true <-> a = b.
Proof. destruct a, b; cbn; split; congruence. Qed.
Lemma strat_eqb_neq a b : strat_eqb a b = false <-> a <> b.
Proof. destruct a, b; cbn; split; congruence. Qed.

(** *** The answers of the strategies *)
Section A.
Variable I : index_ops.
Variable F : formats.
Variable E : engine.
Variable now : Z.
Notation answers := (answers I F E now).
Notation answer := (answer I F E now).

Lemma listed_or {A} (r : outcome (list A)) : listed r (or_nothing r).
Proof. destruct r; cbn; [left; reflexivity|right; split; [reflexivity|discriminate]..]. Qed.
Lemma listed_unique {A} (r : outcome (list A)) l : listed r l -> l = or_nothing r.
Proof. intros [->|[-> H]]; auto. destruct r; auto. exfalso. eapply H. reflexivity. Qed.
Lemma found_as st l : Forall2 (as_found F now st) l (map (found F now st) l).
Proof. induction l; cbn; constructor; auto. repeat split; reflexivity. Qed.
Lemma found_unique st l l' : Forall2 (as_found F now st) l l' -> l' = map (found F now st) l.
Proof. induction 1 as [|x r l l' (A & B & C) _ IH]; cbn; auto. f_equal; auto. unfold found. destruct r; cbn in *; subst; reflexivity. Qed.
Lemma topk_per q : per_strategy q (strategy_topk (strategy_used q) q).
Proof.
  unfold strategy_topk. destruct (Z.eqb_spec (sg_topk (strategy_used q)) 0); [|constructor; auto].
  destruct (Z.eqb_spec (q_topk q) 0); [apply per_ten|apply per_request]; auto.
Qed.
Lemma filter_map_found st (p : recalled -> bool) l : filter p (map (found F now st) l) = map (found F now st) (filter (fun x => p (found F now st x)) l).
Proof. induction l as [|x l IH]; cbn; auto. destruct (p _); cbn; rewrite IH; reflexivity. Qed.
Lemma in_range_within tf m t : hm_time m = Some t -> (in_range tf m = true <-> within tf t).
Proof.
  intros H. unfold in_range, within. rewrite H, andb_true_iff, !negb_true_iff. destruct tf as [[a|] [b|]]; cbn [fst snd]; rewrite ?Z.ltb_ge; split.
  all: try (intros [A B]; split; intros z [= <-]; lia). all: try (intros [A B]; split; auto; try (specialize (A _ eq_refl); lia); specialize (B _ eq_refl); lia).
Qed.
Lemma tagged_iff x e : tagged x e = true <-> exists m t, e_meta e = Some m /\ assoc "entities" m = Some t /\ occurs x t.
Proof.
  unfold tagged, meta_of. destruct (e_meta e) as [m|]; [|split; [discriminate|intros (m & t & H & _); discriminate]].
  destruct (assoc "entities" m) as [t|] eqn:A.
  - rewrite contains_iff. split; [eauto|]. intros (m' & t' & [= <-] & H1 & H2). congruence.
  - split; [discriminate|]. intros (m' & t' & [= <-] & H1 & H2). congruence.
Qed.
Notation eid := (fun x : embedding * float => e_id (fst x)).
Lemma pick_spec x l : forall seen out seen', pick_entity x l seen = (out, seen') ->
  NoDup (map eid out) /\ (forall p, In p out -> In p l /\ tagged x (fst p) = true /\ ~ In (eid p) seen) /\
  (forall p, In p l -> tagged x (fst p) = true -> In (eid p) seen') /\ (forall id, In id seen' <-> In id seen \/ In id (map eid out)).
Proof.
  induction l as [|p l IH]; intros seen out seen' H; cbn [pick_entity] in H.
  - injection H as <- <-. split; [constructor|]. cbn. repeat split; intros; tauto.
  - destruct (negb (mem (e_id (fst p)) seen) && tagged x (fst p)) eqn:C.
    + apply andb_prop in C as [C1 C2]. apply negb_true_iff in C1. assert (C1' : ~ In (eid p) seen) by (intros Hs; apply mem_In in Hs; congruence).
      destruct (pick_entity x l (e_id (fst p) :: seen)) as [out0 seen0] eqn:P. injection H as <- <-. destruct (IH _ _ _ P) as (A & B & C & D). split; [|split; [|split]].
      * cbn [map]. constructor; auto. intros Hin. apply in_map_iff in Hin as (p' & Ep & Hp). destruct (B p' Hp) as (_ & _ & B3). apply B3. rewrite Ep. left. reflexivity.
      * intros p' [<-|Hp]; [split; [left; reflexivity|auto]|]. destruct (B p' Hp) as (B1 & B2 & B3). split; [right; auto|]. split; auto. intros Hs. apply B3. right. exact Hs.
      * intros p' [<-|Hp] Ht; [apply D; left; left; reflexivity|]. apply C; auto.
      * intros id. rewrite D. cbn [map In]. tauto.
    + destruct (IH _ _ _ H) as (A & B & D & G). split; auto. split; [|split; [|exact G]].
      * intros p' Hp. destruct (B p' Hp) as (B1 & B2 & B3). split; [right; auto|auto].
      * intros p' [<-|Hp] Ht; [|auto]. rewrite Ht, andb_true_r in C. apply negb_false_iff, mem_In in C. apply G. left. exact C.
Qed.
Lemma entity_loop_spec s q sg v xs : forall i seen,
  let out := entity_loop I E s q sg v i xs seen in
  let srch := fun j => bank_search I E Entity j s q v (strategy_topk sg q) f_zero "" in
  NoDup (map eid out) /\ (forall p, In p out -> ~ In (eid p) seen /\ exists j x, nth_error xs j = Some x /\ In p (srch (i + j)) /\ tagged x (fst p) = true) /\
  (forall j x p, nth_error xs j = Some x -> In p (srch (i + j)) -> tagged x (fst p) = true -> In (eid p) seen \/ In (eid p) (map eid out)).
Proof.
  induction xs as [|x xs IH]; intros i seen out srch; unfold out; cbn [entity_loop].
  - split; [constructor|]. split; [intros p []|]. intros [|j] y p H; discriminate.
  - change (bank_search I E Entity i s q v (strategy_topk sg q) f_zero "") with (srch i). destruct (pick_entity x (srch i) seen) as [o1 seen1] eqn:P.
    destruct (pick_spec _ _ _ _ _ P) as (A1 & A2 & A3 & A4). destruct (IH (S i) seen1) as (B1 & B2 & B3). fold srch in B2, B3. split; [|split].
    + rewrite map_app. apply NoDup_app_intro; auto. intros id H1 H2. apply in_map_iff in H2 as (p & <- & Hp). destruct (B2 p Hp) as [N _]. apply N. apply A4. right. exact H1.
    + intros p Hp. apply in_app_or in Hp as [Hp|Hp].
      * destruct (A2 p Hp) as (C1 & C2 & C3). split; auto. exists 0, x. rewrite Nat.add_0_r. auto.
      * destruct (B2 p Hp) as (N & j & y & D1 & D2 & D3). split; [intros Hs; apply N; apply A4; auto|]. exists (S j), y. split; [exact D1|]. split; [|exact D3].
        replace (i + S j) with (S i + j) by lia. exact D2.
    + intros [|j] y p H1 H2 H3; cbn [nth_error] in H1.
      * injection H1 as <-. rewrite Nat.add_0_r in H2. pose proof (A3 p H2 H3) as Hs. apply A4 in Hs as [Hs|Hs]; auto. right. rewrite map_app. apply in_or_app. auto.
      * replace (i + S j) with (S i + j) in H2 by lia. destruct (B3 j y p H1 H2 H3) as [Hs|Hs].
        -- apply A4 in Hs as [Hs|Hs]; auto. right. rewrite map_app. apply in_or_app. auto.
        -- right. rewrite map_app. apply in_or_app. auto.
Qed.
Lemma answers_sound s q st l : In (st, l) (answers s q (strategy_used q)) -> asked q st /\ answer s q st l.
Proof.
  unfold HindModel.answers. rewrite !in_app_iff. intros [H|[H|[H|H]]].
  - destruct (q_vec q) as [v|] eqn:V; [|destruct H]. destruct (sg_memory (strategy_used q)) eqn:M; [|destruct H]. destruct H as [[= <- <-]|[]].
    split; [split; auto; congruence|]. eapply an_semantic; [exact V|apply topk_per|apply listed_or|apply found_as].
  - destruct (sg_priming (strategy_used q)) eqn:M; [|destruct H]. destruct (String.eqb_spec (q_query q) "") as [|N]; [destruct H|]. destruct H as [[= <- <-]|[]].
    split; [split; auto|]. unfold keyword_search. destruct (q_vec q) as [v|] eqn:V.
    + eapply an_keyword; [exact V|apply topk_per|apply listed_or|apply found_as].
    + eapply an_text; [exact V|apply topk_per|apply listed_or|apply found_as].
  - destruct (sg_temporal (strategy_used q)) as [tf|] eqn:M; [|destruct H]. destruct H as [[= <- <-]|[]].
    split; [cbn; congruence|]. unfold temporal_search. destruct (q_vec q) as [v|] eqn:V; [|apply an_temporal_none; exact V].
    rewrite filter_map_found. eapply (an_temporal I F E now s q v _ _ tf (fun x => in_range tf (re_mem (found F now Temporal x)))); [exact V|apply topk_per|exact M|apply listed_or| |apply found_as].
    intros x t _ Ht. apply in_range_within. exact Ht.
  - destruct (sg_entity (strategy_used q)) as [|x xs] eqn:M; [destruct H|]. destruct H as [[= <- <-]|[]].
    split; [cbn; congruence|]. unfold entity_search. destruct (q_vec q) as [v|] eqn:V; [|apply an_entity_none; exact V].
    destruct (entity_loop_spec s q (strategy_used q) v (sg_entity (strategy_used q)) 0 []) as (A & B & C).
    eapply (an_entity I F E now s q v _ (fun i => bank_search I E Entity i s q v (strategy_topk (strategy_used q) q) f_zero "") (entity_loop I E s q (strategy_used q) v 0 (sg_entity (strategy_used q)) []));
      [exact V|apply topk_per| |exact A| | |apply found_as].
    + intros i _. apply listed_or.
    + intros p Hp. destruct (B p Hp) as (_ & j & y & H1 & H2 & H3). apply tagged_iff in H3 as (m & t & H3 & H4 & H5). exists j, y, m, t. auto.
    + intros i name p m t H1 H2 H3 H4 H5. destruct (C i name p H1 H2) as [[]|G]; [apply tagged_iff; eauto|exact G].
Qed.
Lemma answers_asked s q st : asked q st -> exists l, In (st, l) (answers s q (strategy_used q)).
Proof.
  unfold HindModel.answers. destruct st; cbn [asked].
  - intros [A B]. destruct (q_vec q); [|congruence]. rewrite A. eexists. apply in_or_app. left. left. reflexivity.
  - intros [A B]. rewrite A. destruct (String.eqb_spec (q_query q) ""); [congruence|]. eexists. apply in_or_app. right. apply in_or_app. left. left. reflexivity.
  - destruct (sg_temporal _); [|congruence]. intros _. eexists. apply in_or_app. right. apply in_or_app. right. apply in_or_app. left. left. reflexivity.
  - destruct (sg_entity _); [congruence|]. intros _. eexists. apply in_or_app. right. apply in_or_app. right. apply in_or_app. right. left. reflexivity.
Qed.
Lemma answers_nodup s q sg : NoDup (map fst (answers s q sg)).
Proof.
  unfold HindModel.answers. destruct (q_vec q); [destruct (sg_memory sg)|]; destruct (sg_priming sg && _); destruct (sg_temporal sg); destruct (sg_entity sg); cbn;
    repeat (constructor; [cbn; intuition discriminate|]); constructor.
Qed.
Lemma answers_tag s q sg st l r : In (st, l) (answers s q sg) -> In r l -> re_strat r = st.
Proof.
  unfold HindModel.answers. rewrite !in_app_iff. intros H Hr.
  assert (G : forall st0 l0, In r (map (found F now st0) l0) -> re_strat r = st0). { intros st0 l0 G. apply in_map_iff in G as (x & <- & _). reflexivity. }
  destruct H as [H|[H|[H|H]]].
  - destruct (q_vec q); [|destruct H]. destruct (sg_memory sg); [|destruct H]. destruct H as [[= <- <-]|[]]. eapply G; exact Hr.
  - destruct (_ && _); [|destruct H]. destruct H as [[= <- <-]|[]]. eapply G; exact Hr.
  - destruct (sg_temporal sg); [|destruct H]. destruct H as [[= <- <-]|[]]. unfold temporal_search in Hr. destruct (q_vec q); [|destruct Hr]. apply filter_In in Hr as [Hr _]. eapply G; exact Hr.
  - destruct (sg_entity sg); [destruct H|]. destruct H as [[= <- <-]|[]]. unfold entity_search in Hr. destruct (q_vec q); [|destruct Hr]. eapply G; exact Hr.
Qed.
End A.

(** *** Fusion *)
Definition well_tagged (parts : list (strat * list recalled)) : Prop :=
  NoDup (map fst parts) /\ forall st l r, In (st, l) parts -> In r l -> re_strat r = st.
Lemma well_perm p p' : Permutation p p' -> well_tagged p -> well_tagged p'.
Proof.
  intros P [A B]. split; [eapply Permutation_NoDup; [apply Permutation_map; exact P|exact A]|].
  intros st l r H. apply B. eapply Permutation_in; [apply Permutation_sym; exact P|exact H].
Qed.
Lemma group_of parts st : well_tagged parts ->
  (forall l, In (st, l) parts -> filter (fun r => strat_eqb (re_strat r) st) (flat_map snd parts) = l) /\
  (~ In st (map fst parts) -> filter (fun r => strat_eqb (re_strat r) st) (flat_map snd parts) = []).
Proof.
  intros [N T]. induction parts as [|[st0 l0] parts IH]; cbn [flat_map snd map fst]; [split; [intros l []|reflexivity]|].
  apply NoDup_cons_iff in N as [N1 N2]. destruct (IH N2 ltac:(intros; eapply T; [right|]; eauto)) as [I1 I2]. clear IH.
  rewrite filter_app. split.
  - intros l [[= -> ->]|H].
    + rewrite I2 by exact N1. rewrite app_nil_r. apply filter_all. intros r Hr. apply strat_eqb_eq. eapply T; [left; reflexivity|exact Hr].
    + rewrite (I1 l H). rewrite filter_none; [reflexivity|]. intros r Hr. apply strat_eqb_neq. intros E'. apply N1. rewrite <- (T st0 l0 r (or_introl eq_refl) Hr), E'.
      apply (in_map fst) in H. exact H.
  - intros H. rewrite I2 by (intros X; apply H; right; exact X). rewrite filter_none; [reflexivity|]. intros r Hr. apply strat_eqb_neq. intros E'. apply H. left.
    rewrite <- (T st0 l0 r (or_introl eq_refl) Hr). exact E'.
Qed.
Lemma strats_of_spec l st : In st (strats_of l) <-> exists r, In r l /\ re_strat r = st.
Proof.
  unfold strats_of. rewrite filter_In, existsb_exists. split.
  - intros [_ (r & H1 & H2)]. apply strat_eqb_eq in H2. eauto.
  - intros (r & H1 & H2). split; [destruct st; cbn; tauto|]. exists r. split; auto. apply strat_eqb_eq. exact H2.
Qed.
Lemma strats_of_nodup l : NoDup (strats_of l).
Proof. unfold strats_of. apply NoDup_filter. repeat (constructor; [cbn; intuition discriminate|]). constructor. Qed.
Lemma last_rank_spec id l : forall n,
  match last_rank id n l with
  | Some k => exists j, k = n + j /\ nth_error (map re_id l) j = Some id /\ forall i, j < i -> nth_error (map re_id l) i <> Some id
  | None => forall i, nth_error (map re_id l) i <> Some id
  end.
Proof.
  induction l as [|r l IH]; intros n; cbn [last_rank map]; [intros [|i]; discriminate|].
  specialize (IH (S n)). destruct (last_rank id (S n) l) as [k|].
  - destruct IH as (j & -> & H1 & H2). exists (S j). split; [lia|]. split; auto. intros [|i] Hi; [lia|]. apply H2. lia.
  - destruct (String.eqb_spec (re_id r) id) as [<-|Ne].
    + exists 0. split; [lia|]. split; auto. intros [|i] Hi; [lia|]. apply IH.
    + intros [|i]; [cbn; congruence|apply IH].
Qed.
Lemma last_rank_place id l n : last_rank id 1 l = Some n <-> place id l n.
Proof.
  pose proof (last_rank_spec id l 1) as H. unfold place. change (map (fun r => hm_id (re_mem r)) l) with (map re_id l). split.
  - intros R. rewrite R in H. destruct H as (j & -> & H1 & H2). split; [exists j; split; auto|]. intros k Hk. apply H2. lia.
  - intros ((k & -> & A) & B). destruct (last_rank id 1 l) as [k'|].
    + destruct H as (j & -> & H1 & H2). f_equal. destruct (Nat.lt_trichotomy j k) as [L|[->|L]]; auto.
      * exfalso. apply (H2 k L A).
      * exfalso. apply (B j); auto.
    + exfalso. apply (H k A).
Qed.
Lemma place_some id l r : In r l -> re_id r = id -> exists n, place id l n.
Proof.
  intros H E'. pose proof (last_rank_spec id l 1) as S. destruct (last_rank id 1 l) as [n|] eqn:L; [exists n; apply last_rank_place; exact L|].
  exfalso. apply In_nth_error in H as (i & H). apply (S i). rewrite nth_error_map, H. cbn. congruence.
Qed.
Lemma place_in id l n : place id l n -> exists r, In r l /\ re_id r = id.
Proof.
  intros ((k & _ & A) & _). rewrite nth_error_map in A. destruct (nth_error l k) as [r|] eqn:N; [|discriminate]. injection A as A. exists r. split; [eapply nth_error_In; eauto|exact A].
Qed.
Lemma first_of_ids_spec l : forall seen, NoDup (map re_id (first_of_ids seen l)) /\
  (forall r, In r (first_of_ids seen l) -> In r l /\ ~ In (re_id r) seen) /\
  (forall r, In r l -> In (re_id r) seen \/ In (re_id r) (map re_id (first_of_ids seen l))).
Proof.
  induction l as [|r l IH]; intros seen; cbn [first_of_ids]; [split; [constructor|split; [intros r []|intros r []]]|].
  destruct (mem (re_id r) seen) eqn:M.
  - apply mem_In in M. destruct (IH seen) as (A & B & C). split; auto. split; [intros x Hx; destruct (B x Hx); split; [right|]; auto|].
    intros x [<-|Hx]; auto.
  - assert (M' : ~ In (re_id r) seen) by (intros X; apply mem_In in X; congruence). destruct (IH (re_id r :: seen)) as (A & B & C). split; [|split].
    + cbn [map]. constructor; auto. intros X. apply in_map_iff in X as (x & Ex & Hx). apply (B x Hx). left. congruence.
    + intros x [<-|Hx]; [split; [left; reflexivity|auto]|]. destruct (B x Hx) as [B1 B2]. split; [right; auto|]. intros X. apply B2. right. exact X.
    + intros x [<-|Hx]; [right; left; reflexivity|]. destruct (C x Hx) as [[E'|X]|X]; [right; left; exact E'|left; exact X|right; right; exact X].
Qed.
Lemma higher_same : forall a b, re_better a b = higher a b.
Proof. reflexivity. Qed.

Section R.
Variable R : race.
Hypothesis HR : fair R.
Lemma fuse_spec parts : well_tagged parts ->
  exists all, NoDup (map re_id all) /\
    (forall r, In r all -> fused_score parts (re_id r) (re_score r) /\ exists l r0, In (re_strat r, l) parts /\ In r0 l /\ re_mem r = re_mem r0) /\
    (forall st l r0, In (st, l) parts -> In r0 l -> In (re_id r0) (map re_id all)) /\
    forall k, is_topk higher k all (firstn k (rrf_fuse R (flat_map snd parts))).
Proof.
  intros W. destruct HR as (_ & P1 & P2 & P3). unfold rrf_fuse. set (L := flat_map snd parts).
  set (sts := ra_strats R (strats_of L)).
  assert (Hsts : forall st, In st sts <-> exists l, In (st, l) parts /\ l <> []).
  { intros st. unfold sts. rewrite <- (P1 (strats_of L)), strats_of_spec. split.
    - intros (r & H1 & H2). apply in_flat_map in H1 as ((st0 & l) & H3 & H4). cbn in H4. exists l. split; [|intros ->; destruct H4].
      destruct W as [_ T]. rewrite (T st0 l r H3 H4) in H2. subst. exact H3.
    - intros (l & H1 & H2). destruct l as [|r l]; [congruence|]. exists r. split; [apply in_flat_map; exists (st, r :: l); split; [exact H1|left; reflexivity]|]. eapply (proj2 W); [exact H1|left; reflexivity]. }
  assert (Nsts : NoDup sts) by (unfold sts; eapply Permutation_NoDup; [apply P1|apply strats_of_nodup]).
  set (grp := fun st => filter (fun r => strat_eqb (re_strat r) st) L).
  assert (Hgrp : forall st l, In (st, l) parts -> grp st = l) by (intros st l Hl; apply (group_of parts st W); exact Hl).
  set (kept := first_of_ids [] (concat (map grp sts))).
  set (ranks := fun id => flat_map (fun g => match last_rank id 1 g with Some n => [n] | None => [] end) (map grp sts)).
  set (total := fun id => fold_left (fun a n => f64_add a (f64_div f_one (f64_add (f64_of_Z 60) (f64_of_Z (Z.of_nat n))))) (ra_ranks R id (ranks id)) f_zero).
  set (all := map (fun r => set_re_score r (total (re_id r))) kept).
  destruct (first_of_ids_spec (concat (map grp sts)) []) as (K1 & K2 & K3). fold kept in K1, K2, K3.
  assert (Hin : forall r, In r (concat (map grp sts)) <-> exists l, In (re_strat r, l) parts /\ In r l).
  { intros r. rewrite in_concat. split.
    - intros (g & Hg & Hr). apply in_map_iff in Hg as (st & <- & Hst). apply Hsts in Hst as (l & H1 & H2). rewrite (Hgrp st l H1) in Hr.
      rewrite (proj2 W st l r H1 Hr). eauto.
    - intros (l & H1 & H2). exists (grp (re_strat r)). split; [|rewrite (Hgrp _ _ H1); exact H2]. apply in_map. apply Hsts. exists l. split; auto. intros ->. destruct H2. }
  assert (Eids : map re_id all = map re_id kept) by (unfold all; rewrite map_map; reflexivity).
  assert (Tot : forall id, (exists l r, In (re_strat r, l) parts /\ In r l /\ re_id r = id) -> fused_score parts id (total id)).
  { intros id (l0 & r0 & Hl0 & Hr0 & Eid0).
    set (sel0 := flat_map (fun st => match last_rank id 1 (grp st) with Some n => [(st, n)] | None => [] end) sts).
    assert (Er : ranks id = map snd sel0).
    { unfold ranks, sel0. clear. induction sts as [|st l IH]; cbn; auto. rewrite map_app, IH. destruct (last_rank id 1 (grp st)); reflexivity. }
    pose proof (P2 id (ranks id)) as PP. rewrite Er in PP at 1. apply Permutation_sym, Permutation_map_inv in PP as (sel & Es & Ps). 
    assert (Hsel0 : forall st n, In (st, n) sel0 <-> In st sts /\ last_rank id 1 (grp st) = Some n).
    { intros st n. unfold sel0. rewrite in_flat_map. split.
      - intros (st' & H1 & H2). destruct (last_rank id 1 (grp st')) eqn:LR; [|destruct H2]. destruct H2 as [[= <- <-]|[]]. auto.
      - intros [H1 H2]. exists st. rewrite H2. split; [exact H1|left; reflexivity]. }
    assert (Hsel : forall st n, In (st, n) sel <-> exists l, In (st, l) parts /\ place id l n).
    { intros st n. split.
      - intros H. apply (Permutation_in _ (Permutation_sym Ps)) in H. apply Hsel0 in H as [H1 H2]. apply Hsts in H1 as (l & H3 & _). rewrite (Hgrp st l H3) in H2. exists l. split; auto. apply last_rank_place. exact H2.
      - intros (l & H1 & H2). apply (Permutation_in _ Ps). apply Hsel0. rewrite (Hgrp st l H1). split; [|apply last_rank_place; exact H2].
        apply Hsts. exists l. split; auto. intros ->. apply place_in in H2 as (r & [] & _). }
    exists sel. split; [|split; [|split]].
    - destruct (place_some id l0 r0 Hr0 Eid0) as (n & Hn). assert (X : In (re_strat r0, n) sel) by (apply Hsel; eauto). intros ->. destruct X.
    - apply (Permutation_NoDup (Permutation_map fst Ps)). unfold sel0. clear - Nsts. induction sts as [|st l IH]; cbn; [constructor|].
      apply NoDup_cons_iff in Nsts as [N1 N2]. destruct (last_rank id 1 (grp st)); cbn; [|auto]. constructor; auto. intros X. apply in_map_iff in X as ((st' & n') & <- & X).
      apply in_flat_map in X as (st'' & X1 & X2). destruct (last_rank id 1 (grp st'')); [|destruct X2]. destruct X2 as [[= <- <-]|[]]. cbn in N1. auto.
    - exact Hsel.
    - unfold total. rewrite Es. clear.
      assert (G : forall a, fold_left (fun a n => f64_add a (f64_div f_one (f64_add (f64_of_Z 60) (f64_of_Z (Z.of_nat n))))) (map snd sel) a =
                  fold_left (fun a (p : strat * nat) => f64_add a (f64_div (f64_of_Z 1) (f64_add (f64_of_Z 60) (f64_of_Z (Z.of_nat (snd p)))))) sel a).
      { induction sel as [|p l IH]; intros a; cbn [map fold_left]; [reflexivity|]. apply IH. }
      apply (G f_zero). }
  exists all. split; [rewrite Eids; exact K1|]. split; [|split].
  - intros r Hr. unfold all in Hr. apply in_map_iff in Hr as (r0 & <- & Hr0). destruct (K2 r0 Hr0) as [H1 _]. apply Hin in H1 as (l & H1 & H2). split.
    + apply Tot. exists l, r0. auto.
    + exists l, r0. auto.
  - intros st l r0 H1 H2. rewrite Eids. destruct (K3 r0) as [[]|X]; [|exact X]. apply Hin. exists l. rewrite (proj2 W st l r0 H1 H2). auto.
  - intros k. apply (is_topk_perm _ _ _ _ _ (P3 all)). apply (topk_of_sort higher).
    + apply (ex_sort_ok re_better).
    + apply (weak_order_desc re_score). intros r Hr. apply (Permutation_in _ (Permutation_sym (P3 all))) in Hr. unfold all in Hr. apply in_map_iff in Hr as (r0 & <- & _). cbn.
      apply nonneg_not_nan. unfold total. apply (recip_sum_nonneg (fun n => n)). exact Logic.I.
Qed.
End R.

(** *** Recall *)
Lemma firstn_topk {A} (better : A -> A -> bool) (srt : list A -> list A) n l : sort_ok better srt -> weak_order_on better l -> is_topk better n l (firstn n (srt l)).
Proof. apply topk_of_sort. Qed.
Lemma fused_perm p p' id x : (forall y, In y p <-> In y p') -> fused_score p id x -> fused_score p' id x.
Proof.
  intros P (sel & A & B & C & D). exists sel. split; auto. split; auto. split; auto. intros st n. rewrite C. split; intros (l & H1 & H2); exists l; split; auto; apply P; exact H1.
Qed.
Lemma length_ex_sort {A} (better : A -> A -> bool) l : length (ex_sort better l) = length l.
Proof. symmetry. apply Permutation_length. apply ex_sort_perm. Qed.
Definition cut_list (k : Z) (l : list recalled) : list recalled := if Z.ltb 0 k then firstn (Z.to_nat k) l else l.
Lemma cut_firstn k l all : length l = length all -> cut_list k l = firstn (cut k all) l.
Proof. intros H. unfold cut_list, cut. destruct (Z.ltb 0 k); auto. rewrite <- H, firstn_all. reflexivity. Qed.

Section C.
Variable I : index_ops.
Variable F : formats.
Variable E : engine.
Variable now : Z.
Variable R : race.
Hypothesis HR : fair R.
(** The list before the reranker and the limit. *)
Definition merged (y : sys I) (q : request) : list recalled :=
  let parts := answers I F E now (sy_store y) q (strategy_used q) in
  let all := flat_map snd (ra_blocks R parts) in
  if (1 <? length parts)%nat && negb (match all with [] => true | _ => false end) then rrf_fuse R all else ex_sort re_better all.
Definition apply_reranker (rr : option (string -> list recalled -> option (list recalled))) (q : string) (l : list recalled) : list recalled :=
  match rr, l with
  | Some f, _ :: _ => if String.eqb q "" then l else match f q l with Some (x :: l') => x :: l' | _ => l end
  | _, _ => l
  end.
Lemma recall_eq rr y q : recall I F E now R rr y q = cut_list (q_topk q) (apply_reranker rr (q_query q) (merged y q)).
Proof. reflexivity. Qed.
Lemma parts_tagged s q : well_tagged (answers I F E now s q (strategy_used q)).
Proof. split; [apply answers_nodup|]. intros st l r. apply answers_tag. Qed.
Lemma merged_from y q r : In r (merged y q) -> exists st l r0, In (st, l) (answers I F E now (sy_store y) q (strategy_used q)) /\ In r0 l /\ re_mem r = re_mem r0.
Proof.
  unfold merged. set (parts := answers _ _ _ _ _ _ _). set (all := flat_map snd (ra_blocks R parts)). pose proof (proj1 HR parts) as P.
  assert (G : forall r0, In r0 all -> exists st l, In (st, l) parts /\ In r0 l).
  { intros r0 H. apply in_flat_map in H as ((st & l) & H1 & H2). exists st, l. split; auto. eapply Permutation_in; [apply Permutation_sym; exact P|exact H1]. }
  destruct (_ && _).
  - intros H. destruct (fuse_spec R HR (ra_blocks R parts)) as (al & _ & A2 & _ & A4); [eapply well_perm; [exact P|apply parts_tagged]|].
    specialize (A4 (length (rrf_fuse R all))). fold all in A4. rewrite firstn_all in A4. apply (is_topk_in _ _ _ _ r) in A4; [|exact H]. destruct (A2 r A4) as (_ & l & r0 & H1 & H2 & H3).
    exists (re_strat r), l, r0. split; [eapply Permutation_in; [apply Permutation_sym; exact P|exact H1]|auto].
  - intros H. apply (Permutation_in _ (Permutation_sym (ex_sort_perm re_better all))) in H. destruct (G r H) as (st & l & H1 & H2). exists st, l, r. auto.
Qed.
Lemma recall_from rr y q r : honest rr -> In r (recall I F E now R rr y q) ->
  exists st l r0, In (st, l) (answers I F E now (sy_store y) q (strategy_used q)) /\ In r0 l /\ re_mem r = re_mem r0.
Proof.
  intros Hr H. rewrite recall_eq in H. apply merged_from. unfold cut_list in H. assert (G : In r (apply_reranker rr (q_query q) (merged y q))).
  { destruct (Z.ltb _ _); auto. apply in_firstn in H. exact H. }
  unfold apply_reranker in G. destruct rr as [f|]; auto. destruct (merged y q) as [|x l] eqn:M; auto. destruct (String.eqb _ _); auto.
  destruct (f (q_query q) (x :: l)) as [[|z l']|] eqn:Ef; auto. eapply Hr; eauto.
Qed.
Lemma recall_fused y q : let parts := answers I F E now (sy_store y) q (strategy_used q) in 1 < length parts ->
  exists all, NoDup (map (fun r => hm_id (re_mem r)) all) /\
    (forall r, In r all -> fused_score parts (hm_id (re_mem r)) (re_score r) /\ exists l r0, In (re_strat r, l) parts /\ In r0 l /\ re_mem r = re_mem r0) /\
    (forall st l r0, In (st, l) parts -> In r0 l -> In (hm_id (re_mem r0)) (map (fun r => hm_id (re_mem r)) all)) /\
    is_topk higher (cut (q_topk q) all) all (recall I F E now R None y q).
Proof.
  intros parts L. pose proof (proj1 HR parts) as P. rewrite recall_eq. cbn [apply_reranker]. unfold merged. fold parts.
  set (blocks := ra_blocks R parts). fold blocks in P. assert (PI : forall x, In x blocks <-> In x parts) by (intros x; split; apply Permutation_in; [apply Permutation_sym|]; exact P).
  assert (W : well_tagged blocks) by (eapply well_perm; [exact P|apply parts_tagged]).
  destruct (fuse_spec R HR blocks W) as (all & A1 & A2 & A3 & A4).
  apply Nat.ltb_lt in L. rewrite L. cbn [andb].
  exists all. split; [exact A1|]. split; [|split].
  - intros r Hr. destruct (A2 r Hr) as (B1 & l & r0 & B2 & B3 & B4). split; [eapply fused_perm; [exact PI|exact B1]|]. exists l, r0. split; [apply PI; exact B2|auto].
  - intros st l r0 H1 H2. apply (A3 st l r0); [apply PI; exact H1|exact H2].
  - pose proof (A4 (length (rrf_fuse R (flat_map snd blocks)))) as T. rewrite firstn_all in T. destruct T as (rest & TP & TL & _ & _).
    destruct (flat_map snd blocks) as [|r0 rs] eqn:FM; cbn [negb].
    + assert (all = []). { destruct all as [|r al]; auto. exfalso. destruct (A2 r (or_introl eq_refl)) as (_ & l & r1 & B2 & B3 & _).
        assert (X : In r1 (flat_map snd blocks)) by (apply in_flat_map; exists (re_strat r, l); auto). rewrite FM in X. destruct X. }
      subst all. cbn [ex_sort]. replace (cut_list _ _) with (@nil recalled) by (unfold cut_list; destruct (Z.ltb _ _); rewrite ?firstn_nil; reflexivity). exists [].
      split; [constructor|]. split; [rewrite Nat.min_0_r; reflexivity|]. split; [constructor|intros ? ? []].
    + assert (EL : length (rrf_fuse R (r0 :: rs)) = length all).
      { rewrite TL. apply Nat.min_r. assert (X := Permutation_length TP). rewrite app_length in X. 
        pose proof (A4 (length all)) as (rest' & TP' & TL' & _). rewrite firstn_length in TL'. rewrite Nat.min_id in TL'. lia. }
      rewrite (cut_firstn _ _ all EL). apply A4.
Qed.
Lemma recall_single y q st l : answers I F E now (sy_store y) q (strategy_used q) = [(st, l)] -> (forall r, In r l -> not_nan (re_score r)) ->
  is_topk higher (cut (q_topk q) l) l (recall I F E now R None y q).
Proof.
  intros H N. rewrite recall_eq. cbn [apply_reranker]. unfold merged. rewrite H. cbn [length Nat.ltb Nat.leb andb].
  pose proof (proj1 HR [(st, l)]) as P. apply Permutation_length_1_inv in P. rewrite P. cbn [flat_map snd]. rewrite app_nil_r.
  rewrite (cut_firstn _ _ l) by apply length_ex_sort. apply (topk_of_sort higher); [apply (ex_sort_ok re_better)|]. apply (weak_order_desc re_score). exact N.
Qed.
Lemma recall_nothing y q : answers I F E now (sy_store y) q (strategy_used q) = [] -> recall I F E now R None y q = [].
Proof.
  intros H. rewrite recall_eq. cbn [apply_reranker]. unfold merged. rewrite H. cbn [length Nat.ltb Nat.leb andb].
  pose proof (proj1 HR []) as P. apply Permutation_nil in P. rewrite P. cbn. unfold cut_list. destruct (Z.ltb _ _); auto. apply firstn_nil.
Qed.

(** *** Where the answers come from *)
Hypothesis HS : sort_ok by_score (en_srt E).
Hypothesis HP : forall l, Permutation l (en_shuffle E l).
Definition from_row (d : db) (r : recalled) : Prop := exists e, row_of d e /\ re_mem r = to_memory F now e.
Definition of_the_bank (q : request) (r : recalled) : Prop := exists e, re_mem r = to_memory F now e /\ matches_filter e [("bank_id", q_bank q)] = true.
Lemma searched_rows st i s v o l e x : searched I E st i s v o l -> In (e, x) l -> row_of (st_db I s) e /\ matches_filter e (o_filter o) = true.
Proof. intros [H|[-> _]] Hin; [eapply search_from_rows; eauto|destruct Hin]. Qed.
Lemma forall2_found st l l' r : Forall2 (as_found F now st) l l' -> In r l' -> exists e x, In (e, x) l /\ re_mem r = to_memory F now e.
Proof.
  induction 1 as [|[e x] r0 l l' (A & _) _ IH]; [intros []|]. intros [<-|H]; [exists e, x; split; [left; reflexivity|exact A]|].
  destruct (IH H) as (e' & x' & H1 & H2). exists e', x'. split; [right; exact H1|exact H2].
Qed.
Lemma answer_rows s q st l r : answer I F E now s q st l -> In r l ->
  exists e, row_of (st_db I s) e /\ re_mem r = to_memory F now e /\ ((st = Keyword /\ q_vec q <> None) \/ matches_filter e [("bank_id", q_bank q)] = true).
Proof.
  intros A Hr. destruct A as [v k found l V _ S2 G|v k found l V _ S2 G|k found l V _ S2 G|v k found tf keep l V _ _ S2 _ G|V|v k found out l V _ S2 _ B _ G|V]; try destruct Hr.
  - destruct (forall2_found _ _ _ _ G Hr) as (e & x & H1 & H2). destruct (searched_rows _ _ _ _ _ _ _ _ S2 H1). exists e. auto.
  - destruct (forall2_found _ _ _ _ G Hr) as (e & x & H1 & H2). exists e. split; [|split; [auto|left; split; [reflexivity|congruence]]].
    destruct S2 as [S2|[-> _]]; [eapply hybrid_from_rows; eauto|destruct H1].
  - destruct (forall2_found _ _ _ _ G Hr) as (e & x & H1 & H2). destruct (searched_rows _ _ _ _ _ _ _ _ S2 H1). exists e. auto.
  - destruct (forall2_found _ _ _ _ G Hr) as (e & x & H1 & H2). apply filter_In in H1 as [H1 _]. destruct (searched_rows _ _ _ _ _ _ _ _ S2 H1). exists e. auto.
  - destruct (forall2_found _ _ _ _ G Hr) as (e & x & H1 & H2). destruct (B _ H1) as (i & name & m & t & B1 & B2 & _).
    assert (Hi : i < length (sg_entity (strategy_used q))) by (apply nth_error_Some; congruence).
    destruct (searched_rows _ _ _ _ _ _ _ _ (S2 i Hi) B2). exists e. auto.
Qed.
End C.

(** *** Auto-retain *)
Lemma auto_fires cfg h : active cfg -> forall c k j ses c', (0 <= k < au_every cfg)%Z ->
  (nth_error (snd (auto_run cfg (c, k) h)) j = Some (ses, c') <->
   exists h1 ev m h2, h = h1 ++ (ev, m) :: h2 /\ counts cfg m = true /\ snd (add_message ev (crun c (calls h1)) m) = Ok tt /\
     (k + Z.of_nat (S (length (filter (counts cfg) (added c (calls h1))))) = Z.of_nat (S j) * au_every cfg)%Z /\
     ses = g_session m /\ c' = crun c (calls (h1 ++ [(ev, m)]))).
Proof.
  intros (On & Ev & _). induction h as [|[ev m] h IH]; intros c k j ses c' Hk.
  - cbn. split; [destruct j; discriminate|]. intros (h1 & ev & m & h2 & H & _). destruct h1; discriminate.
  - cbn [auto_run]. unfold auto_add. cbn [fst snd].
    assert (Hcount : counts cfg m = negb (String.eqb (g_session m) "") && role_matches (g_role m) (au_roles cfg)) by (unfold counts, role_matches; destruct (au_roles cfg); reflexivity).
    destruct (add_message ev c m) as [c1 r] eqn:AM.
    assert (Step : forall h1, crun c (calls ((ev, m) :: h1)) = crun c1 (calls h1)). { intros h1. unfold crun, calls. cbn [map fold_left fst snd cstep]. rewrite AM. reflexivity. }
    set (hit := match r with Ok _ => counts cfg m | _ => false end).
    assert (Add : forall h1, length (filter (counts cfg) (added c (calls ((ev, m) :: h1)))) = (if hit then 1 else 0) + length (filter (counts cfg) (added c1 (calls h1)))).
    { intros h1. unfold calls. cbn [map added fst snd cstep]. rewrite AM. cbn [fst snd]. rewrite filter_app, app_length. f_equal. unfold hit.
      destruct r; cbn [filter length]; [|reflexivity..]. change (counts cfg _) with (counts cfg m) at 1. destruct (counts cfg m); reflexivity. }
    assert (Shift : forall (P : list (cenv * message) -> cenv -> message -> list (cenv * message) -> Prop),
      (exists h1 ev0 m0 h2, (ev, m) :: h = h1 ++ (ev0, m0) :: h2 /\ P h1 ev0 m0 h2) <->
      P [] ev m h \/ exists h1 ev0 m0 h2, h = h1 ++ (ev0, m0) :: h2 /\ P ((ev, m) :: h1) ev0 m0 h2).
    { intros P. split.
      - intros ([|x h1] & ev0 & m0 & h2 & H & HP); cbn in H.
        + injection H as <- <- <-. left. exact HP.
        + injection H as <- ->. right. exists h1, ev0, m0, h2. auto.
      - intros [HP|(h1 & ev0 & m0 & h2 & -> & HP)]; [exists [], ev, m, h; auto|]. exists ((ev, m) :: h1), ev0, m0, h2. auto. }
    rewrite Shift. clear Shift.
    assert (Tail : forall k', (exists h1 ev0 m0 h2, h = h1 ++ (ev0, m0) :: h2 /\ counts cfg m0 = true /\ snd (add_message ev0 (crun c (calls ((ev, m) :: h1))) m0) = Ok tt /\
        (k + Z.of_nat (S (length (filter (counts cfg) (added c (calls ((ev, m) :: h1)))))) = Z.of_nat (S j) * au_every cfg)%Z /\ ses = g_session m0 /\ c' = crun c (calls (((ev, m) :: h1) ++ [(ev0, m0)]))) <->
      (exists h1 ev0 m0 h2, h = h1 ++ (ev0, m0) :: h2 /\ counts cfg m0 = true /\ snd (add_message ev0 (crun c1 (calls h1)) m0) = Ok tt /\
        (k' + Z.of_nat (S (length (filter (counts cfg) (added c1 (calls h1))))) = Z.of_nat (S j) * au_every cfg + (k' - k - (if hit then 1 else 0)))%Z /\ ses = g_session m0 /\ c' = crun c1 (calls (h1 ++ [(ev0, m0)])))).
    { intros k'. split; intros (h1 & ev0 & m0 & h2 & A1 & A2 & A3 & A4 & A5 & A6); exists h1, ev0, m0, h2; split; auto; split; auto.
      - rewrite Step in A3. split; auto. rewrite Add in A4. split; [destruct hit; lia|]. split; auto. rewrite <- app_comm_cons, Step in A6. exact A6.
      - rewrite Step. split; auto. rewrite Add. split; [destruct hit; lia|]. split; auto. rewrite <- app_comm_cons, Step. exact A6. }
    assert (Head : (counts cfg m = true /\ snd (add_message ev (crun c (calls [])) m) = Ok tt /\
        (k + Z.of_nat (S (length (filter (counts cfg) (added c (calls []))))) = Z.of_nat (S j) * au_every cfg)%Z /\ ses = g_session m /\ c' = crun c (calls ([] ++ [(ev, m)]))) <->
        (hit = true /\ j = 0 /\ (k + 1 = au_every cfg)%Z /\ ses = g_session m /\ c' = c1)).
    { change (crun c (calls [])) with c. change (added c (calls [])) with (@nil message). cbn [filter length app]. rewrite Step, AM. change (crun c1 (calls [])) with c1. cbn [snd]. unfold hit. split.
      - intros (A1 & A2 & A3 & A4 & A5). rewrite A2. split; auto. assert (j = 0) by nia. subst j. split; auto. split; [lia|auto].
      - intros (A1 & A2 & A3 & A4 & A5). destruct r as [[]| |]; try discriminate. subst j. split; auto. split; auto. split; [lia|auto]. }
    rewrite Head, (Tail (if hit then (if (au_every cfg <=? k + 1)%Z then 0 else k + 1)%Z else k)). clear Head Tail.
    destruct hit eqn:Hit; unfold hit in Hit.
    + destruct r as [[]| |]; try discriminate. rewrite On, <- andb_assoc. cbn [andb]. rewrite <- Hcount, Hit. 
      destruct (Z.leb_spec (au_every cfg) (k + 1)) as [L|L].
      * specialize (IH c1 0%Z). destruct (auto_run cfg (c1, 0%Z) h) as [st2 fs] eqn:AR. cbn [fst snd app]. destruct j as [|j]; cbn [nth_error].
        -- split; [intros [= <- <-]; left; repeat split; lia|]. intros [(_ & _ & _ & -> & ->)|(h1 & ev0 & m0 & h2 & _ & _ & _ & A & _)]; [reflexivity|]. exfalso. lia.
        -- cbn [snd] in IH. rewrite (IH j ses c' ltac:(lia)). split; [intros H; right|intros [(_ & X & _)|H]; [discriminate|]].
           ++ destruct H as (h1 & ev0 & m0 & h2 & A1 & A2 & A3 & A4 & A5). exists h1, ev0, m0, h2. repeat (split; auto). lia.
           ++ destruct H as (h1 & ev0 & m0 & h2 & A1 & A2 & A3 & A4 & A5). exists h1, ev0, m0, h2. repeat (split; auto). lia.
      * specialize (IH c1 (k + 1)%Z j ses c' ltac:(lia)). destruct (auto_run cfg (c1, (k + 1)%Z) h) as [st2 fs] eqn:AR. cbn [fst snd app] in *. rewrite IH. split.
        -- intros (h1 & ev0 & m0 & h2 & A1 & A2 & A3 & A4 & A5). right. exists h1, ev0, m0, h2. repeat (split; auto). lia.
        -- intros [(_ & _ & X & _)|(h1 & ev0 & m0 & h2 & A1 & A2 & A3 & A4 & A5)]; [lia|]. exists h1, ev0, m0, h2. repeat (split; auto). lia.
    + assert (Same : (match r with Ok _ => if au_on cfg && negb (String.eqb (g_session m) "") && role_matches (g_role m) (au_roles cfg)
            then if (au_every cfg <=? k + 1)%Z then (c1, 0%Z, true, Ok tt) else (c1, (k + 1)%Z, false, Ok tt) else (c1, k, false, Ok tt) | _ => (c1, k, false, r) end) = (c1, k, false, r)).
      { destruct r as [[]| |]; auto. rewrite On, <- andb_assoc. cbn [andb]. rewrite <- Hcount, Hit. reflexivity. }
      rewrite Same. specialize (IH c1 k j ses c' ltac:(lia)). destruct (auto_run cfg (c1, k) h) as [st2 fs] eqn:AR. cbn [fst snd app] in *. rewrite IH. split.
      * intros (h1 & ev0 & m0 & h2 & A1 & A2 & A3 & A4 & A5). right. exists h1, ev0, m0, h2. repeat (split; auto). lia.
      * intros [(X & _)|(h1 & ev0 & m0 & h2 & A1 & A2 & A3 & A4 & A5)]; [discriminate|]. exists h1, ev0, m0, h2. repeat (split; auto). lia.
Qed.
