(** Proofs for C44. *)
From Coq Require Import String List NArith ZArith Bool Lia Permutation Sorted.
From Coq Require Import Floats.SpecFloat.
From Verif Require Import Base Floats64 TopK IvfModel IvfSpec IvfProofs HnswModel MultiIndexSpec MultiIndexModel.
From Verif Require HnswSpec HnswProofs.
Import ListNotations.

Definition Best (acc seen : answer) : Prop :=
  NoDup (map snd acc) /\ incl acc seen /\ forall r, In r seen -> exists e, In e acc /\ snd e = snd r /\ flt (fst r) (fst e) = false.
Lemma keep_best_ok acc seen r : Best acc seen -> Best (keep_best acc r) (seen ++ [r]).
Proof.
  intros (N & I & B). unfold keep_best. destruct (find _ acc) as [e|] eqn:F.
  - apply find_some in F as [Fi Fe]. apply String.eqb_eq in Fe. destruct (flt (fst r) (fst e)) eqn:L.
    + assert (K : map snd (map (fun e => if String.eqb (snd e) (snd r) then r else e) acc) = map snd acc).
      { rewrite map_map. apply map_ext. intros a. destruct (String.eqb_spec (snd a) (snd r)); auto. }
      split; [rewrite K; auto|]. split.
      * intros y Hy. apply in_map_iff in Hy as (a & <- & Ha). apply in_or_app. destruct (String.eqb (snd a) (snd r)); [right; left; auto|left; auto].
      * assert (Hr : In r (map (fun e => if String.eqb (snd e) (snd r) then r else e) acc)).
        { apply in_map_iff. exists e. rewrite Fe, String.eqb_refl. auto. }
        intros y Hy. apply in_app_or in Hy as [Hy|[<-|[]]]; [|exists r; split; auto; split; auto; apply flt_irrefl].
        destruct (B y Hy) as (a & Ha & Ea & La). destruct (String.eqb_spec (snd a) (snd r)) as [E|E].
        -- exists r. split; auto. split; [congruence|]. assert (a = e). { eapply NoDup_map_eq; [exact N|exact Ha|exact Fi|congruence]. } subst a.
           destruct (flt (fst y) (fst r)) eqn:Ly; auto. rewrite (flt_trans _ _ _ Ly L) in La. discriminate.
        -- exists a. split; [|auto]. apply in_map_iff. exists a. destruct (String.eqb_spec (snd a) (snd r)); [contradiction|]. auto.
    + split; auto. split; [apply incl_appl; auto|]. intros y Hy. apply in_app_or in Hy as [Hy|[<-|[]]]; auto. exists e. auto.
  - assert (Hn : ~ In (snd r) (map snd acc)).
    { intros H. apply in_map_iff in H as (a & Ea & Ha). apply (find_none _ _ F) in Ha. rewrite Ea, String.eqb_refl in Ha. discriminate. }
    split; [|split].
    + rewrite map_app. cbn. apply NoDup_app_intro; auto; [constructor; [intros []|constructor]|]. intros y Hy [<-|[]]. contradiction.
    + intros y Hy. apply in_app_or in Hy as [Hy|Hy]; apply in_or_app; auto.
    + intros y Hy. apply in_app_or in Hy as [Hy|[<-|[]]].
      * destruct (B y Hy) as (a & Ha & R). exists a. split; auto. apply in_or_app; auto.
      * exists r. split; [apply in_or_app; right; left; auto|]. split; auto. apply flt_irrefl.
Qed.
Lemma best_fold l : forall acc seen, Best acc seen -> Best (fold_left keep_best l acc) (seen ++ l).
Proof.
  induction l as [|r l IH]; intros acc seen B; cbn [fold_left]; [rewrite app_nil_r; auto|].
  replace (seen ++ r :: l) with ((seen ++ [r]) ++ l) by (rewrite <- app_assoc; auto). apply IH. apply keep_best_ok. auto.
Qed.
Lemma best_all l : Best (fold_left keep_best l []) l.
Proof. apply (best_fold l [] []). split; [constructor|]. split; [intros ? []|intros ? []]. Qed.

Section M.
Variable M : Type.
Variable m_search : M -> list N -> Z -> outcome answer.
Lemma ask_in ms q k answers : ask M m_search ms q k = Ok answers ->
  forall r, In r (concat answers) <-> exists m a, In m ms /\ m_search m q k = Ok a /\ In r a.
Proof.
  revert answers. induction ms as [|m ms IH]; cbn [ask]; intros answers E r.
  - injection E as <-. cbn. split; [intros []|intros (? & ? & [] & _)].
  - destruct (m_search m q k) as [a|e|] eqn:Em; cbn [bind] in E; try discriminate.
    destruct (ask M m_search ms q k) as [r'|e|] eqn:Er; cbn [bind] in E; try discriminate. injection E as <-. cbn [concat]. rewrite in_app_iff, (IH r' eq_refl). split.
    + intros [H|(m' & a' & Hm & H)]; [exists m, a; cbn; auto|exists m', a'; cbn; tauto].
    + intros (m' & a' & [<-|Hm] & Ha & H); [left; congruence|right; exists m', a'; auto].
Qed.
Lemma member_in (x : multi M) t m : member M x t = Some m -> In (t, m) (mi_members M x).
Proof.
  unfold member. destruct (find _ _) as [[t' m']|] eqn:F; cbn; [|discriminate]. intros [= <-]. apply find_some in F as [F E]. cbn in E. apply String.eqb_eq in E. subst. auto.
Qed.
Lemma top_in {A} k (l out : list A) : top k l = Ok out -> (0 <= k)%Z /\ out = firstn (Z.to_nat k) l.
Proof. unfold top. destruct (Z.ltb_spec k 0); [discriminate|]. intros [= <-]. auto. Qed.

(** Every id any strategy returns was answered by a member. *)
Lemma add_vote_ids acc r : map fst (add_vote acc r) = map fst acc.
Proof. unfold add_vote. rewrite map_map. apply map_ext. intros e. destruct (String.eqb _ _); auto. Qed.
Lemma add_votes_ids l : forall acc, map fst (fold_left add_vote l acc) = map fst acc.
Proof. induction l as [|r l IH]; intros acc; cbn; auto. rewrite IH. apply add_vote_ids. Qed.
Lemma cast_votes_ids l : forall acc id, In id (map fst (fold_left cast_vote l acc)) -> In id (map fst acc) \/ In id (map snd l).
Proof.
  induction l as [|r l IH]; intros acc id H; cbn [fold_left] in H; auto. apply IH in H as [H|H]; [|right; right; auto].
  unfold cast_vote in H. destruct (existsb _ acc); [rewrite add_vote_ids in H; auto|]. rewrite map_app in H. apply in_app_or in H as [H|[<-|[]]]; auto.
  right. left. auto.
Qed.
Lemma members_perm_in omem (x : multi M) m : (forall l : list (string * M), Permutation l (omem l)) ->
  In m (map snd (omem (mi_members M x))) -> exists t, In (t, m) (mi_members M x).
Proof.
  intros Ho H. apply in_map_iff in H as ([t m'] & E & H). cbn in E. subst. exists t. eapply Permutation_in; [apply Permutation_sym; apply Ho|exact H].
Qed.
Lemma answered_by omem ores srt ovotes svotes (x : multi M) q k out :
  (forall l, Permutation l (omem l)) -> (forall l, Permutation l (ores l)) -> (forall l, Permutation l (srt l)) ->
  (forall l, Permutation l (ovotes l)) -> (forall l, Permutation l (svotes l)) ->
  multi_search M m_search omem ores srt ovotes svotes x q k = Ok out ->
  forall d id, In (d, id) out -> exists t m k' a d', In (t, m) (mi_members M x) /\ m_search m q k' = Ok a /\ In (d', id) a.
Proof.
  intros P1 P2 P3 P4 P5 E d id Hi. unfold multi_search in E. destruct (mi_strategy M x).
  - unfold search_primary in E. destruct (member M x (mi_primary M x)) as [m|] eqn:Em; [|injection E as <-; destruct Hi].
    apply member_in in Em. exists (mi_primary M x), m, k, out, d. auto.
  - unfold search_merge in E. destruct (ask _ _ _ _ _) as [answers|e|] eqn:Ea; cbn [bind] in E; try discriminate. apply top_in in E as [_ ->].
    apply in_firstn in Hi. apply (Permutation_in _ (Permutation_sym (P3 _))) in Hi. apply (Permutation_in _ (Permutation_sym (P2 _))) in Hi.
    apply (best_all (concat answers)) in Hi. apply (ask_in _ _ _ _ Ea) in Hi as (m & a & Hm & Hs & Hr). apply members_perm_in in Hm as [t Ht]; auto.
    exists t, m, k, a, d. auto.
  - unfold search_rerank in E. destruct (member M x (mi_primary M x)) as [p|] eqn:Em; [|injection E as <-; destruct Hi]. cbv zeta in E.
    match type of E with context [m_search p q ?c] => set (ck := c) in * end.
    destruct (m_search p q ck) as [cands|e|] eqn:Ec; cbn [bind] in E; try discriminate. destruct cands as [|c cands]; [injection E as <-; destruct Hi|].
    destruct (ask _ _ _ _ _) as [answers|e|] eqn:Ea; cbn [bind] in E; try discriminate. apply top_in in E as [_ ->].
    apply in_firstn in Hi. apply (Permutation_in _ (Permutation_sym (P3 _))) in Hi. apply in_map_iff in Hi as (e & Ee & Hi). injection Ee as _ Ei.
    apply (Permutation_in _ (Permutation_sym (P4 _))) in Hi. apply (in_map fst) in Hi. rewrite add_votes_ids, Ei, map_map in Hi. cbn [fst] in Hi. rewrite map_id in Hi.
    apply nodup_In in Hi. apply in_map_iff in Hi as ([d' i'] & Ei' & Hi). cbn in Ei'. subst i'.
    apply member_in in Em. exists (mi_primary M x), p, ck, (c :: cands), d'. auto.
  - unfold search_voting in E. destruct (ask _ _ _ _ _) as [answers|e|] eqn:Ea; cbn [bind] in E; try discriminate.
    destruct (top k _) as [vs|e|] eqn:Et; cbn [bind] in E; try discriminate. injection E as <-. apply top_in in Et as [_ ->].
    apply in_map_iff in Hi as (e & Ee & Hi). injection Ee as _ Ei. apply in_firstn in Hi. apply (Permutation_in _ (Permutation_sym (P5 _))) in Hi.
    apply in_map_iff in Hi as (e' & Ee' & Hi). apply (Permutation_in _ (Permutation_sym (P4 _))) in Hi. apply (in_map fst) in Hi.
    assert (Ef : fst e' = id) by (subst; reflexivity). rewrite Ef in Hi. apply cast_votes_ids in Hi as [[]|Hi]. apply in_map_iff in Hi as ([d' i'] & Ei' & Hi). cbn in Ei'. subst i'.
    apply (ask_in _ _ _ _ Ea) in Hi as (m & a & Hm & Hs & Hr). apply members_perm_in in Hm as [t Ht]; auto. exists t, m, (k * 2)%Z, a, d'. auto.
Qed.

Variable m_delete : M -> string -> option M.
Lemma set_member_in (x : multi M) t m t' m' : In (t', m') (mi_members M (set_member M x t m)) -> (t' = t /\ m' = m) \/ (t' <> t /\ In (t', m') (mi_members M x)).
Proof.
  cbn. intros H. apply in_map_iff in H as ([a b] & E & H). cbn in E. destruct (String.eqb_spec a t); injection E as <- <-; auto.
Qed.
Lemma set_member_names (x : multi M) t m : map fst (mi_members M (set_member M x t m)) = map fst (mi_members M x).
Proof. cbn. rewrite map_map. apply map_ext. intros [a b]. cbn. destruct (String.eqb_spec a t); auto. Qed.
Lemma delete_ok visit id : forall x y, multi_delete M m_delete x visit id = (y, true) ->
  forall t m, In (t, m) (mi_members M y) ->
    (In (t, m) (mi_members M x) /\ ~ In t visit) \/ (exists m0, m_delete m0 id = Some m) \/ ~ In t (map fst (mi_members M x)).
Proof.
  induction visit as [|t0 visit IH]; cbn [multi_delete]; intros x y E t m H; [injection E as <-; left; auto|].
  destruct (member M x t0) as [m0|] eqn:Em.
  - destruct (m_delete m0 id) as [m1|] eqn:Ed; [|discriminate]. destruct (IH _ _ E t m H) as [[A B]|[A|A]]; auto.
    + apply set_member_in in A as [[-> ->]|[Hne A]]; [right; left; eauto|]. left. split; auto. intros [<-|?]; auto.
    + right. right. rewrite set_member_names in A. auto.
  - destruct (IH _ _ E t m H) as [[A B]|[A|A]]; auto. destruct (string_dec t0 t) as [<-|Hne].
    + right. right. intros Hin. unfold member in Em. destruct (find _ _) eqn:F; [discriminate|]. apply in_map_iff in Hin as (p & Ep & Hp). apply (find_none _ _ F) in Hp.
      rewrite Ep, String.eqb_refl in Hp. discriminate.
    + left. split; auto. intros [?|?]; auto.
Qed.
Lemma delete_names visit id : forall x y b, multi_delete M m_delete x visit id = (y, b) -> map fst (mi_members M y) = map fst (mi_members M x).
Proof.
  induction visit as [|t0 visit IH]; cbn [multi_delete]; intros x y b E; [injection E as <- <-; auto|].
  destruct (member M x t0) as [m0|]; [|eauto]. destruct (m_delete m0 id) as [m1|]; [|injection E as <- <-; auto].
  rewrite (IH _ _ _ E). apply set_member_names.
Qed.
End M.

(** Hybrid. *)
Section H.
Variable dist : list N -> list N -> float.
Lemma add_hnsw_all ns q k seen l : (forall id, In id l -> In id seen) -> forall acc, fold_left (add_hnsw dist ns q k seen) l acc = acc.
Proof.
  induction l as [|id l IH]; intros H acc; cbn [fold_left]; auto. unfold add_hnsw at 2.
  assert (E : existsb (String.eqb id) seen = true) by (apply existsb_exists; exists id; split; [apply H; left; auto|apply String.eqb_refl]). rewrite E. cbn. apply IH. intros; apply H; right; auto.
Qed.

Variable cents : list (list N).
Variable dim : nat.
Notation same := (fun v : list N => v).
Definition Both (x : hybrid) (l : list (string * list N)) (np : Z) : Prop :=
  HnswProofs.Good (hy_h x) /\ HnswProofs.proj (h_nodes (hy_h x)) = map (fun p => (fst p, (snd p, false))) l /\
  Rep dist cents dim (hy_i x) l /\ i_nprobe (hy_i x) = np.
Lemma both_insert x l np id v lvl : Both x l np -> length v = dim ->
  Both (fst (hy_insert dist x id v lvl)) (if existsb (fun p => String.eqb (fst p) id) l then l else l ++ [(id, v)]) np.
Proof.
  intros (G & P & R & Np) Lv. unfold hy_insert.
  destruct (HnswProofs.step_good dist same (hy_h x) (HInsert id v lvl) G) as (h' & E & G' & P' & _). cbn [hstep] in E.
  cbn [HnswSpec.c_step] in P'. unfold HnswSpec.c_insert, HnswSpec.c_has in P'. cbn [fst snd] in P'. rewrite P in P'.
  assert (Hx : existsb (fun e : string * (list N * bool) => String.eqb (fst e) id) (map (fun p => (fst p, (snd p, false))) l) = existsb (fun p => String.eqb (fst p) id) l).
  { clear. induction l as [|p l IH]; cbn; auto. rewrite IH. auto. }
  rewrite Hx in P'. destruct (existsb (fun p => String.eqb (fst p) id) l) eqn:Ex.
  - assert (Er : exists e, hnsw_insert dist same (hy_h x) id v lvl = Err e).
    { unfold hnsw_insert. assert (Hg : exists n, get (h_nodes (hy_h x)) id = Some n).
      { pose proof (HnswProofs.has_get (h_nodes (hy_h x)) id) as Hh. unfold HnswSpec.c_has in Hh. rewrite P, Hx in Hh. destruct (get (h_nodes (hy_h x)) id); [eauto|discriminate]. }
      destruct Hg as [n ->]. eauto. }
    destruct Er as [e Er]. rewrite Er. cbn [fst]. split; auto.
  - destruct E as [E|[[e E] ->]].
    + rewrite E. destruct (add_accepted dist cents dim _ _ id v R Lv) as [i Ei]. rewrite Ei. cbn [fst].
      destruct (rep_add dist cents dim _ _ _ _ _ R Ei) as (_ & R' & Np'). split; auto. split; [|split; auto; cbn; congruence].
      cbn [hy_h]. rewrite P', map_app. auto.
    + exfalso. apply (f_equal (@length _)) in P'. rewrite P, app_length, map_length in P'. cbn in P'. lia.
Qed.
Lemma both_run vs : forall x l np, Both x l np -> (forall e, In e vs -> length (snd (fst e)) = dim) ->
  Both (fold_left (fun x e => fst (hy_insert dist x (fst (fst e)) (snd (fst e)) (snd e))) vs x) (l ++ first_per_id (map fst l) (map fst vs)) np.
Proof.
  induction vs as [|[[id v] lvl] vs IH]; intros x l np B H; cbn [fold_left map first_per_id fst snd]; [rewrite app_nil_r; auto|].
  assert (Lv : length v = dim) by (apply (H (id, v, lvl)); left; auto).
  pose proof (both_insert x l np id v lvl B Lv) as B'. assert (Hx : existsb (String.eqb id) (map fst l) = existsb (fun p => String.eqb (fst p) id) l).
  { clear. induction l as [|p l IH]; cbn; auto. rewrite IH, String.eqb_sym. auto. }
  rewrite Hx. destruct (existsb (fun p => String.eqb (fst p) id) l).
  - apply IH; auto. intros e He. apply H; right; auto.
  - specialize (IH _ _ np B'). rewrite map_app in IH. cbn [map fst] in IH. rewrite <- app_assoc in IH. cbn [app] in IH.
    apply IH. intros e He. apply H; right; auto.
Qed.
Lemma hybrid_lemma srt srtr x l np q k : sort_ok closer srt -> sort_ok multi_closer srtr -> Both x l np -> 1 <= length cents ->
  (Z.of_nat (length cents) <= np)%Z -> length q = dim -> (0 <= k)%Z -> distances_are_numbers dist q (map snd l) ->
  exists out, hy_search dist srt srtr x q k = Ok out /\ is_topk nearer (Z.to_nat k) (with_distance dist q l) out.
Proof.
  intros Hs Hr (G & P & R & Np) Hc Hp Lq Hk Nn. unfold hy_search.
  destruct (HnswProofs.search_sound_lemma dist (hy_h x) q (k * 2) 50 G ltac:(lia)) as (hs & Eh & _ & _ & Hh & _). rewrite Eh. cbn [bind].
  destruct (search_ok dist cents dim srt _ _ q k Hs R Lq Hk Nn) as (is_ & Ei & T). rewrite Ei. cbn [bind].
  rewrite all_probed in T; auto; [|lia]. set (res := fold_left _ (map snd hs) is_).
  assert (Er : res = is_).
  { destruct T as (rest & Pt & L & _). unfold with_distance in L. rewrite map_length in L. destruct (Nat.le_gt_cases (length l) (Z.to_nat k)) as [Hle|Hgt].
    - unfold res. apply add_hnsw_all. intros id Hid. apply in_map_iff in Hid as ([d i] & Ei' & Hi). cbn in Ei'. subst i.
      destruct (Hh d id Hi) as (v & Hv & _). rewrite P in Hv. unfold HnswSpec.live in Hv. apply in_map_iff in Hv as (e & Ee & He). apply filter_In in He as [He _].
      apply in_map_iff in He as (p & <- & Hp'). cbn in Ee. injection Ee as Ei1 Ei2.
      assert (Hlen : length rest = 0). { apply Permutation_length in Pt. unfold with_distance in Pt. rewrite map_length, app_length in Pt. lia. }
      apply length_zero_iff_nil in Hlen. subst rest. rewrite app_nil_r in Pt. apply in_map_iff. exists (dist q (snd p), fst p). split; auto.
      eapply Permutation_in; [exact Pt|]. unfold with_distance. apply in_map_iff. exists p. auto.
    - unfold res. clear res. assert (Hlen : (k <= Z.of_nat (length is_))%Z) by lia. revert Hlen. generalize (map snd is_) as seen. generalize (map snd hs) as hl. clear.
      intros hl seen Hl. induction hl as [|id hl IH]; cbn [fold_left]; auto. unfold add_hnsw at 2. destruct (Z.ltb_spec (Z.of_nat (length is_)) k); [lia|]. rewrite andb_false_r. exact IH. }
  rewrite Er. unfold top. destruct (Z.ltb_spec k 0); [lia|]. eexists. split; [reflexivity|].
  destruct T as (rest & Pt & L & St & Bt).
  assert (Hn : forall p, In p is_ -> not_nan (fst p)).
  { intros p Hi. assert (Hi' : In p (with_distance dist q l)) by (eapply Permutation_in; [apply Permutation_sym; exact Pt|apply in_or_app; auto]).
    unfold with_distance in Hi'. apply in_map_iff in Hi' as (y & <- & Hy). cbn. apply Nn. apply in_map. auto. }
  pose proof (Hr is_) as [Pr Sr]. specialize (Sr (weak_order_asc (fun p => fst p) is_ Hn)).
  assert (Ls : length (srtr is_) = length is_) by (rewrite <- (Permutation_length Pr); auto).
  rewrite firstn_all2 by lia. exists rest. split; [|split; [|split]].
  - eapply perm_trans; [exact Pt|]. apply Permutation_app_tail. exact Pr.
  - rewrite Ls. exact L.
  - exact Sr.
  - intros a b Ha Hb. apply Bt; auto. eapply Permutation_in; [apply Permutation_sym; exact Pr|exact Ha].
Qed.
Lemma hybrid_start m vectors x : hy_train (new_hybrid dim m (length cents)) vectors cents = Ok x -> Both x [] (Z.min (Z.of_nat (length cents)) 10) /\ 1 <= length cents.
Proof.
  unfold hy_train. cbn [hy_i new_hybrid]. destruct (ivf_train _ _ _) as [i|e|] eqn:E; cbn [bind]; try discriminate. intros [= <-].
  destruct (rep_trained dist cents dim vectors i E) as [R Np]. split; [|eapply train_pos; exact E]. split; [apply HnswProofs.new_good|]. split; auto.
Qed.
End H.
