(** Proofs about SearchMemory. *)
From Coq Require Import String List NArith ZArith Bool Lia Permutation Sorted.
From Coq Require Import Floats.SpecFloat.
From Verif Require Import Base Floats64 TopK EncodingModel EncodingSpec StoreModel StoreProofs MultiVecProofs AggProofs GeoProps MemModel MemSpec MemProofs.
Import ListNotations.
Open Scope string_scope.
Open Scope list_scope.

Lemma is_topk_map {A B} (g : A -> B) better better' n all out :
  (forall x y, In x all -> In y all -> better' (g x) (g y) = better x y) -> is_topk better n all out -> is_topk better' n (map g all) (map g out).
Proof.
  intros E (rest & P & L & S & H). exists (map g rest). rewrite <- map_app. split; [apply Permutation_map; exact P|]. split; [rewrite !map_length; exact L|].
  assert (I1 : forall x, In x out -> In x all) by (intros x Hx; eapply Permutation_in; [apply Permutation_sym; exact P|apply in_or_app; auto]).
  assert (I2 : forall x, In x rest -> In x all) by (intros x Hx; eapply Permutation_in; [apply Permutation_sym; exact P|apply in_or_app; auto]). split.
  - clear P L H I2. induction S as [|x l S IH F]; [constructor|]. cbn [map]. constructor; [apply IH; intros y Hy; apply I1; right; exact Hy|]. rewrite Forall_forall in F |- *.
    intros y Hy. apply in_map_iff in Hy as (z & <- & Hz). rewrite E; [apply F; exact Hz|apply I1; right; exact Hz|apply I1; left; reflexivity].
  - intros x y Hx Hy. apply in_map_iff in Hx as (x' & <- & Hx), Hy as (y' & <- & Hy). rewrite E; auto.
Qed.

Lemma Forall2_imp {A B} (P Q : A -> B -> Prop) l l' : (forall x y, P x y -> Q x y) -> Forall2 P l l' -> Forall2 Q l l'.
Proof. intros H F. induction F; constructor; auto. Qed.

(** * Expiry *)
Lemma expired_lapsed now r : expired now r = true <-> lapsed now r.
Proof.
  unfold expired, lapsed, giga. destruct (mr_expires r) as [e|]; [|split; [discriminate|intros (e & E & _); discriminate]].
  rewrite Z.ltb_lt. split; [intros H; eauto|intros (e' & [= <-] & H); exact H].
Qed.
Lemma not_over now i r : shows i r -> expired now r = false -> ~ over now i.
Proof.
  intros (_ & _ & _ & _ & _ & _ & _ & _ & _ & H) E [T O]. destruct (H T) as (e & Ee & B & _). assert (X : lapsed now r) by (exists e; split; [exact Ee|lia]). apply expired_lapsed in X. congruence.
Qed.
Lemma nearly_over now i r : shows i r -> expired now r = true -> (0 < it_ttl i)%Z /\ ((it_ttl i * 1000000000 < 2 ^ 63)%Z -> (it_written i + it_ttl i * 1000000000 < now + 1000000000)%Z).
Proof.
  intros (_ & _ & _ & _ & _ & _ & _ & _ & N & H) E. apply expired_lapsed in E as (e & Ee & B). assert (T : (0 < it_ttl i)%Z).
  { destruct (Z.lt_ge_cases 0 (it_ttl i)) as [T|T]; [exact T|]. rewrite N in Ee by exact T. discriminate. }
  split; [exact T|]. intros O. destruct (H T) as (e' & Ee' & _ & C). rewrite Ee in Ee'. injection Ee' as <-. specialize (C O). lia.
Qed.

Section Search.
Variables (h : list (menv * mcall)) (db : memdb) (st : items).
Hypothesis A : agrees h db st.

(** * The rows of a bucket *)
Lemma row_item p w : chats_apart h -> In w (md_rows db) -> me_bucket w = bucket_of p ->
  exists i q, st (me_id w) = Some i /\ (forall u, shows i (to_record u w)) /\ it_place i = Some q /\ bucket_of q = bucket_of p /\ vec_ok (it_vec i) w.
Proof using A.
  intros Ap W B. destruct A as (_ & G & _). destruct (G w W) as [(i & G1 & G2 & G3 & _ & G5) _]. destruct (it_place i) as [q|] eqn:P.
  - exists i, q. split; [exact G1|]. split; [exact G2|]. split; [exact P|]. split; [congruence|apply G5; congruence].
  - destruct G3 as (ev & x & X & Y). destruct (bucket_memory p) as (s & S). destruct (Ap ev x X s). congruence.
Qed.
Lemma row_item_plain p w : chats_apart h -> plain_owners st -> no_colon (owner p) -> In w (md_rows db) -> me_bucket w = bucket_of p ->
  exists i, st (me_id w) = Some i /\ (forall u, shows i (to_record u w)) /\ it_place i = Some p /\ vec_ok (it_vec i) w.
Proof using A.
  intros Ap Pl Nc W B. destruct (row_item p w Ap W B) as (i & q & I1 & I2 & I3 & I4 & I5). exists i. assert (q = p) by (apply bucket_inj; [eapply Pl; eauto|exact Nc|exact I4]). subst q. auto.
Qed.

(** * Semantic *)
Definition cand_rows (b : string) : list mem := filter has_vec (filter (fun w => String.eqb (me_bucket w) b) (md_rows db)).
Lemma cand_in b w : In w (cand_rows b) <-> In w (md_rows db) /\ me_bucket w = b /\ has_vec w = true.
Proof using Type. unfold cand_rows. rewrite !filter_In, String.eqb_eq. tauto. Qed.
Lemma nearest_incl sim qv b k w : In w (nearest sim db qv b k) -> In w (cand_rows b).
Proof using Type.
  unfold nearest. intros H. apply in_map_iff in H as ([w' s] & <- & H). apply in_firstn in H. eapply Permutation_in in H; [|apply Permutation_sym, ex_sort_perm]. apply in_map_iff in H as (w & E & H). injection E as <- _. exact H.
Qed.
Lemma nearest_len sim qv b k : length (nearest sim db qv b k) <= k.
Proof using Type. clear. unfold nearest. rewrite map_length, firstn_length. lia. Qed.
Lemma nearest_perm sim qv b k : exists rest, Permutation (cand_rows b) (nearest sim db qv b k ++ rest).
Proof using Type.
  unfold nearest. fold (cand_rows b). set (l := map _ (cand_rows b)). exists (map fst (skipn k (ex_sort by_sim l))). rewrite <- map_app, firstn_skipn.
  eapply Permutation_trans; [|apply Permutation_map, ex_sort_perm]. unfold l. rewrite map_map. cbn. rewrite map_id. apply Permutation_refl.
Qed.
Lemma cand_nodup b : NoDup (map me_id (cand_rows b)).
Proof using A. destruct A as (N & _). unfold cand_rows. apply NoDup_map_filter, NoDup_map_filter. exact N. Qed.
Lemma nearest_nodup sim qv b k : NoDup (map me_id (nearest sim db qv b k)).
Proof using A.
  destruct (nearest_perm sim qv b k) as (rest & P). apply (Permutation_map me_id) in P. rewrite map_app in P. eapply NoDup_app_l. eapply Permutation_NoDup; [exact P|apply cand_nodup].
Qed.

Definition dummy : item := {| it_place := None; it_role := ""; it_content := ""; it_importance := f_zero; it_ttl := 0; it_extra := fun _ => None; it_vec := None; it_created := 0; it_written := 0 |}.
Definition lift (w : mem) : string * item := (me_id w, match st (me_id w) with Some i => i | None => dummy end).
Lemma nearest_topk sim qv p k : chats_apart h -> plain_owners st -> no_colon (owner p) -> float_vectors st ->
  (forall id i, st id = Some i -> it_place i = Some p -> it_vec i <> None -> not_nan (f32_of_f64 (sim qv (vec_of i)))) ->
  embedded_at st p (map lift (cand_rows (bucket_of p))) /\ is_topk (nearer sim qv) k (map lift (cand_rows (bucket_of p))) (map lift (nearest sim db qv (bucket_of p) k)).
Proof using A.
  intros Ap Pl Nc Fv Nn.
  assert (R : forall w, In w (cand_rows (bucket_of p)) -> exists i, st (me_id w) = Some i /\ it_place i = Some p /\ it_vec i = Some (mem_vec w)).
  { intros w Hw. apply cand_in in Hw as (W & B & V). destruct (row_item_plain p w Ap Pl Nc W B) as (i & I1 & _ & I2 & I3). exists i. split; [exact I1|]. split; [exact I2|].
    unfold vec_ok in I3. destruct (it_vec i) as [v|] eqn:E; [|congruence]. destruct I3 as [_ X]. rewrite X; [reflexivity|eapply Fv; eauto]. }
  split.
  - split; [rewrite map_map; apply cand_nodup|]. intros id i. rewrite in_map_iff. split.
    + intros (w & E & Hw). destruct (R w Hw) as (j & J1 & J2 & J3). unfold lift in E. rewrite J1 in E. injection E as <- <-. split; [exact J1|]. split; [exact J2|congruence].
    + intros (S & P & V). destruct A as (_ & G & C). destruct (C id i S) as (w & W & E). exists w. split; [unfold lift; rewrite E, S; reflexivity|]. apply cand_in. split; [exact W|].
      destruct (G w W) as [(j & J1 & _ & J3 & _ & J5) _]. rewrite E, S in J1. injection J1 as <-. rewrite P in J3. split; [exact J3|]. assert (X : vec_ok (it_vec i) w) by (apply J5; congruence).
      unfold vec_ok in X. destruct (it_vec i); [apply X|congruence].
  - set (f := fun w => (w, f32_of_f64 (sim qv (mem_vec w)))).
    assert (Sc : forall w, In w (cand_rows (bucket_of p)) -> f32_of_f64 (sim qv (vec_of (snd (lift w)))) = snd (f w)).
    { intros w Hw. destruct (R w Hw) as (i & I1 & _ & I3). unfold lift. rewrite I1. cbn. unfold vec_of. rewrite I3. reflexivity. }
    assert (T : is_topk by_sim k (map f (cand_rows (bucket_of p))) (firstn k (ex_sort by_sim (map f (cand_rows (bucket_of p)))))).
    { apply topk_of_sort; [apply ex_sort_ok|]. apply (weak_order_desc (fun x : mem * float => snd x)). intros [w s] Hw. apply in_map_iff in Hw as (w' & E & Hw). injection E as <- <-. cbn.
      destruct (R w' Hw) as (i & I1 & I2 & I3). specialize (Nn _ i I1 I2). unfold vec_of in Nn. rewrite I3 in Nn. apply Nn. discriminate. }
    apply (is_topk_map (fun x => lift (fst x)) _ (nearer sim qv)) in T.
    + rewrite map_map in T. cbn [fst f] in T. unfold nearest. fold (cand_rows (bucket_of p)). fold f. rewrite map_map. exact T.
    + intros x y Hx Hy. apply in_map_iff in Hx as (x' & <- & Hx), Hy as (y' & <- & Hy). cbn [fst f]. unfold nearer, by_sim. rewrite !Sc by assumption. reflexivity.
Qed.

(** Filtering an indexed list. *)
Lemma filter_index {B} (f : nat -> mem -> B) (t : B -> bool) : forall ms s,
  exists idx, StronglySorted lt idx /\ (forall i, In i idx -> s <= i) /\
    Forall2 (fun i x => exists w, nth_error ms (i - s) = Some w /\ x = f i w /\ t x = true) idx (filter t (map (fun iw => f (fst iw) (snd iw)) (List.combine (seq s (length ms)) ms))) /\
    (forall i w, s <= i -> nth_error ms (i - s) = Some w -> ~ In i idx -> t (f i w) = false).
Proof using Type.
  clear. induction ms as [|w ms IH]; intros s.
  { exists []. split; [constructor|]. split; [intros i []|]. split; [constructor|]. intros i w _ E. destruct (i - s); discriminate. }
  destruct (IH (S s)) as (idx & S1 & S2 & S3 & S4). cbn [length seq List.combine map filter fst snd].
  assert (F : Forall2 (fun i x => exists w0, nth_error (w :: ms) (i - s) = Some w0 /\ x = f i w0 /\ t x = true) idx (filter t (map (fun iw => f (fst iw) (snd iw)) (List.combine (seq (S s) (length ms)) ms)))).
  { clear S1 S4. induction S3 as [|i x idx l X S3 IH3]; constructor; [|apply IH3; intros j J; apply S2; right; exact J]. destruct X as (w0 & X1 & X2). exists w0. split; [|exact X2].
    assert (S s <= i) by (apply S2; left; reflexivity). replace (i - s) with (S (i - S s)) by lia. exact X1. }
  assert (Rest : forall i w0, s < i -> nth_error (w :: ms) (i - s) = Some w0 -> ~ In i idx -> t (f i w0) = false).
  { intros i w0 L E. replace (i - s) with (S (i - S s)) in E by lia. apply S4; [lia|exact E]. }
  destruct (t (f s w)) eqn:T.
  - exists (s :: idx). split; [constructor; [exact S1|]; apply Forall_forall; intros i Hi; apply S2 in Hi; lia|]. split; [intros i [<-|Hi]; [lia|apply S2 in Hi; lia]|]. split.
    + constructor; [|exact F]. exists w. rewrite Nat.sub_diag. auto.
    + intros i w0 L E N. apply Rest; [|exact E|intros H; apply N; right; exact H]. destruct (Nat.eq_dec i s); [subst; destruct N; left; reflexivity|lia].
  - exists idx. split; [exact S1|]. split; [intros i Hi; apply S2 in Hi; lia|]. split; [exact F|]. intros i w0 L E N. destruct (Nat.eq_dec i s) as [->|D]; [|apply Rest; auto; lia].
    rewrite Nat.sub_diag in E. injection E as <-. exact T.
Qed.
Lemma semantic_ranked now p ms : chats_apart h -> plain_owners st -> no_colon (owner p) -> (forall w, In w ms -> In w (cand_rows (bucket_of p))) ->
  ranked now (map lift ms) (semantic_hits now ms).
Proof using A.
  intros Ap Pl Nc Hm. destruct (filter_index (fun i w => (to_record "" w, f64_div (f64_of_Z (Z.of_nat (length ms - i))) (f64_of_Z (Z.of_nat (length ms))))) (fun x => negb (expired now (fst x))) ms 0) as (idx & S1 & _ & S3 & S4).
  assert (It : forall w, In w ms -> exists i, st (me_id w) = Some i /\ shows i (to_record "" w) /\ lift w = (me_id w, i)).
  { intros w Hw. apply Hm, cand_in in Hw as (W & B & _). destruct (row_item_plain p w Ap Pl Nc W B) as (i & I1 & I2 & _). exists i. split; [exact I1|]. split; [apply I2|]. unfold lift. rewrite I1. reflexivity. }
  exists idx. split; [exact S1|]. split.
  - unfold semantic_hits. rewrite map_length. eapply Forall2_imp; [|exact S3]. intros i x (w & E & -> & T). rewrite Nat.sub_0_r in E. cbn [fst] in T. apply negb_true_iff in T.
    destruct (It w (nth_error_In _ _ E)) as (j & J1 & J2 & J3). exists j. split; [rewrite nth_error_map, E; cbn; rewrite J3; reflexivity|]. split; [exact J2|]. split; [|reflexivity].
    intros L. apply expired_lapsed in L. cbn [fst] in L. congruence.
  - intros i id it E N. rewrite nth_error_map in E. destruct (nth_error ms i) as [w|] eqn:Ew; [|discriminate]. cbn in E. destruct (It w (nth_error_In _ _ Ew)) as (j & J1 & J2 & J3). rewrite J3 in E. injection E as <- <-.
    specialize (S4 i w (Nat.le_0_l i)). rewrite Nat.sub_0_r in S4. specialize (S4 Ew N). apply negb_false_iff in S4. eapply nearly_over; eauto.
Qed.

(** * Lexical *)
Section Lexical.
Variable fts : string -> list string -> option (list (nat * float)).
Lemma lexical_rows_spec b k ans u : assoc b (md_sessions db) = Some u -> lexical_rows db b k ans = map (fun x => (to_record u (fst x), snd x)) (firstn (Z.to_nat (k * 4)) (listed db b ans)).
Proof using Type.
  intros E. unfold lexical_rows. rewrite <- firstn_map. f_equal. unfold listed. induction ans as [|[i s] ans IH]; [reflexivity|]. cbn [flat_map fst snd]. rewrite map_app, <- IH. f_equal.
  destruct (nth_error (md_rows db) i) as [w|]; [|reflexivity]. destruct (string_dec (me_bucket w) b) as [e|n].
  - rewrite (proj2 (String.eqb_eq _ _) e), E. reflexivity.
  - rewrite (proj2 (String.eqb_neq _ _) n). reflexivity.
Qed.
Lemma lexical_rows_nosession b k ans : assoc b (md_sessions db) = None -> lexical_rows db b k ans = [].
Proof using Type.
  intros E. unfold lexical_rows. assert (X : forall l : list (nat * float), flat_map (fun pr => match nth_error (md_rows db) (fst pr) with
       | Some w => if String.eqb (me_bucket w) b then match assoc b (md_sessions db) with Some u => [(to_record u w, snd pr)] | None => [] end else []
       | None => [] end) l = []).
  { induction l as [|[i s] l IH]; [reflexivity|]. cbn [flat_map fst snd]. rewrite IH, app_nil_r. destruct (nth_error (md_rows db) i); [|reflexivity]. destruct (String.eqb (me_bucket m) b); [|reflexivity]. rewrite E. reflexivity. }
  rewrite X. apply firstn_nil.
Qed.
Lemma listed_in b ans w s : In (w, s) (listed db b ans) -> In w (md_rows db) /\ me_bucket w = b.
Proof using Type.
  unfold listed. intros H. apply in_flat_map in H as ([i r] & _ & H). cbn [fst snd] in H. destruct (nth_error (md_rows db) i) as [x|] eqn:E; [|destruct H]. destruct (string_dec (me_bucket x) b); [|destruct H].
  destruct H as [H|[]]. injection H as -> ->. split; [eapply nth_error_In; eauto|assumption].
Qed.

(** The candidates merged so far: each id's best. *)
Definition bests (P : mrec -> float -> Prop) (m : list mhit) : Prop :=
  NoDup (map (fun x => mr_id (fst x)) m) /\ (forall r s, In (r, s) m -> P r s) /\
  (forall r s, P r s -> exists s', In (r, s') m /\ fgt s s' = false).
Lemma merge_ids m x : map (fun y => mr_id (fst y)) (merge_hit m x) = if existsb (fun y => String.eqb (mr_id (fst y)) (mr_id (fst x))) m then map (fun y => mr_id (fst y)) m else map (fun y => mr_id (fst y)) m ++ [mr_id (fst x)].
Proof using Type.
  clear. induction m as [|y m IH]; [reflexivity|]. cbn [merge_hit existsb]. destruct (String.eqb (mr_id (fst y)) (mr_id (fst x))) eqn:E; cbn [orb].
  - apply String.eqb_eq in E. destruct (fgt (snd x) (snd y)); cbn [map]; [rewrite E|]; reflexivity.
  - cbn [map]. rewrite IH. match goal with |- context [if ?c then _ else _] => destruct c end; reflexivity.
Qed.
Lemma merge_in m x z : NoDup (map (fun y => mr_id (fst y)) m) -> (In z (merge_hit m x) <->
  (In z m /\ mr_id (fst z) <> mr_id (fst x)) \/ (In z m /\ mr_id (fst z) = mr_id (fst x) /\ fgt (snd x) (snd z) = false) \/
  (z = x /\ forall y, In y m -> mr_id (fst y) = mr_id (fst x) -> fgt (snd x) (snd y) = true)).
Proof using Type.
  clear. induction m as [|y m IH]; intros N.
  { cbn. split; [intros [<-|[]]; right; right; split; [reflexivity|intros y []]|]. intros [[[] _]|[[[] _]|[-> _]]]. auto. }
  cbn [map] in N. apply NoDup_cons_iff in N as [N1 N2]. specialize (IH N2). cbn [merge_hit]. destruct (String.eqb (mr_id (fst y)) (mr_id (fst x))) eqn:E.
  - apply String.eqb_eq in E. assert (Ot : forall z, In z m -> mr_id (fst z) <> mr_id (fst x)).
    { intros z' Z X. apply N1. rewrite E, <- X. apply (in_map (fun y => mr_id (fst y))). exact Z. }
    destruct (fgt (snd x) (snd y)) eqn:F; cbn [In]; split.
    + intros [<-|H]; [right; right; split; [reflexivity|]; intros y' [<-|Y] Ey; [exact F|destruct (Ot _ Y Ey)]|]. left. auto.
    + intros [[[->|H] D]|[[[->|H] [D G]]|[-> _]]]; auto; try congruence; exfalso; exact (Ot _ H D).
    + intros [<-|H]; [right; left; auto|]. left. auto.
    + intros [[[->|H] D]|[[[->|H] [D G]]|[-> G]]]; auto. rewrite (G y) in F; [discriminate|left; reflexivity|exact E].
  - apply String.eqb_neq in E. cbn [In]. rewrite IH. split.
    + intros [<-|[[H D]|[[H [D G]]|[-> G]]]]; auto 6. right. right. split; [reflexivity|]. intros y' [<-|Y] Ey; [congruence|auto].
    + intros [[[->|H] D]|[[[->|H] [D G]]|[-> G]]]; auto 6. right. right. right. split; [reflexivity|]. intros y' Y Ey. apply G; auto.
Qed.
Lemma merge_bests P m r s : bests P m -> (forall r' s', P r' s' -> mr_id r' = mr_id r -> r' = r) -> bests (fun r' s' => P r' s' \/ (r' = r /\ s' = s)) (merge_hit m (r, s)).
Proof using Type.
  clear. intros (N & B & C) U. split; [|split].
  - rewrite merge_ids. match goal with |- context [if ?c then _ else _] => destruct c eqn:E end; [exact N|]. apply NoDup_app_intro; [exact N|repeat constructor; cbn; tauto|]. intros x Hx [<-|[]]. apply in_map_iff in Hx as (y & Ey & Y).
    assert (Z : existsb (fun y => String.eqb (mr_id (fst y)) (mr_id (fst (r, s)))) m = true); [|congruence]. apply existsb_exists. exists y. split; [exact Y|]. apply String.eqb_eq. exact Ey.
  - intros r' s' H. apply merge_in in H; [|exact N]. destruct H as [[H _]|[[H _]|[H _]]]; [left; auto|left; auto|injection H; auto].
  - assert (R : exists s', In (r, s') (merge_hit m (r, s)) /\ fgt s s' = false /\ (forall s0, In (r, s0) m -> fgt s0 s' = false)).
    { destruct (existsb (fun y => String.eqb (mr_id (fst y)) (mr_id r) && negb (fgt s (snd y))) m) eqn:E.
      - apply existsb_exists in E as ([r0 s0] & H & E). apply andb_true_iff in E as [E1 E2]. cbn [fst snd] in *. apply String.eqb_eq in E1. apply negb_true_iff in E2.
        assert (r0 = r) by (eapply U; [apply B; exact H|exact E1]). subst r0. exists s0. split; [apply merge_in; [exact N|]; right; left; auto|]. split; [exact E2|]. intros s1 H1. assert (s1 = s0).
        { clear -N H H1. induction m as [|y m IH]; [destruct H|]. cbn [map] in N. apply NoDup_cons_iff in N as [N1 N2].
          destruct H as [->|H], H1 as [H1|H1]; [congruence| | |auto]; destruct N1; [apply (in_map (fun y => mr_id (fst y))) in H1; exact H1|subst y; apply (in_map (fun y => mr_id (fst y))) in H; exact H]. }
        subst s1. unfold fgt. apply flt_irrefl.
      - assert (Al : forall y, In y m -> mr_id (fst y) = mr_id r -> fgt s (snd y) = true).
        { intros y Y Ey. destruct (fgt s (snd y)) eqn:F; [reflexivity|]. assert (Z : existsb (fun y => String.eqb (mr_id (fst y)) (mr_id r) && negb (fgt s (snd y))) m = true); [|congruence].
          apply existsb_exists. exists y. split; [exact Y|]. apply andb_true_iff. split; [apply String.eqb_eq; exact Ey|]. rewrite F. reflexivity. }
        exists s. split; [apply merge_in; [exact N|]; right; right; split; [reflexivity|exact Al]|]. split; [unfold fgt; apply flt_irrefl|]. intros s0 H0. specialize (Al _ H0 eq_refl). cbn in Al. unfold fgt in *. apply flt_asym. exact Al. }
    destruct R as (sb & Rb & R1 & R2).
    intros r' s' [H|[-> ->]]; [|eauto]. destruct (C r' s' H) as (s0 & H0 & G). destruct (string_dec (mr_id r') (mr_id r)) as [e|n].
    + assert (r' = r) by (eapply U; eauto). subst r'. exists sb. split; [exact Rb|]. specialize (R2 _ H0). change (fgt s' sb) with (flt sb s'). change (fgt s0 sb) with (flt sb s0) in R2. change (fgt s' s0) with (flt s0 s') in G. destruct (flt sb s') eqn:F; [|reflexivity].
      (* s0 <= sb < s' *)
      exfalso. destruct (flt s0 s') eqn:F2; [discriminate|]. assert (Ns : not_nan sb /\ not_nan s') by (apply flt_not_nan; exact F). 
      destruct (is_nanb s0) eqn:Nn.
      { destruct s0; try discriminate. (* a NaN in the map is never displaced *)
        assert (X : In (r, S754_nan) (merge_hit m (r, s))). { apply merge_in; [exact N|]. right. left. split; [exact H0|]. split; [reflexivity|]. unfold fgt. cbn. destruct s as [[]|[]| |[] ? ?]; reflexivity. }
        assert (Y : sb = S754_nan).
        { assert (ND : NoDup (map (fun y => mr_id (fst y)) (merge_hit m (r, s)))). { rewrite merge_ids. match goal with |- context [if ?c then _ else _] => destruct c eqn:E end; [exact N|]. exfalso. assert (Z : existsb (fun y => String.eqb (mr_id (fst y)) (mr_id (fst (r, s)))) m = true); [|congruence].
            apply existsb_exists. exists (r, S754_nan). split; [exact H0|]. apply String.eqb_eq. reflexivity. }
          clear -ND X Rb. induction (merge_hit m (r, s)) as [|y l IH]; [destruct X|]. cbn [map] in ND. apply NoDup_cons_iff in ND as [N1 N2].
          destruct X as [->|X], Rb as [Y|Y]; [congruence| | |auto]; destruct N1; [apply (in_map (fun y => mr_id (fst y))) in Y; exact Y|subst y; apply (in_map (fun y => mr_id (fst y))) in X; exact X]. }
        subst sb. destruct Ns as [Q _]. apply Q. reflexivity. }
      assert (N0 : not_nan s0) by (intros ->; discriminate). assert (T := flt_ntrans s' s0 sb). destruct Ns as [Q1 Q2]. rewrite (T Q2 N0 Q1 F2 R2) in F. discriminate.
    + exists s0. split; [|exact G]. apply merge_in; [exact N|]. left. split; [exact H0|]. cbn. exact n.
Qed.
Lemma bests_iff (P Q : mrec -> float -> Prop) m : (forall r s, P r s <-> Q r s) -> bests P m -> bests Q m.
Proof using Type. clear. intros E (N & B & C). split; [exact N|]. split; [intros r s H; apply E, B; exact H|]. intros r s H. apply E in H. auto. Qed.
Definition of_rows (u : string) (P : mrec -> float -> Prop) : Prop := forall r s, P r s -> exists w, In w (md_rows db) /\ r = to_record u w.
Lemma of_rows_uniq u P w : of_rows u P -> In w (md_rows db) -> forall r s, P r s -> mr_id r = mr_id (to_record u w) -> r = to_record u w.
Proof using A.
  intros O W r s H E. destruct (O r s H) as (x & X & ->). cbn in E. destruct A as (N & _). assert (x = w); [|congruence].
  assert (F1 : find_row db (me_id w) = Some x) by (apply row_find; auto). assert (F2 : find_row db (me_id w) = Some w) by (apply row_find; auto). congruence.
Qed.
Lemma merge_rows_bests now idx u : forall l P m, (forall w s, In (w, s) l -> In w (md_rows db)) -> of_rows u P -> bests P m ->
  let Q := fun r s => P r s \/ exists w rank, In (w, rank) l /\ r = to_record u w /\ expired now r = false /\ s = lexical_score idx rank in
  of_rows u Q /\ bests Q (merge_rows now idx (map (fun x => (to_record u (fst x), snd x)) l) m).
Proof using A.
  induction l as [|[w rank] l IH]; intros P m Hl O B Q.
  { split; [intros r s [H|(w & rank & [] & _)]; eauto|]. cbn. eapply bests_iff; [|exact B]. intros r s. unfold Q. split; [auto|]. intros [H|(w & rank & [] & _)]. exact H. }
  cbn [map fst snd]. unfold merge_rows. cbn [fold_left fst snd]. assert (W : In w (md_rows db)) by (eapply Hl; left; reflexivity).
  destruct (expired now (to_record u w)) eqn:E.
  - destruct (IH P m) as [I1 I2]; auto. { intros w' s' H. eapply Hl. right. exact H. }
    assert (Eq : forall r s, Q r s <-> (P r s \/ exists w rank, In (w, rank) l /\ r = to_record u w /\ expired now r = false /\ s = lexical_score idx rank)).
    { intros r s. unfold Q. split; intros [H|(w' & k' & H & Er & Ex & Es)]; auto; [|right; exists w', k'; cbn; auto]. destruct H as [H|H]; [injection H as <- <-; subst r; congruence|]. right. exists w', k'. auto. }
    split; [intros r s H; apply Eq in H; eapply I1; exact H|]. eapply bests_iff; [intros r s; symmetry; apply Eq|exact I2].
  - assert (B1 := merge_bests P m (to_record u w) (lexical_score idx rank) B (of_rows_uniq u P w O W)).
    assert (O1 : of_rows u (fun r' s' => P r' s' \/ (r' = to_record u w /\ s' = lexical_score idx rank))) by (intros r s [H|[-> _]]; eauto).
    destruct (IH _ _ (fun w' s' H => Hl w' s' (or_intror H)) O1 B1) as [I1 I2].
    assert (Eq : forall r s, Q r s <-> ((P r s \/ (r = to_record u w /\ s = lexical_score idx rank)) \/ exists w rank, In (w, rank) l /\ r = to_record u w /\ expired now r = false /\ s = lexical_score idx rank)).
    { intros r s. unfold Q. split.
      - intros [H|(w' & k' & H & Er & Ex & Es)]; auto. destruct H as [H|H]; [injection H as <- <-; auto|]. right. exists w', k'. auto.
      - intros [[H|[-> ->]]|(w' & k' & H & Er & Ex & Es)]; auto; right; [exists w, rank; cbn; auto|exists w', k'; cbn; auto]. }
    split; [intros r s H; apply Eq in H; eapply I1; exact H|]. eapply bests_iff; [intros r s; symmetry; apply Eq|exact I2].
Qed.
Definition matched (now : Z) (b u : string) (k : Z) (off : nat) (qs : list string) (r : mrec) (s : float) : Prop :=
  exists i q ans w rank, nth_error qs i = Some q /\ fts q (map me_content (md_rows db)) = Some ans /\
    In (w, rank) (firstn (Z.to_nat (k * 4)) (listed db b ans)) /\ r = to_record u w /\ expired now r = false /\ s = lexical_score (off + i) rank.
Lemma merge_queries_bests now b u k : assoc b (md_sessions db) = Some u -> forall qs off P m failed, of_rows u P -> bests P m ->
  let res := merge_queries fts now db b k off qs m failed in
  bests (fun r s => P r s \/ matched now b u k off qs r s) (fst res) /\
  (snd res = true <-> failed = true \/ exists q, In q qs /\ fts q (map me_content (md_rows db)) = None).
Proof using A.
  intros Eu. induction qs as [|q qs IH]; intros off P m failed O B; cbn [merge_queries].
  { cbn [fst snd]. split; [|split; [auto|intros [H|(q & [] & _)]; exact H]]. eapply bests_iff; [|exact B]. intros r s. split; [auto|]. intros [H|(i & q & ? & ? & ? & H & _)]; [exact H|]. destruct i; discriminate. }
  destruct (fts q (map me_content (md_rows db))) as [ans|] eqn:F.
  - rewrite (lexical_rows_spec b k ans u Eu). set (l := firstn _ _).
    assert (Hl : forall w s, In (w, s) l -> In w (md_rows db)) by (intros w s H; apply in_firstn in H; apply listed_in in H; apply H).
    destruct (merge_rows_bests now off u l P m Hl O B) as [O1 B1]. destruct (IH (S off) _ _ failed O1 B1) as [I1 I2]. split.
    + eapply bests_iff; [|exact I1]. intros r s. split.
      * intros [[H|(w & rank & H & Er & Ex & Es)]|(i & q' & a & w & rank & H1 & H2 & H3 & H4 & H5 & H6)]; auto; right.
        -- exists 0, q, ans, w, rank. rewrite Nat.add_0_r. cbn. auto 8.
        -- exists (S i), q', a, w, rank. rewrite Nat.add_succ_r. cbn. auto 8.
      * intros [H|(i & q' & a & w & rank & H1 & H2 & H3 & H4 & H5 & H6)]; auto. destruct i as [|i]; cbn in H1.
        -- injection H1 as <-. rewrite F in H2. injection H2 as <-. rewrite Nat.add_0_r in H6. left. right. exists w, rank. auto.
        -- right. exists i, q', a, w, rank. rewrite Nat.add_succ_r in H6. auto 8.
    + rewrite I2. split; [intros [H|(q' & H & E)]; [auto|right; exists q'; cbn; auto]|]. intros [H|(q' & [<-|H] & E)]; [auto|congruence|right; exists q'; auto].
  - destruct (IH (S off) P m true O B) as [I1 I2]. split.
    + eapply bests_iff; [|exact I1]. intros r s. split.
      * intros [H|(i & q' & a & w & rank & H1 & H2 & H3 & H4 & H5 & H6)]; auto. right. exists (S i), q', a, w, rank. rewrite Nat.add_succ_r. cbn. auto 8.
      * intros [H|(i & q' & a & w & rank & H1 & H2 & H3 & H4 & H5 & H6)]; auto. destruct i as [|i]; cbn in H1; [congruence|]. right. exists i, q', a, w, rank. rewrite Nat.add_succ_r in H6. auto 8.
    + rewrite I2. split; [intros _; right; exists q; cbn; auto|auto].
Qed.
Lemma merge_queries_nosession now b k : assoc b (md_sessions db) = None -> forall qs off failed, fst (merge_queries fts now db b k off qs [] failed) = [].
Proof using Type.
  intros E. induction qs as [|q qs IH]; intros off failed; [reflexivity|]. cbn [merge_queries]. destruct (fts q _) as [ans|]; [|apply IH]. rewrite (lexical_rows_nosession b k ans E). apply IH.
Qed.
End Lexical.
End Search.

(** * The order of hits *)
Lemma higher_by_hit a b : by_hit a b = higher a b.
Proof.
  unfold by_hit, higher. destruct (feq (snd a) (snd b)) eqn:E; cbn [andb]; [|rewrite orb_false_r; reflexivity]. assert (F : fgt (snd a) (snd b) = false); [|rewrite F; reflexivity].
  unfold fgt, flt, SFltb. unfold feq, SFeqb in E. rewrite compare_swap. destruct (SFcompare (snd a) (snd b)) as [[]|]; try discriminate E. reflexivity.
Qed.
Lemma fgt_flt a b : fgt a b = flt b a.
Proof. reflexivity. Qed.
Lemma higher_weak l : (forall x, In x l -> not_nan (snd x)) -> weak_order_on by_hit l.
Proof.
  intros Nn.
  assert (Key : forall a b, not_nan a -> not_nan b -> feq a b = true <-> flt a b = false /\ flt b a = false).
  { intros a b Ha Hb. rewrite feq_fle, !fle_iff by assumption. tauto. }
  split.
  - intros x y Hx Hy H. apply Nn in Hx, Hy. rewrite higher_by_hit in *. unfold higher in *. apply orb_true_iff in H as [H|H].
    + rewrite fgt_flt in H |- *. apply orb_false_iff. split; [apply flt_asym; exact H|]. apply andb_false_iff. left. destruct (feq (snd y) (snd x)) eqn:E; [|reflexivity]. apply Key in E as [E1 E2]; auto. congruence.
    + apply andb_true_iff in H as [E L]. apply Key in E as [E1 E2]; auto. apply orb_false_iff. split; [rewrite fgt_flt; exact E1|]. apply andb_false_iff. right. apply string_ltb_asym. exact L.
  - intros x y z Hx Hy Hz. apply Nn in Hx, Hy, Hz. rewrite !higher_by_hit. unfold higher. rewrite !orb_false_iff, !andb_false_iff. rewrite !fgt_flt. intros [A1 A2] [B1 B2].
    split; [eapply (flt_ntrans (snd z) (snd y) (snd x)); eauto|].
    destruct (feq (snd z) (snd x)) eqn:E; [|auto]. right. apply Key in E as [E1 E2]; auto.
    assert (Eyx : feq (snd y) (snd x) = true). { apply Key; auto. split; [|exact A1]. eapply (flt_ntrans (snd x) (snd z) (snd y)); eauto. }
    assert (Ezy : feq (snd z) (snd y) = true). { apply Key; auto. split; [|exact B1]. eapply (flt_ntrans (snd y) (snd x) (snd z)); eauto. }
    destruct A2 as [A2|A2]; [congruence|]. destruct B2 as [B2|B2]; [congruence|]. eapply string_ltb_ntrans; eauto.
Qed.
Lemma is_topk_perm {A} better n (l l' out : list A) : Permutation l l' -> is_topk better n l' out -> is_topk better n l out.
Proof.
  intros P (rest & Q & L & R). exists rest. split; [eapply Permutation_trans; eauto|]. split; [rewrite (Permutation_length P); exact L|exact R].
Qed.
