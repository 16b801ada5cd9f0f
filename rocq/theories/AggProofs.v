(** Lemmas about aggregations. *)
From Coq Require Import String Ascii List NArith ZArith Bool Lia Permutation Sorting.Sorted.
From Verif Require Import Base Floats64 TopK EncodingModel StoreModel StoreSpec StoreProofs StoreInv StoreProofs2 SearchModel SearchSpec SearchProofs
  SqlModel FilterModel FilterSpec FilterProofs FilterProofs2 MultiVecProofs AggModel AggSpec.
Import ListNotations.
Open Scope string_scope.
Open Scope list_scope.

(** *** order of texts *)
Lemma none_exists {A} (f : A -> bool) l : (forall x, In x l -> f x = false) -> existsb f l = false.
Proof. induction l as [|x l IH]; intros H; [reflexivity|]. cbn [existsb]. rewrite (H x), IH; auto; [intros; apply H; right; auto|left; auto]. Qed.
Lemma string_compare_trans a : forall b c, String.compare a b = Lt -> String.compare b c = Lt -> String.compare a c = Lt.
Proof.
  induction a as [|x a IH]; intros [|y b] [|z c]; cbn; try congruence. unfold Ascii.compare.
  destruct (N.compare_spec (N_of_ascii x) (N_of_ascii y)), (N.compare_spec (N_of_ascii y) (N_of_ascii z)),
    (N.compare_spec (N_of_ascii x) (N_of_ascii z)); try congruence; try lia; eauto.
Qed.
Lemma ltb_compare a b : String.ltb a b = true <-> String.compare a b = Lt.
Proof. unfold String.ltb. destruct (String.compare a b); split; congruence. Qed.
Lemma string_gt_flip x y : match String.compare x y with Gt => true | _ => false end = String.ltb y x.
Proof. unfold String.ltb. rewrite (String.compare_antisym x y). destruct (String.compare y x); reflexivity. Qed.
Lemma string_ltb_asym x y : String.ltb x y = true -> String.ltb y x = false.
Proof. rewrite ltb_compare. intros H. unfold String.ltb. rewrite String.compare_antisym, H. reflexivity. Qed.
Lemma string_ltb_ntrans x y z : String.ltb x y = false -> String.ltb y z = false -> String.ltb x z = false.
Proof.
  unfold String.ltb. intros A B.
  destruct (String.compare x z) eqn:E; auto.
  destruct (String.compare x y) eqn:E1; try congruence.
  - apply String.compare_eq_iff in E1 as ->. rewrite E in B. exact B.
  - destruct (String.compare y z) eqn:E2; try congruence.
    + apply String.compare_eq_iff in E2 as ->. congruence.
    + rewrite String.compare_antisym in E1. destruct (String.compare y x) eqn:E1'; try discriminate.
      pose proof (string_compare_trans y x z E1' E). congruence.
Qed.

Lemma group_before_ranks c a b : group_before c a b = ranks_before c a b.
Proof.
  destruct c as [|i]; cbn [group_before ranks_before]; [reflexivity|]. unfold key_at.
  assert (K : forall l : list (option string), match nth_error l i with Some x => x | None => None end = nth i l None).
  { intros l. revert l. induction i as [|j IH]; intros [|x l]; cbn; auto. }
  rewrite !K. destruct (nth i (fst a) None), (nth i (fst b) None); auto. symmetry. apply string_gt_flip.
Qed.
Lemma group_before_order c l : weak_order_on (group_before c) l.
Proof.
  destruct c as [|i]; (split; [intros x y _ _|intros x y z _ _ _]); cbn [group_before].
  - rewrite Nat.ltb_lt, Nat.ltb_ge. lia.
  - rewrite !Nat.ltb_ge. lia.
  - destruct (key_at i x), (key_at i y); auto. apply string_ltb_asym.
  - destruct (key_at i x), (key_at i y), (key_at i z); auto; try discriminate. intros A B. eapply string_ltb_ntrans; eauto.
Qed.
Lemma is_topk_ext {A} (f g : A -> A -> bool) n all out : (forall x y, f x y = g x y) -> is_topk f n all out -> is_topk g n all out.
Proof.
  intros E (rest & P & L & S & R). exists rest. split; [auto|]. split; [auto|]. split.
  - clear - E S. induction S; constructor; auto. eapply Forall_impl; [|eassumption]. intros y. cbn. rewrite E. auto.
  - intros. rewrite <- E. auto.
Qed.

(** *** the WHERE clause *)
Section W.
Variable I : index_ops.
Notation store := (store I).

Lemma named_coll (s : store) envs name r : reachable I envs s -> name <> "" ->
  in_named_coll (st_db I s) name r <> TError /\ (in_named_coll (st_db I s) name r = TTrue <-> coll_name (st_db I s) (r_coll r) = name).
Proof.
  intros R Hn. destruct (reachable_colls I envs s R) as (H1 & H2 & _). unfold in_named_coll, coll_name, find_coll.
  destruct (find (fun c => String.eqb (c_name c) name) _) as [c|] eqn:F.
  - split; [apply of_bool_E|]. rewrite of_bool_T, Z.eqb_eq. apply find_some in F as [Hc En]. apply String.eqb_eq in En.
    destruct (find (fun c0 => Z.eqb (c_id c0) (r_coll r)) _) as [c'|] eqn:F'.
    + apply find_some in F' as [Hc' Ei]. apply Z.eqb_eq in Ei. split; intros E.
      * assert (c' = c) as -> by (apply (NoDup_map_eq c_id _ _ _ H1 Hc' Hc); congruence). exact En.
      * assert (c' = c) as -> by (apply (NoDup_map_eq c_name _ _ _ H2 Hc' Hc); congruence). auto.
    + split; [|congruence]. intros E. exfalso. pose proof (find_none _ _ F' c Hc) as Z. cbn in Z. apply Z.eqb_neq in Z. congruence.
  - split; [discriminate|]. split; [discriminate|]. intros E. destruct (find (fun c => Z.eqb (c_id c) (r_coll r)) _) as [c'|] eqn:F'; [|congruence].
    apply find_some in F' as [Hc' _]. pose proof (find_none _ _ F c' Hc') as Z. cbn in Z. apply String.eqb_neq in Z. congruence.
Qed.

Lemma text_filters_decide fs r : (fs = [] \/ r_meta r <> None) -> Forall (fun kx => plain_field (fst kx)) fs ->
  fold_right (fun kv acc => tv_and (on_text (extract (fst kv) (r_meta r)) (fun a => text_eq a (agg_param (snd kv)))) acc) TTrue (text_filters fs) <> TError /\
  (fold_right (fun kv acc => tv_and (on_text (extract (fst kv) (r_meta r)) (fun a => text_eq a (agg_param (snd kv)))) acc) TTrue (text_filters fs) = TTrue <->
   forall k x, In (k, x) fs -> match r_meta r with Some m => assoc k m | None => None end = Some x).
Proof.
  intros Hm. destruct (r_meta r) as [m|]; [|destruct Hm as [->|]; [|congruence]; intros _; cbn; split; [congruence|]; split; [tauto|auto]].
  clear Hm. induction 1 as [|[k x] fs Hk Hfs [IH1 IH2]]; [cbn; split; [congruence|]; split; [tauto|auto]|].
  cbn [text_filters map fold_right fst snd]. fold (text_filters fs). cbn [fst] in Hk. rewrite extract_plain by auto. cbn [agg_param bind_param].
  split.
  - apply tv_and_E; auto. destruct (assoc k m); cbn [on_text]; [apply of_bool_E|discriminate].
  - rewrite tv_and_T, IH2. split.
    + intros [A B] k' x' [[= <- <-]|H]; [|apply B; auto]. destruct (assoc k m) as [a|]; cbn [on_text text_eq] in A; [|discriminate].
      apply of_bool_T, String.eqb_eq in A. congruence.
    + intros H. split; [|intros; apply H; right; auto]. rewrite (H k x) by (left; auto). cbn [on_text text_eq]. rewrite String.eqb_refl. reflexivity.
Qed.

Definition wanted_row (need : option string) (coll : string) (fs : list (string * string)) (e : embedding) : Prop :=
  selected coll fs e /\ match need with Some k => field_of k e <> None | None => True end.

Lemma where_decides_row (s : store) envs need q fs r e : reachable I envs s -> q_filters q = text_filters fs ->
  Forall (fun kx => plain_field (fst kx)) fs -> match need with Some k => plain_field k | None => True end ->
  ((need = None /\ fs = []) \/ e_meta e <> None) -> scan_get true (st_db I s) r = Ok e ->
  agg_where need (st_db I s) q r <> TError /\ (agg_where need (st_db I s) q r = TTrue <-> wanted_row need (q_coll q) fs e).
Proof.
  intros R Hf Hp Hk Hm S. unfold scan_get in S. destruct (decode_vector _); try discriminate. cbn [bind] in S. injection S as <-.
  cbn [e_meta] in Hm. unfold agg_where, wanted_row, selected, field_of. cbn [e_meta e_coll]. rewrite Hf.
  destruct (text_filters_decide fs r) as [F1 F2]; [tauto|auto|].
  set (F := fold_right _ _ _) in *. clearbody F.
  assert (C : (if String.eqb (q_coll q) "" then TTrue else in_named_coll (st_db I s) (q_coll q) r) <> TError /\
    ((if String.eqb (q_coll q) "" then TTrue else in_named_coll (st_db I s) (q_coll q) r) = TTrue <-> q_coll q = "" \/ coll_name (st_db I s) (r_coll r) = q_coll q)).
  { destruct (String.eqb_spec (q_coll q) "") as [E|E]; [split; [discriminate|tauto]|]. destruct (named_coll s envs (q_coll q) r R E) as [A B]. split; [exact A|]. rewrite B. tauto. }
  destruct C as [C1 C2]. set (C := if String.eqb _ _ then _ else _) in *. clearbody C.
  assert (D : (match need with None => TTrue | Some k => match extract k (r_meta r) with None => TError | Some None => TFalse | Some (Some _) => TTrue end end) <> TError /\
    ((match need with None => TTrue | Some k => match extract k (r_meta r) with None => TError | Some None => TFalse | Some (Some _) => TTrue end end) = TTrue <->
     match need with Some k => (match r_meta r with Some m => assoc k m | None => None end) <> None | None => True end)).
  { destruct need as [k|]; [|split; [discriminate|tauto]]. destruct Hm as [[? _]|Hm]; [discriminate|]. destruct (r_meta r) as [m|]; [|congruence].
    rewrite extract_plain by auto. destruct (assoc k m); (split; [discriminate|]; split; congruence). }
  destruct D as [D1 D2]. set (D := match need with None => TTrue | _ => _ end) in *. clearbody D. split; [apply tv_and_E; [auto|]; apply tv_and_E; auto|].
  rewrite !tv_and_T, F2, C2, D2. tauto.
Qed.

Lemma select_exact (s : store) envs need q fs : reachable I envs s -> st_closed I s = false -> q_filters q = text_filters fs ->
  Forall (fun kx => plain_field (fst kx)) fs -> match need with Some k => plain_field k | None => True end ->
  (need = None /\ fs = []) \/ all_have_metadata I s ->
  exists rows, agg_rows need (st_db I s) q = Ok rows /\
  forall rows', Permutation rows rows' ->
  exists es, Forall2 (fun r e => scan_get true (st_db I s) r = Ok e) rows' es /\ lists_exactly I s (wanted_row need (q_coll q) fs) es.
Proof.
  intros R C Hf Hp Hk Hm.
  assert (D : forall r, In r (t_rows (st_db I s)) -> exists e, scan_get true (st_db I s) r = Ok e /\ get_by_id I s (r_id r) = Ok e /\
     agg_where need (st_db I s) q r <> TError /\ (agg_where need (st_db I s) q r = TTrue <-> wanted_row need (q_coll q) fs e)).
  { intros r Hr. destruct (row_of_get I s envs r R C Hr) as (e & G & _). exists e.
    assert (S : scan_get true (st_db I s) r = Ok e).
    { unfold get_by_id in G. rewrite C, (find_uniq _ r (reachable_uniq I envs s R) Hr) in G. exact G. }
    split; [exact S|]. split; [exact G|]. apply (where_decides_row s envs); auto. destruct Hm as [Hm|Hm]; [left; exact Hm|right; eapply Hm; eauto]. }
  eexists. split.
  - unfold agg_rows. rewrite none_exists; [reflexivity|]. intros r Hr. destruct (D r Hr) as (e & _ & _ & E & _). destruct (agg_where _ _ _ _); congruence.
  - intros rows' P.
    assert (Hin : forall r, In r rows' <-> In r (t_rows (st_db I s)) /\ agg_where need (st_db I s) q r = TTrue).
    { intros r. rewrite <- (Permutation_in' (eq_refl r) P), filter_In. destruct (agg_where _ _ _ _); intuition congruence. }
    assert (Hnd : NoDup (map r_id rows')).
    { eapply Permutation_NoDup; [apply Permutation_map, P|]. apply NoDup_map_filter. exact (reachable_uniq I envs s R). }
    assert (Hes : exists es, Forall2 (fun r e => scan_get true (st_db I s) r = Ok e) rows' es).
    { assert (Hi : forall r, In r rows' -> exists e, scan_get true (st_db I s) r = Ok e).
      { intros r Hr. apply Hin in Hr as [Hr _]. destruct (D r Hr) as (e & S & _). eauto. }
      clear - Hi. induction rows' as [|r l IH]; [exists []; constructor|]. destruct (Hi r) as (e & He); [left; auto|].
      destruct IH as (es & Hes); [intros; apply Hi; right; auto|]. exists (e :: es). constructor; auto. }
    destruct Hes as (es & Hes). exists es. split; [exact Hes|].
    assert (Hid : map e_id es = map r_id rows').
    { clear - Hes. induction Hes as [|r e l l' H _ IH]; [reflexivity|]. cbn [map]. rewrite IH. f_equal. unfold scan_get in H.
      destruct (decode_vector _); try discriminate. cbn [bind] in H. injection H as <-. reflexivity. }
    split; [rewrite Hid; exact Hnd|]. intros e. split.
    + intros He. apply in_split in He as (l1 & l2 & ->). apply Forall2_app_inv_r in Hes as (k1 & k2 & _ & H2 & ->). inversion H2 as [|r ? k2' ? Hre _]; subst.
      assert (Hr : In r (k1 ++ r :: k2')) by (apply in_or_app; right; left; auto). apply Hin in Hr as [Hr T]. destruct (D r Hr) as (e' & S & G & _ & W).
      assert (e' = e) as -> by congruence. assert (Ei : e_id e = r_id r). { unfold scan_get in S. destruct (decode_vector _); try discriminate. cbn [bind] in S. injection S as <-. reflexivity. }
      rewrite Ei. split; [exact G|]. apply W. exact T.
    + intros [G W]. pose proof (get_ok_inv I s _ _ G) as (r & _ & _ & S & _ & _ & _ & Hr). destruct (D r Hr) as (e' & S' & _ & _ & W').
      assert (e' = e) as -> by congruence. assert (Hr' : In r rows') by (apply Hin; split; auto; apply W'; exact W).
      apply in_split in Hr' as (l1 & l2 & ->). apply Forall2_app_inv_l in Hes as (k1 & k2 & _ & H2 & ->). inversion H2 as [|? e2 ? k2' He2 _]; subst.
      assert (e2 = e) as -> by congruence. apply in_or_app. right. left. reflexivity.
Qed.

Lemma scan_meta d r e : scan_get true d r = Ok e -> r_meta r = e_meta e.
Proof. unfold scan_get. destruct (decode_vector _); try discriminate. cbn [bind]. intros H. injection H as <-. reflexivity. Qed.

Lemma reals_readings Nm (s : store) k rows es P : plain_field k -> Forall2 (fun r e => scan_get true (st_db I s) r = Ok e) rows es ->
  lists_exactly I s P es -> (forall e, P e -> field_of k e <> None) -> reals Nm k rows = readings Nm k es.
Proof.
  intros Hk H [_ L] HP. assert (HF : forall e, In e es -> field_of k e <> None) by (intros e He; apply HP, L; auto). clear L HP.
  unfold reals, readings. induction H as [|r e l l' Hr _ IH]; [reflexivity|]. cbn [flat_map map]. rewrite IH by (intros; apply HF; right; auto).
  pose proof (HF e (or_introl eq_refl)) as He. unfold field_of in *. rewrite (scan_meta _ _ _ Hr). destruct (e_meta e) as [m|]; [|congruence].
  rewrite extract_plain by auto. destruct (assoc k m); [reflexivity|congruence].
Qed.

Lemma keys_group (s : store) ks rows es : Forall plain_field ks -> Forall2 (fun r e => scan_get true (st_db I s) r = Ok e) rows es ->
  (forall e, In e es -> e_meta e <> None) -> all_keys ks rows = Some (map (group_of ks) es).
Proof.
  intros Hk H. induction H as [|r e l l' Hr _ IH]; intros Hm; [reflexivity|]. cbn [all_keys map]. rewrite IH by (intros; apply Hm; right; auto).
  assert (E : row_keys ks r = Some (group_of ks e)).
  { pose proof (Hm e (or_introl eq_refl)) as M. apply scan_meta in Hr. unfold group_of, field_of. clear IH.
    induction Hk as [|k ks Hk Hks IH]; [reflexivity|]. cbn [row_keys map]. rewrite IH, Hr. destruct (e_meta e) as [m|]; [|congruence]. rewrite extract_plain by auto. reflexivity. }
  rewrite E. reflexivity.
Qed.

Lemma group_rows_in ks g n : In (g, n) (group_rows ks) <-> In g ks /\ n = count_occ keys_dec ks g.
Proof.
  unfold group_rows. rewrite in_map_iff. split; [intros (w & [= -> <-] & H); split; auto; eapply nodup_In; eauto|].
  intros [H ->]. exists g. split; auto. apply nodup_In. exact H.
Qed.
Lemma group_rows_nodup ks : NoDup (map fst (group_rows ks)).
Proof. unfold group_rows. rewrite map_map. cbn. rewrite map_id. apply NoDup_nodup. Qed.
Lemma sum_indicator (f : list (option string) -> nat) x l : NoDup l -> In x l ->
  list_sum (map (fun k => (if keys_dec x k then 1 else 0) + f k) l) = S (list_sum (map f l)).
Proof.
  induction 1 as [|k l Hk _ IH]; [intros []|]. intros Hx. cbn [map list_sum fold_right]. fold (list_sum (map f l)). fold (list_sum (map (fun k => (if keys_dec x k then 1 else 0) + f k) l)). destruct Hx as [->|Hx].
  - destruct (keys_dec x x) as [_|]; [|congruence]. replace (map (fun k => (if keys_dec x k then 1 else 0) + f k) l) with (map f l); [lia|].
    apply map_ext_in. intros a Ha. destruct (keys_dec x a) as [<-|]; [contradiction|reflexivity].
  - rewrite IH by auto. destruct (keys_dec x k) as [->|]; [contradiction|]. lia.
Qed.
Lemma sum_counts l : NoDup l -> forall ks, incl ks l -> list_sum (map (count_occ keys_dec ks) l) = length ks.
Proof.
  intros Hl. induction ks as [|x ks IH]; intros Hi.
  - clear. induction l; cbn; auto.
  - cbn [length]. rewrite <- IH by (intros y Hy; apply Hi; right; auto). rewrite <- (sum_indicator (count_occ keys_dec ks) x l Hl) by (apply Hi; left; auto).
    f_equal. apply map_ext. intros a. cbn [count_occ]. destruct (keys_dec x a); reflexivity.
Qed.
Lemma group_rows_sum ks : list_sum (map snd (group_rows ks)) = length ks.
Proof. unfold group_rows. rewrite map_map. cbn. apply (sum_counts _ (NoDup_nodup keys_dec ks)). intros x. apply nodup_In. Qed.

Lemma count_group ks es g : count_occ keys_dec (map (group_of ks) es) g = length (filter (fun e => if keys_dec (group_of ks e) g then true else false) es).
Proof. induction es as [|e es IH]; [reflexivity|]. cbn [map count_occ filter]. destruct (keys_dec (group_of ks e) g); cbn [length]; auto. Qed.
Lemma group_size_count ks es g n : NoDup (map e_id es) -> group_size ks es g n <-> n = count_occ keys_dec (map (group_of ks) es) g.
Proof.
  intros Hn. assert (E : group_size ks es g (count_occ keys_dec (map (group_of ks) es) g)).
  { exists (filter (fun e => if keys_dec (group_of ks e) g then true else false) es). split; [apply NoDup_map_filter; auto|]. split; [symmetry; apply count_group|].
    intros e. rewrite filter_In. destruct (keys_dec (group_of ks e) g); intuition congruence. }
  split; [|intros ->; exact E]. intros (l & A & <- & B). destruct E as (l' & A' & <- & B').
  apply NoDup_map_inv in A, A'. apply Nat.le_antisymm; apply NoDup_incl_length; auto; intros x Hx; [apply B', B|apply B, B']; exact Hx.
Qed.
Lemma group_in ks es g n : NoDup (map e_id es) -> In (g, n) (group_rows (map (group_of ks) es)) <-> 0 < n /\ group_size ks es g n.
Proof.
  intros Hn. rewrite group_rows_in, group_size_count by auto. rewrite (count_occ_In keys_dec). split; intros [A ->]; split; auto.
Qed.

Lemma having_passes hs g n : having hs (g, n) = true <-> passes hs g n.
Proof.
  unfold having, passes. rewrite forallb_forall. split.
  - intros H c v Hin. specialize (H (c, v) Hin). unfold having_one in H. cbn [fst snd] in H. destruct c as [|i].
    + destruct v as [x|z|y|b|]; try discriminate.
      * destruct (Z.eqb_spec (Z.of_nat n) z); [|discriminate]. left. congruence.
      * right. right. exists y. split; auto. destruct (feq _ _); [auto|discriminate].
      * destruct (Z.eqb_spec (Z.of_nat n) (if b then 1 else 0)) as [E|]; [|discriminate]. right. left. destruct b; [assert (n = 1) as -> by lia|assert (n = 0) as -> by lia]; auto.
    + destruct (nth_error g i) as [[a|]|]; try discriminate. exists a. split; auto. destruct v as [x|z|y|b|]; cbn [bind_param text_eq] in H; try discriminate.
      * destruct (String.eqb_spec a x); [congruence|discriminate].
      * destruct (is_nanb y); discriminate.
  - intros H [c v] Hin. specialize (H c v Hin). unfold having_one. cbn [fst snd] in *. destruct c as [|i].
    + destruct H as [->|[[-> Hn]|(y & -> & ->)]]; [rewrite Z.eqb_refl; reflexivity| |reflexivity].
      destruct n as [|[|n]]; [reflexivity|reflexivity|lia].
    + destruct H as (x & -> & ->). cbn [bind_param text_eq]. rewrite String.eqb_refl. reflexivity.
Qed.

Lemma report_result Nm q g n : length g = length (q_group q) -> group_result Nm (q_group q) (g, n) (report_group Nm q (g, n)).
Proof.
  intros L. unfold report_group, group_result. cbn [fst snd a_keys a_count a_value].
  assert (K : forall (ks : list string) (l : list agg_key), length l = length ks -> map fst (List.combine ks l) = ks /\ map snd (List.combine ks l) = l).
  { induction ks as [|k ks IH]; intros [|x l]; try discriminate; [auto|]. intros [= E]. destruct (IH l E) as [A B]. cbn [List.combine map fst snd]. rewrite A, B. auto. }
  destruct (K (q_group q) (map (report_key Nm) g)) as [-> ->]; [rewrite map_length; auto|]. repeat split; auto.
  clear. induction g as [|x g IH]; constructor; auto. destruct x as [a|]; [|constructor]. cbn [report_key]. destruct (go_num Nm a) eqn:E; constructor; auto.
Qed.
Lemma Forall2_map_self {A B} (R : A -> B -> Prop) (f : A -> B) l : (forall x, In x l -> R x (f x)) -> Forall2 R l (map f l).
Proof. induction l as [|x l IH]; intros H; constructor; [apply H; left; auto|apply IH; intros; apply H; right; auto]. Qed.
End W.
