From Coq Require Import List ZArith Bool Lia Permutation Sorted ZifyBool ZifyNat.
From Coq Require Import Floats.SpecFloat.
From Verif Require Import Base Floats64 DimensionModel.
Import ListNotations.
Local Open Scope Z_scope.

Lemma normalize_length v : length (normalize_vector v) = length v.
Proof. unfold normalize_vector. destruct (feq _ _); auto. apply map_length. Qed.

Lemma copy_into_length n v : length (copy_into n v) = n.
Proof. unfold copy_into. rewrite app_length, firstn_length, repeat_length. lia. Qed.

Lemma mk_dims_length v : length (mk_dims v) = length v.
Proof. unfold mk_dims. rewrite map_length, combine_length, seq_length. lia. Qed.

Lemma importance_kept_length v t : (t <= length v)%nat -> length (importance_kept v t) = t.
Proof.
  intros H. unfold importance_kept. rewrite map_length.
  rewrite <- (Permutation_length (ex_sort_perm _ _)).
  rewrite firstn_length, <- (Permutation_length (ex_sort_perm _ _)), mk_dims_length. lia.
Qed.

Lemma adapt_mismatch noise p v s t : Z.of_nat (length v) <> s -> adapt_vector noise p v s t = Err EOther.
Proof.
  intros H. unfold adapt_vector. destruct (Z.eqb_spec (Z.of_nat (length v)) s); [lia|reflexivity].
Qed.

Lemma adapt_same noise p v s : Z.of_nat (length v) = s -> adapt_vector noise p v s s = Ok v.
Proof. intros H. unfold adapt_vector. rewrite H, Z.eqb_refl. reflexivity. Qed.

Lemma adapt_refuse noise p v s t : p = StrictMode \/ p = WarnOnly \/ p = UnknownPolicy ->
  Z.of_nat (length v) = s -> s <> t -> adapt_vector noise p v s t = Err EOther.
Proof.
  intros Hp H Hn. unfold adapt_vector. rewrite H, Z.eqb_refl. cbn [negb].
  destruct (Z.eqb_spec s t); [lia|]. destruct Hp as [->|[->| ->]]; reflexivity.
Qed.

Lemma adapt_trunc noise v t : 0 <= t -> Z.of_nat (length v) <> t ->
  adapt_vector noise AutoTruncate v (Z.of_nat (length v)) t
  = Ok (normalize_vector (firstn (Z.to_nat t) v ++ repeat f_zero (Z.to_nat t - length v))).
Proof.
  intros Ht Hn. unfold adapt_vector. rewrite Z.eqb_refl. cbn [negb].
  destruct (Z.eqb_spec (Z.of_nat (length v)) t); [lia|].
  unfold truncate_vector, make_zeros. destruct (Z.ltb_spec t 0); [lia|]. cbn [bind].
  destruct (Z.leb_spec (Z.of_nat (length v)) t); auto.
  unfold copy_into. rewrite firstn_firstn, Nat.min_id, firstn_length.
  do 3 f_equal. f_equal. lia.
Qed.

Lemma adapt_pad noise v t : 0 <= t -> Z.of_nat (length v) <> t ->
  adapt_vector noise AutoPad v (Z.of_nat (length v)) t
  = Ok (normalize_vector (firstn (Z.to_nat t) v ++ repeat f_zero (Z.to_nat t - length v))).
Proof.
  intros Ht Hn. unfold adapt_vector. rewrite Z.eqb_refl. cbn [negb].
  destruct (Z.eqb_spec (Z.of_nat (length v)) t); [lia|].
  unfold pad_vector. destruct (Z.leb_spec t (Z.of_nat (length v))); auto.
  destruct (Z.ltb_spec t 0); [lia|].
  replace (Z.to_nat t - length v)%nat with 0%nat by lia. cbn [repeat]. rewrite app_nil_r. reflexivity.
Qed.

Lemma adapt_smart_grow noise v t : Z.of_nat (length v) < t ->
  exists extra, length extra = (Z.to_nat t - length v)%nat /\
  adapt_vector noise SmartAdapt v (Z.of_nat (length v)) t = Ok (normalize_vector (v ++ extra)).
Proof.
  intros H. unfold adapt_vector. rewrite Z.eqb_refl. cbn [negb].
  destruct (Z.eqb_spec (Z.of_nat (length v)) t); [lia|].
  unfold smart_adapt. destruct (Z.ltb_spec t (Z.of_nat (length v))); [lia|].
  unfold pad_with_noise. destruct (Z.leb_spec t (Z.of_nat (length v))); [lia|].
  eexists; split; [|reflexivity]. rewrite map_length, seq_length. reflexivity.
Qed.

Lemma adapt_smart_shrink noise v t : 0 <= t < Z.of_nat (length v) ->
  adapt_vector noise SmartAdapt v (Z.of_nat (length v)) t
  = Ok (normalize_vector (importance_kept v (Z.to_nat t))).
Proof.
  intros H. unfold adapt_vector. rewrite Z.eqb_refl. cbn [negb].
  destruct (Z.eqb_spec (Z.of_nat (length v)) t); [lia|].
  unfold smart_adapt. destruct (Z.ltb_spec t (Z.of_nat (length v))); [|lia].
  unfold truncate_with_importance.
  destruct (Z.leb_spec (Z.of_nat (length v)) t); [lia|].
  destruct (Z.ltb_spec t 0); [lia|]. reflexivity.
Qed.

Lemma adapt_dim noise p v t : p = SmartAdapt \/ p = AutoTruncate \/ p = AutoPad -> 0 <= t ->
  exists r, adapt_vector noise p v (Z.of_nat (length v)) t = Ok r /\ Z.of_nat (length r) = t.
Proof.
  intros Hp Ht. destruct (Z.eq_dec (Z.of_nat (length v)) t) as [E|E].
  { exists v. rewrite <- E. split; auto. apply adapt_same; auto. }
  destruct Hp as [->|[->| ->]].
  - destruct (Z_lt_le_dec t (Z.of_nat (length v))).
    + eexists; split; [apply adapt_smart_shrink; lia|].
      rewrite normalize_length, importance_kept_length by lia. lia.
    + destruct (adapt_smart_grow noise v t) as (x & Hx & E2); [lia|].
      eexists; split; [exact E2|]. rewrite normalize_length, app_length. lia.
  - eexists; split; [apply adapt_trunc; auto|].
    rewrite normalize_length. fold (copy_into (Z.to_nat t) v). rewrite copy_into_length. lia.
  - eexists; split; [apply adapt_pad; auto|].
    rewrite normalize_length. fold (copy_into (Z.to_nat t) v). rewrite copy_into_length. lia.
Qed.

(** ** truncateWithImportance *)

Lemma mk_dims_in v d : In d (mk_dims v) ->
  nth_error v (dv_index d) = Some (dv_value d) /\ dv_abs d = SFabs (dv_value d).
Proof.
  unfold mk_dims. rewrite in_map_iff. intros ([i x] & <- & H). cbn. split; auto.
  assert (G : forall (l : list float) n i x, In (i, x) (combine (seq n (length l)) l) -> nth_error l (i - n) = Some x /\ (n <= i)%nat).
  { induction l as [|y l IH]; cbn; intros n j z Hin; [tauto|].
    destruct Hin as [Hin|Hin].
    - injection Hin as -> ->. rewrite Nat.sub_diag. auto.
    - apply IH in Hin as [Hin Hle]. replace (j - n)%nat with (S (j - S n)) by lia. cbn. split; auto; lia. }
  apply G in H as [H _]. rewrite Nat.sub_0_r in H. exact H.
Qed.

Lemma mk_dims_index v : map dv_index (mk_dims v) = seq 0 (length v).
Proof.
  unfold mk_dims. rewrite map_map.
  assert (G : forall (l : list float) n, map (fun x => dv_index (let '(i, x0) := x in {| dv_index := i; dv_value := x0; dv_abs := SFabs x0 |})) (combine (seq n (length l)) l) = seq n (length l)).
  { induction l as [|y l IH]; cbn; intros n; auto. f_equal. apply IH. }
  apply G.
Qed.

Lemma index_weak l : weak_order_on (fun y x => Nat.ltb (dv_index y) (dv_index x)) l.
Proof. split; intros *; rewrite ?Nat.ltb_lt, ?Nat.ltb_ge; lia. Qed.

Lemma sorted_strict l : NoDup (map dv_index l) ->
  sorted_by (fun y x => Nat.ltb (dv_index y) (dv_index x)) l ->
  StronglySorted lt (map dv_index l).
Proof.
  induction l as [|a l IH]; cbn; intros HN HS; [constructor|].
  inversion HN; subst. inversion HS; subst. constructor; auto.
  apply Forall_forall. intros i Hi. apply in_map_iff in Hi as (b & <- & Hb).
  rewrite Forall_forall in H4. specialize (H4 b Hb). cbn in H4. apply Nat.ltb_ge in H4.
  assert (dv_index a <> dv_index b). { intros E. apply H1. rewrite E. apply in_map; auto. }
  lia.
Qed.

Lemma importance_spec v t : (t <= length v)%nat -> Forall not_nan v ->
  exists idxs, length idxs = t /\ StronglySorted lt idxs /\
    map Some (importance_kept v t) = map (nth_error v) idxs /\
    forall i j x y, In i idxs -> ~ In j idxs -> nth_error v i = Some x -> nth_error v j = Some y ->
      flt (SFabs x) (SFabs y) = false.
Proof.
  intros Ht Hnan. unfold importance_kept.
  set (cmp := fun y x => flt (dv_abs x) (dv_abs y)).
  set (dims := ex_sort cmp (mk_dims v)).
  set (sel := ex_sort _ (firstn t dims)).
  assert (Pd : Permutation (mk_dims v) dims) by apply ex_sort_perm.
  assert (Ps : Permutation (firstn t dims) sel) by apply ex_sort_perm.
  assert (Hd : forall d, In d dims -> nth_error v (dv_index d) = Some (dv_value d) /\ dv_abs d = SFabs (dv_value d)).
  { intros d Hd. apply mk_dims_in. eapply Permutation_in; [apply Permutation_sym; exact Pd|exact Hd]. }
  assert (Hs : forall d, In d sel -> In d (firstn t dims)).
  { intros d H. eapply Permutation_in; [apply Permutation_sym; exact Ps|exact H]. }
  assert (ND : NoDup (map dv_index dims)).
  { eapply Permutation_NoDup; [apply Permutation_map; exact Pd|]. rewrite mk_dims_index. apply seq_NoDup. }
  assert (NDs : NoDup (map dv_index sel)).
  { eapply Permutation_NoDup; [apply Permutation_map; exact Ps|].
    rewrite <- firstn_map. apply NoDup_firstn; auto. }
  assert (Habs : forall d, In d (mk_dims v) -> not_nan (dv_abs d)).
  { intros d H. apply mk_dims_in in H as [H ->]. apply nth_error_In in H.
    rewrite Forall_forall in Hnan. specialize (Hnan _ H). unfold not_nan in *.
    destruct (dv_value d); cbn; congruence. }
  assert (Sd : sorted_by cmp dims).
  { apply ex_sort_sorted. apply (weak_order_desc dv_abs). exact Habs. }
  exists (map dv_index sel). split; [|split; [|split]].
  - rewrite map_length, <- (Permutation_length Ps), firstn_length, <- (Permutation_length Pd), mk_dims_length. lia.
  - apply sorted_strict; auto. apply ex_sort_sorted. apply index_weak.
  - rewrite !map_map. apply map_ext_in. intros d H. symmetry. apply Hd. eapply in_firstn; eauto.
  - intros i j x y Hi Hj Hx Hy.
    apply in_map_iff in Hi as (di & <- & Hi).
    assert (Hjd : In j (map dv_index dims)).
    { eapply Permutation_in; [apply Permutation_map; exact Pd|]. rewrite mk_dims_index.
      apply in_seq. split; [lia|]. cbn. apply nth_error_Some. congruence. }
    apply in_map_iff in Hjd as (dj & <- & Hjd).
    assert (Hjr : In dj (skipn t dims)).
    { rewrite <- (firstn_skipn t dims) in Hjd. apply in_app_or in Hjd as [H|H]; auto.
      exfalso. apply Hj. apply in_map. eapply Permutation_in; [exact Ps|exact H]. }
    pose proof (sorted_top _ t dims Sd di dj (Hs _ Hi) Hjr) as H. unfold cmp in H.
    destruct (Hd di) as [E1 E2]; [eapply in_firstn; eauto|].
    destruct (Hd dj) as [E3 E4]; auto.
    rewrite E2, E4 in H. congruence.
Qed.

(** ** AnalyzeDimensions *)

Definition total_of (d : Z) (m : list (Z * Z)) : Z :=
  fold_right (fun '(d', c) acc => (if d =? d' then c else 0) + acc) 0 m.

Lemma bump_keys d m : forall k, In k (map fst (bump d m)) <-> k = d \/ In k (map fst m).
Proof.
  induction m as [|[d' c] m IH]; cbn; intros k.
  - intuition.
  - destruct (Z.eqb_spec d d'); cbn; rewrite ?IH; subst; intuition.
Qed.

Lemma bump_nodup d m : NoDup (map fst m) -> NoDup (map fst (bump d m)).
Proof.
  induction m as [|[d' c] m IH]; cbn; intros H.
  - constructor; [tauto|constructor].
  - inversion H; subst. destruct (Z.eqb_spec d d'); cbn; constructor; auto.
    rewrite bump_keys. intuition.
Qed.

Lemma bump_in d m k c : NoDup (map fst m) ->
  In (k, c) (bump d m) <-> (k = d /\ (In (d, c - 1) m \/ (c = 1 /\ ~ In d (map fst m)))) \/ (k <> d /\ In (k, c) m).
Proof.
  induction m as [|[d' c'] m IH]; cbn; intros HN.
  - split.
    + intros [[= -> ->]|[]]. left. auto.
    + intros [[-> [[]|[-> _]]]|[_ []]]. auto.
  - inversion HN; subst. destruct (Z.eqb_spec d d'); cbn.
    + subst d'. split.
      * intros [[= <- <-]|H]. { left. split; auto. left. left. f_equal. lia. }
        right. split; auto. intros ->. apply H1. apply in_map_iff. exists (d, c); auto.
      * intros [[-> [[E|E]|[-> E]]]|[Hk [E|E]]].
        -- injection E as E. left. f_equal. lia.
        -- exfalso. apply H1. apply in_map_iff. exists (d, c - 1); auto.
        -- exfalso. apply E. auto.
        -- congruence.
        -- auto.
    + rewrite IH by auto. split.
      * intros [[= <- <-]|[[-> [E|[-> E]]]|[Hk E]]].
        -- right. split; auto.
        -- left. auto.
        -- left. split; auto. right. split; auto. intros [?|?]; auto.
        -- right; auto.
      * intros [[-> [[E|E]|[-> E]]]|[Hk [E|E]]]; auto.
        -- congruence.
        -- right. left. split; auto. right. split; auto.
Qed.

(** Number of vectors of a given length. *)
Definition n_of_len (d : Z) (vs : list (list float)) : Z :=
  Z.of_nat (length (filter (fun v => Z.of_nat (length v) =? d) vs)).

Lemma count_dims_spec_gen vs : forall m,
  NoDup (map fst m) -> (forall k c, In (k, c) m -> 0 < c) ->
  let r := fold_left (fun m v => bump (Z.of_nat (length v)) m) vs m in
  NoDup (map fst r) /\
  forall k c, In (k, c) r <-> 0 < c /\ (In (k, c - n_of_len k vs) m \/ (c = n_of_len k vs /\ ~ In k (map fst m))).
Proof.
  induction vs as [|v vs IH]; cbn; intros m HN HP.
  - split; auto. intros k c. unfold n_of_len. cbn. rewrite Z.sub_0_r. split.
    + intros H. split; auto. eapply HP; eauto.
    + intros [H [E|[E _]]]; auto. lia.
  - assert (Hn : NoDup (map fst (bump (Z.of_nat (length v)) m))) by (apply bump_nodup; auto).
    assert (Hp : forall k c, In (k, c) (bump (Z.of_nat (length v)) m) -> 0 < c).
    { intros k c H. apply bump_in in H; auto. destruct H as [[_ [H|[-> _]]]|[_ H]]; try lia.
      - apply HP in H. lia. - eapply HP; eauto. }
    destruct (IH _ Hn Hp) as [R1 R2]. split; auto.
    intros k c. rewrite R2. rewrite bump_in by auto. rewrite bump_keys.
    unfold n_of_len. cbn [filter]. 
    destruct (Z.eqb_spec (Z.of_nat (length v)) k) as [E|E]; cbn [length].
    + subst k. rewrite Nat2Z.inj_succ.
      set (n := Z.of_nat (length (filter _ vs))).
      assert (0 <= n) by (unfold n; lia).
      replace (c - Z.succ n) with (c - n - 1) by lia.
      split.
      * intros [Hc [[[_ [H0|[H0 H1]]]|[H0 _]]|[H0 H1]]]; try tauto.
        split; auto. right. split; auto. lia.
      * intros [Hc [H0|[H0 H1]]]; split; auto. left. left. split; auto. right. split; auto. lia.
    + set (n := Z.of_nat (length (filter _ vs))).
      split.
      * intros [Hc [[[? _]|[_ H0]]|[H0 H1]]]; [congruence|tauto|].
        split; [auto|right; tauto].
      * intros [Hc [H0|[H0 H1]]]; split; auto.
        right. split; auto. intros [?|?]; congruence.
Qed.

Lemma count_dims_spec vs :
  NoDup (map fst (count_dims vs)) /\
  forall k c, In (k, c) (count_dims vs) <-> 0 < c /\ c = n_of_len k vs.
Proof.
  destruct (count_dims_spec_gen vs [] (NoDup_nil _)) as [H1 H2]; [cbn; tauto|].
  split; [exact H1|]. intros k c. unfold count_dims. rewrite H2. cbn. tauto.
Qed.

Lemma primary_max l : forall pd pc pd' pc',
  fold_left primary_step l (pd, pc) = (pd', pc') ->
  (In (pd', pc') l \/ (pd' = pd /\ pc' = pc)) /\ pc <= pc' /\ forall d c, In (d, c) l -> c <= pc'.
Proof.
  induction l as [|[d c] l IH]; cbn [fold_left]; intros pd pc pd' pc' H.
  - cbn. injection H as <- <-. repeat split; auto; try lia; tauto.
  - unfold primary_step at 2 in H; cbn in H |- *.
    destruct (Z.ltb_spec pc c); apply IH in H as (H1 & H2 & H3).
    + split; [|split; [lia|]].
      * destruct H1 as [H1|[-> ->]]; auto.
      * intros d0 c0 [[= <- <-]|Hin]; auto. eapply H3; eauto.
    + split; [tauto|split; [lia|]].
      intros d0 c0 [[= <- <-]|Hin]; [lia|]. eapply H3; eauto.
Qed.

Lemma analyze_spec order vs : (forall m, Permutation m (order m)) -> vs <> [] ->
  let a := analyze_dimensions order vs in
  da_total a = Z.of_nat (length vs) /\
  NoDup (map fst (da_dims a)) /\
  (forall k c, In (k, c) (da_dims a) <-> 0 < c /\ c = n_of_len k vs) /\
  0 < da_count a /\ da_count a = n_of_len (da_primary a) vs /\
  (forall d, n_of_len d vs <= da_count a).
Proof.
  intros Ho Hne. unfold analyze_dimensions.
  destruct vs as [|v vs]; [congruence|]. set (ws := v :: vs) in *.
  destruct (fold_left _ (order (count_dims ws)) (0, 0)) as [pd pc] eqn:E. cbn [da_total da_dims da_count da_primary].
  destruct (count_dims_spec ws) as [H1 H2].
  apply primary_max in E as (E1 & E2 & E3).
  assert (Hin : forall p, In p (count_dims ws) -> In p (order (count_dims ws))).
  { intros p. apply Permutation_in, Ho. }
  assert (Hall : forall d, n_of_len d ws <= pc).
  { intros d. destruct (Z_lt_le_dec 0 (n_of_len d ws)); [|lia].
    apply (E3 d). apply Hin. apply H2. auto. }
  assert (Hpos : 0 < pc).
  { specialize (Hall (Z.of_nat (length v))). unfold n_of_len, ws in Hall. cbn [filter] in Hall.
    rewrite Z.eqb_refl in Hall. cbn [length] in Hall. lia. }
  split; [reflexivity|]. split; [exact H1|]. split; [exact H2|]. split; [exact Hpos|].
  split; [|exact Hall].
  destruct E1 as [E1|[-> ->]]; [|lia].
  apply Permutation_in with (l' := count_dims ws) in E1; [|apply Permutation_sym, Ho].
  apply H2 in E1. tauto.
Qed.
