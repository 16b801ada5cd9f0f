(** Proofs for C43. *)
From Coq Require Import String List NArith ZArith Bool Lia Permutation Sorted.
From Coq Require Import Floats.SpecFloat.
From Coq Require Import ZifyN ZifyNat ZifyBool.
From Verif Require Import Base Floats64 TopK IndexDistModel FlatModel FlatProofs LshModel LshSpec.
Import ListNotations.

Lemma bit64_test i j : N.testbit (bit64 i) j = (N.ltb i 64 && N.eqb j i)%bool.
Proof.
  unfold bit64. destruct (N.ltb_spec i 64); cbn [andb]; [|apply N.bits_0]. rewrite N.shiftl_1_l. destruct (N.eqb_spec j i) as [->|E].
  - apply N.pow2_bits_true.
  - apply N.pow2_bits_false. auto.
Qed.
Lemma hash_bits ps v : forall i j, N.testbit (hash_from i ps v) j =
  (N.ltb j 64 && N.leb i j && match nth_error ps (N.to_nat (j - i)) with Some p => positive_side v p | None => false end)%bool.
Proof.
  induction ps as [|p ps IH]; intros i j; cbn [hash_from].
  - rewrite N.bits_0. destruct (N.to_nat (j - i)); cbn; rewrite andb_false_r; auto.
  - rewrite N.lor_spec, IH. assert (B : N.testbit (if positive_side v p then bit64 i else 0%N) j = (positive_side v p && (N.ltb i 64 && N.eqb j i))%bool)
      by (destruct (positive_side v p); [apply bit64_test|apply N.bits_0]). rewrite B. clear B.
    destruct (N.eqb_spec j i) as [Ej|E]; [rewrite Ej; clear Ej|].
    + rewrite N.sub_diag. cbn [N.to_nat nth_error]. destruct (N.leb_spec (N.succ i) i); [lia|]. destruct (N.leb_spec i i); [|lia].
      destruct (N.ltb i 64), (positive_side v p); cbn; auto.
    + rewrite !andb_false_r. cbn [orb]. destruct (N.leb_spec (N.succ i) j).
      * destruct (N.leb_spec i j); [|lia]. replace (N.to_nat (j - i)) with (S (N.to_nat (j - N.succ i))) by lia. reflexivity.
      * destruct (N.leb_spec i j); [lia|]. rewrite !andb_false_r. reflexivity.
Qed.
Lemma same_hash ps q v : compute_hash ps q = compute_hash ps v <-> same_sides ps q v.
Proof.
  unfold compute_hash. split.
  - intros E i p Hi Hp. apply (f_equal (fun h => N.testbit h (N.of_nat i))) in E. rewrite !hash_bits in E.
    rewrite N.sub_0_r, Nat2N.id, Hp in E. destruct (N.ltb_spec (N.of_nat i) 64); [|lia]. destruct (N.leb_spec 0 (N.of_nat i)); [|lia]. exact E.
  - intros H. apply N.bits_inj. intros j. rewrite !hash_bits. destruct (N.ltb_spec j 64); cbn [andb]; auto. f_equal. rewrite N.sub_0_r.
    destruct (nth_error ps (N.to_nat j)) as [p|] eqn:E; auto. apply (H (N.to_nat j) p); [lia|exact E].
Qed.

Record Keeps (dim : nat) (projs : list projections) (x : lsh) (h : string -> option (list N)) : Prop := {
  kl_dim : l_dim x = dim; kl_projs : map fst (l_tables x) = projs; kl_uniq : NoDup (map fst (l_vecs x));
  kl_get : forall id, map_get id (l_vecs x) = h id;
  kl_in : forall t id v, In t (l_tables x) -> h id = Some v -> In (compute_hash (fst t) v, id) (snd t) }.
Definition Clean (x : lsh) (h : string -> option (list N)) : Prop :=
  forall t e, In t (l_tables x) -> In e (snd t) -> exists v, h (snd e) = Some v /\ fst e = compute_hash (fst t) v.

Section L.
Variable dim : nat.
Variable projs : list projections.
Lemma keeps_step x h o : Keeps dim projs x h -> Keeps dim projs (lstep x o) (fun i => lsh_after dim i (h i) o).
Proof.
  intros [D P U G I]. destruct o as [id v|id|]; cbn [lstep lsh_after].
  - unfold lsh_insert. rewrite D. destruct (Nat.eqb_spec (length v) dim) as [E|E]; cbn [negb andb]; [|split; auto].
    split; cbn [l_dim l_tables l_vecs]; auto.
    + rewrite map_map. exact P.
    + apply keys_set; auto.
    + intros i. rewrite get_set, G. auto.
    + intros t i w Ht Hw. apply in_map_iff in Ht as (t0 & <- & Ht). cbn [fst snd]. apply in_or_app. destruct (String.eqb_spec id i) as [->|N].
      * injection Hw as ->. right. left. auto.
      * left. apply I; auto.
  - unfold lsh_delete. rewrite G. destruct (h id) as [v|] eqn:E; cbn [fst].
    + split; cbn [l_dim l_tables l_vecs]; auto.
      * rewrite map_map. exact P.
      * apply keys_del; auto.
      * intros i. rewrite get_del, G. auto.
      * intros t i w Ht Hw. apply in_map_iff in Ht as (t0 & <- & Ht). cbn [fst snd]. destruct (String.eqb_spec id i) as [->|N]; [discriminate|].
        apply filter_In. split; [apply I; auto|]. cbn [snd]. destruct (String.eqb_spec i id); [congruence|]. rewrite andb_false_r. auto.
    + split; auto.
      * intros i. rewrite G. destruct (String.eqb_spec id i) as [->|]; auto.
      * intros t i w Ht Hw. destruct (String.eqb_spec id i); [discriminate|]. apply I; auto.
  - split; cbn [l_dim l_tables l_vecs lsh_clear]; auto; [rewrite map_map; exact P|constructor|discriminate].
Qed.
Lemma clean_step x h o : Keeps dim projs x h -> Clean x h ->
  (forall id v, o = LInsert id v -> length v = dim -> h id = None) -> Clean (lstep x o) (fun i => lsh_after dim i (h i) o).
Proof.
  intros K C Hf. pose proof K as [D P U G I]. destruct o as [id v|id|]; cbn [lstep lsh_after].
  - unfold lsh_insert. rewrite D. destruct (Nat.eqb_spec (length v) dim) as [E|E]; cbn [negb andb]; [|exact C].
    specialize (Hf _ _ eq_refl E). intros t e Ht He. cbn [l_tables] in Ht. apply in_map_iff in Ht as (t0 & <- & Ht). cbn [fst snd] in *. apply in_app_or in He as [He|[<-|[]]].
    + destruct (C _ _ Ht He) as (w & Hw & Ew). destruct (String.eqb_spec id (snd e)) as [->|]; [congruence|]. exists w. auto.
    + cbn [fst snd]. rewrite String.eqb_refl. exists v. auto.
  - unfold lsh_delete. rewrite G. destruct (h id) as [v|] eqn:E; cbn [fst].
    + intros t e Ht He. cbn [l_tables] in Ht. apply in_map_iff in Ht as (t0 & <- & Ht). cbn [fst snd] in *. apply filter_In in He as [He Hn].
      destruct (C _ _ Ht He) as (w & Hw & Ew). destruct (String.eqb_spec id (snd e)) as [->|]; [|exists w; auto].
      rewrite Hw in E. injection E as ->. rewrite Ew, N.eqb_refl, String.eqb_refl in Hn. discriminate.
    + intros t e Ht He. destruct (C _ _ Ht He) as (w & Hw & Ew). destruct (String.eqb_spec id (snd e)) as [->|]; [congruence|]. exists w; auto.
  - intros t e Ht He. cbn [l_tables lsh_clear] in Ht. apply in_map_iff in Ht as (t0 & <- & Ht). destruct He.
Qed.
Lemma keeps_run ops : forall x h, Keeps dim projs x h -> Keeps dim projs (lrun x ops) (fun i => fold_left (lsh_after dim i) ops (h i)).
Proof. induction ops as [|o ops IH]; intros x h K; cbn [lrun fold_left]; auto. apply (IH _ _ (keeps_step x h o K)). Qed.
Lemma keeps_empty : Keeps dim projs (new_lsh dim projs) (fun _ => None).
Proof. split; cbn; auto; [|constructor|discriminate]. rewrite map_map. apply map_id. Qed.
Lemma keeps_new ops : Keeps dim projs (lrun (new_lsh dim projs) ops) (lsh_holds dim ops).
Proof. apply (keeps_run ops _ _ keeps_empty). Qed.
Lemma clean_new ops : no_reinsertion dim ops -> Clean (lrun (new_lsh dim projs) ops) (lsh_holds dim ops).
Proof.
  induction ops as [|o ops IH] using rev_ind; intros H.
  - intros t e Ht He. cbn in Ht. apply in_map_iff in Ht as (p & <- & _). destruct He.
  - unfold lrun, lsh_holds. rewrite fold_left_app. cbn [fold_left].
    assert (Hpre : no_reinsertion dim ops).
    { intros b id v l -> Hl. apply (H b id v (l ++ [o])); auto. rewrite <- app_assoc. auto. }
    assert (C : Clean (lstep (lrun (new_lsh dim projs) ops) o) (fun i => lsh_after dim i (lsh_holds dim ops i) o)).
    { apply clean_step; [apply keeps_new|apply IH; auto|]. intros id v -> Hl. apply (H ops id v []); auto. }
    intros t e Ht He. destruct (C t e Ht He) as (v & Hv & Ev). exists v. split; auto. rewrite fold_left_app. exact Hv.
Qed.
End L.

Section S.
Variable dist : list N -> list N -> float.
Lemma score_in x q ids d id : In (d, id) (score_candidates dist x q ids) <-> In id ids /\ exists v, map_get id (l_vecs x) = Some v /\ d = dist q v.
Proof.
  unfold score_candidates. rewrite in_flat_map. split.
  - intros (i & Hi & H). destruct (map_get i (l_vecs x)) as [v|] eqn:E; [|destruct H]. destruct H as [[= <- <-]|[]]. split; auto. exists v. auto.
  - intros (Hi & v & Hv & ->). exists id. split; auto. rewrite Hv. left; auto.
Qed.
Lemma score_nodup x q ids : NoDup ids -> NoDup (map snd (score_candidates dist x q ids)).
Proof.
  induction 1 as [|i ids Hi N IH]; cbn; [constructor|]. destruct (map_get i (l_vecs x)) as [v|]; cbn; auto. constructor; auto.
  intros H. apply in_map_iff in H as ([d j] & E & Hj). cbn in E. subst j. apply score_in in Hj as [Hj _]. contradiction.
Qed.
Lemma finish_lemma order srt x q k found :
  visits_all order -> sort_ok lsh_closer srt -> (0 <= k)%Z ->
  exists all out, lsh_finish dist order srt x q k found = Ok out /\ incl out all /\ NoDup (map snd all) /\
    (forall d id, In (d, id) all <-> In id found /\ exists v, map_get id (l_vecs x) = Some v /\ d = dist q v) /\
    ((forall p, In p all -> not_nan (fst p)) -> is_topk nearer (Z.to_nat k) all out).
Proof.
  intros Ho Hs Hk. unfold lsh_finish. destruct (Z.ltb_spec k 0); [lia|]. set (all := score_candidates dist x q (order (nodup string_dec found))).
  exists all. eexists. split; [reflexivity|]. split; [|split; [|split]].
  - intros p Hp. apply in_firstn in Hp. eapply Permutation_in; [apply Permutation_sym; apply Hs|exact Hp].
  - apply score_nodup. eapply Permutation_NoDup; [apply Ho|apply NoDup_nodup].
  - intros d id. unfold all. rewrite score_in. split; intros [A B]; split; auto.
    + apply (nodup_In string_dec). eapply Permutation_in; [apply Permutation_sym; apply Ho|exact A].
    + eapply Permutation_in; [apply Ho|]. apply nodup_In. exact A.
  - intros Nn. apply topk_of_sort; auto. apply weak_order_asc. exact Nn.
Qed.
Lemma bucket_in t h id : In id (bucket t h) <-> In (h, id) (snd t).
Proof.
  unfold bucket. rewrite in_map_iff. split.
  - intros ([h' i] & E & H). cbn in E. subst i. apply filter_In in H as [H He]. cbn in He. apply N.eqb_eq in He. subst. auto.
  - intros H. exists (h, id). split; auto. apply filter_In. split; auto. cbn. apply N.eqb_refl.
Qed.
Lemma table_of dim projs x h ps : Keeps dim projs x h -> In ps projs -> exists t, In t (l_tables x) /\ fst t = ps.
Proof. intros K H. rewrite <- (kl_projs _ _ _ _ K) in H. apply in_map_iff in H as (t & E & Ht). exists t. auto. Qed.
Lemma table_projs dim projs x h t : Keeps dim projs x h -> In t (l_tables x) -> In (fst t) projs.
Proof. intros K H. rewrite <- (kl_projs _ _ _ _ K). apply in_map. auto. Qed.
End S.
