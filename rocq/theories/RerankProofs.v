(** Proofs about RerankModel.v. *)
From Coq Require Import String Ascii List NArith ZArith Bool Arith Lia Permutation Sorted.
From Coq Require Import Floats.SpecFloat.
From Verif Require Import Base Floats64 TopK EncodingModel DimensionModel SimilarityModel StoreModel SearchModel SearchSpec DiversityModel DiversitySpec DiversityProofs RerankModel RerankSpec.
Import ListNotations.
Open Scope string_scope.
Open Scope list_scope.

Lemma perm_fst (l l' : list scored) : Permutation l l' -> Permutation (map fst l) (map fst l').
Proof. apply Permutation_map. Qed.
Lemma sort_rescored srt (f : scored -> float) (l : list scored) : sort_ok by_score srt ->
  rescored f l (srt (map (fun r => (fst r, f r)) l)).
Proof.
  intros Hs. destruct (Hs (map (fun r => (fst r, f r)) l)) as [P S]. split; auto.
  intros Hn. apply S. apply (weak_order_desc (fun x : scored => snd x)). intros x Hin. apply in_map_iff in Hin as (r & <- & Hr). cbn. auto.
Qed.
Lemma rescored_fst f l out : rescored f l out -> Permutation (map fst l) (map fst out).
Proof. intros [P _]. apply perm_fst in P. rewrite map_map in P. exact P. Qed.
Lemma rescored_ext f g l out : (forall r, In r l -> f r = g r) -> rescored f l out -> rescored g l out.
Proof.
  intros H [P S]. split.
  - erewrite map_ext_in; [exact P|]. intros r Hr. cbn. rewrite H; auto.
  - intros Hn. apply S. intros r Hr. rewrite H; auto.
Qed.

(** *** smallest and largest score *)
Lemma nan_cases x : x = S754_nan \/ not_nan x.
Proof. destruct x; (left; reflexivity) || (right; discriminate). Qed.
Lemma min_score_spec l : forall x, not_nan x -> (forall r, In r l -> not_nan (snd r)) ->
  let m := min_score l x in
  not_nan m /\ (m = x \/ In m (map snd l)) /\ flt x m = false /\ forall r, In r l -> flt (snd r) m = false.
Proof.
  induction l as [|r l IH]; intros x Hx Hl; unfold min_score; cbn [fold_left]; cbv zeta.
  - split; auto. split; auto. split; [apply flt_irrefl|intros r []].
  - assert (Hr : not_nan (snd r)) by (apply Hl; left; auto).
    destruct (flt (snd r) x) eqn:E.
    + destruct (IH (snd r) Hr ltac:(intros; apply Hl; right; auto)) as (A & B & C & D). fold (min_score l (snd r)). cbv zeta in *.
      split; auto. split; [right; cbn; destruct B as [B|B]; auto|]. split.
      * apply flt_ntrans with (b := snd r); auto. apply flt_asym; auto.
      * intros r' [<-|Hr']; auto.
    + destruct (IH x Hx ltac:(intros; apply Hl; right; auto)) as (A & B & C & D). fold (min_score l x). cbv zeta in *.
      split; auto. split; [destruct B as [B|B]; [left|right; cbn]; auto|]. split; auto.
      intros r' [<-|Hr']; auto. apply flt_ntrans with (b := x); auto.
Qed.
Lemma max_score_spec l : forall x, not_nan x -> (forall r, In r l -> not_nan (snd r)) ->
  let m := max_score l x in
  not_nan m /\ (m = x \/ In m (map snd l)) /\ flt m x = false /\ forall r, In r l -> flt m (snd r) = false.
Proof.
  induction l as [|r l IH]; intros x Hx Hl; unfold max_score; cbn [fold_left]; cbv zeta.
  - split; auto. split; auto. split; [apply flt_irrefl|intros r []].
  - assert (Hr : not_nan (snd r)) by (apply Hl; left; auto). change (fgt (snd r) x) with (flt x (snd r)).
    destruct (flt x (snd r)) eqn:E.
    + destruct (IH (snd r) Hr ltac:(intros; apply Hl; right; auto)) as (A & B & C & D). fold (max_score l (snd r)). cbv zeta in *.
      split; auto. split; [right; cbn; destruct B as [B|B]; auto|]. split.
      * apply flt_ntrans with (b := snd r); auto. apply flt_asym; auto.
      * intros r' [<-|Hr']; auto.
    + destruct (IH x Hx ltac:(intros; apply Hl; right; auto)) as (A & B & C & D). fold (max_score l x). cbv zeta in *.
      split; auto. split; [destruct B as [B|B]; [left|right; cbn]; auto|]. split; auto.
      intros r' [<-|Hr']; auto. apply flt_ntrans with (b := x); auto.
Qed.
Lemma normalize_spec srt lo hi query results : sort_ok by_score srt -> results <> [] -> (forall r, In r results -> not_nan (snd r)) ->
  exists mn mx out, normalize_scores srt lo hi query results = Ok out /\ least_score results mn /\ greatest_score results mx /\
    rescored (fun r => f64_add (f64_mul (f64_div (f64_sub (snd r) mn) (if feq (f64_sub mx mn) f_zero then f64_of_Z 1 else f64_sub mx mn)) (f64_sub hi lo)) lo) results out.
Proof.
  intros Hs Hne Hn. destruct results as [|r0 l]; [congruence|]. cbn [normalize_scores]. set (l0 := r0 :: l) in *.
  assert (H0 : not_nan (snd r0)) by (apply Hn; left; auto).
  destruct (min_score_spec l0 (snd r0) H0 Hn) as (A & B & C & D). destruct (max_score_spec l0 (snd r0) H0 Hn) as (A' & B' & C' & D'). cbv zeta in *.
  exists (min_score l0 (snd r0)), (max_score l0 (snd r0)). eexists. split; [reflexivity|]. split; [|split].
  - split; [destruct B as [B|B]; [rewrite B; left; auto|exact B]|exact D].
  - split; [destruct B' as [B'|B']; [rewrite B'; left; auto|exact B']|exact D'].
  - apply (sort_rescored srt); auto.
Qed.

(** *** keywords *)
Lemma prefix_spec t : forall s, String.prefix t s = true <-> exists b, s = append t b.
Proof.
  induction t as [|a t IH]; intros s; [|destruct s as [|c s]; cbn].
  - split; [intros _; exists s; reflexivity|destruct s; auto].
  - split; [discriminate|intros [b H]; discriminate].
  - destruct (ascii_dec a c) as [->|Hne].
      * rewrite IH. split; intros [b H]; exists b; [rewrite H; reflexivity|injection H; auto].
      * split; [discriminate|]. intros [b H]. injection H as H1 H2. congruence.
Qed.
Lemma contains_spec s t : contains s t = true <-> occurs t s.
Proof.
  unfold occurs. induction s as [|c s IH]; cbn [contains].
  - rewrite orb_false_r, prefix_spec. split.
    + intros [b H]. exists "", b. exact H.
    + intros (a & b & H). destruct a; [exists b; exact H|discriminate].
  - rewrite orb_true_iff, prefix_spec, IH. split.
    + intros [[b H]|(a & b & H)]; [exists "", b; exact H|]. exists (String c a), b. cbn. rewrite H. reflexivity.
    + intros (a & b & H). destruct a as [|x a]; [left; exists b; exact H|]. right. injection H as _ H. exists a, b. exact H.
Qed.
Lemma keyword_spec T srt boost cs query results : sort_ok by_score srt ->
  exists n out, keyword_match T srt boost cs query results = Ok out /\
    (forall r, count_of (fun k => occurs k (if cs then e_content (fst r) else lower T (e_content (fst r))))
                        (fields T (if cs then query else lower T query)) (n r)) /\
    rescored (fun r => if (0 <? n r)%nat then f64_mul (snd r) (f64_add (f64_of_Z 1) (f64_mul (f64_of_Z (Z.of_nat (n r))) boost)) else snd r) results out.
Proof.
  intros Hs. unfold keyword_match. set (kw := fields T _).
  set (n := fun r : scored => length (filter (contains (if cs then e_content (fst r) else lower T (e_content (fst r)))) kw)).
  exists n. eexists. split; [reflexivity|]. split.
  - intros r. eexists. split; [reflexivity|]. eexists. split; [reflexivity|]. intros k _. apply contains_spec.
  - match goal with |- rescored ?f _ (srt (map ?g _)) => replace (map g results) with (map (fun r => (fst r, f r)) results) end.
    + apply (sort_rescored srt); auto.
    + apply map_ext. intros [e x]. cbv zeta. fold (n (e, x)). destruct (0 <? n (e, x))%nat; reflexivity.
Qed.

(** *** rank fusion *)
Lemma mapi_map {A B} (f : nat -> A -> B) l : forall n, mapi f n l = map (fun p => f (fst p) (snd p)) (combine (seq n (length l)) l).
Proof. induction l as [|x l IH]; intros n; cbn; [reflexivity|]. rewrite IH. reflexivity. Qed.
Lemma mapi_length {A B} (f : nat -> A -> B) l : forall n, length (mapi f n l) = length l.
Proof. induction l; intros n; cbn; auto. Qed.
Lemma mapi_nth {A B} (f : nat -> A -> B) l : forall n i x, nth_error l i = Some x -> nth_error (mapi f n l) i = Some (f (n + i) x).
Proof.
  induction l as [|y l IH]; intros n [|i] x H; cbn in *; try discriminate.
  - injection H as ->. rewrite Nat.add_0_r. reflexivity.
  - rewrite (IH (S n) i x H). do 2 f_equal. lia.
Qed.
Lemma mapi_fst_seq (g : nat -> scored -> float) l : forall n, map fst (mapi (fun i r => (i, g i r)) n l) = seq n (length l).
Proof. induction l as [|x l IH]; intros n; cbn; [reflexivity|]. rewrite IH. reflexivity. Qed.

Lemma mapi_keeps (g : nat -> scored -> float) l : forall n, map fst (mapi (fun i r => (fst r, g i r)) n l) = map fst l.
Proof. induction l as [|x l IH]; intros n; cbn; [reflexivity|]. rewrite IH. reflexivity. Qed.

Lemma rank_in_spec (l : list (nat * float)) d : NoDup (map fst l) -> forall n i, In i (map fst l) ->
  exists p x, nth_error l p = Some (i, x) /\ rank_in i l n d = n + p.
Proof.
  induction l as [|[j x] l IH]; intros Hn n i Hin; [destruct Hin|]. cbn [rank_in]. cbn in Hn, Hin. inversion Hn as [|? ? Hj Hn']; subst.
  destruct (Nat.eqb_spec j i) as [->|Hne].
  - exists 0, x. split; [reflexivity|lia].
  - destruct Hin as [Hin|Hin]; [congruence|]. destruct (IH Hn' (S n) i Hin) as (p & y & Hp & E). exists (S p), y. split; [exact Hp|lia].
Qed.

Lemma text_ranking tsrt (value : nat -> scored -> float) results : sort_ok (fun a b : nat * float => fgt (snd a) (snd b)) tsrt ->
  let l := tsrt (mapi (fun i r => (i, value i r)) 0 results) in
  ranking (length results) (fun i => match nth_error results i with Some r => value i r | None => f_zero end)
          (fun i => rank_in i l 1 (length results)).
Proof.
  intros Hs. cbv zeta. set (n := length results). set (l0 := mapi (fun i r => (i, value i r)) 0 results).
  destruct (Hs l0) as [P Sr]. set (l := tsrt l0) in *.
  assert (Hfst : Permutation (seq 0 n) (map fst l)).
  { unfold n. rewrite <- (mapi_fst_seq value results 0). apply Permutation_map. exact P. }
  assert (Hnd : NoDup (map fst l)) by (eapply Permutation_NoDup; [exact Hfst|apply seq_NoDup]).
  assert (Hin : forall i, i < n -> In i (map fst l)) by (intros i Hi; apply (Permutation_in _ Hfst); apply in_seq; lia).
  assert (Hlen : length l = n) by (rewrite <- (map_length fst), <- (Permutation_length Hfst), seq_length; auto).
  assert (Hr : forall i, i < n -> exists p x, nth_error l p = Some (i, x) /\ rank_in i l 1 n = 1 + p).
  { intros i Hi. apply rank_in_spec; auto. }
  assert (Hv : forall p i x, nth_error l p = Some (i, x) -> match nth_error results i with Some r => value i r | None => f_zero end = x).
  { intros p i x Hp. apply nth_error_In in Hp. apply (Permutation_in _ (Permutation_sym P)) in Hp. apply In_nth_error in Hp as [k Hk].
    assert (k < length results). { rewrite <- (mapi_length (fun i r => (i, value i r)) results 0). apply nth_error_Some. fold l0. rewrite Hk. discriminate. }
    destruct (nth_error results k) as [r|] eqn:Er; [|apply nth_error_None in Er; lia].
    unfold l0 in Hk. rewrite (mapi_nth _ _ 0 k r Er) in Hk. injection Hk as <- <-. cbn. rewrite Er. reflexivity. }
  split.
  - apply NoDup_Permutation.
    + apply seq_NoDup.
    + apply NoDup_map_inj; [|apply seq_NoDup]. intros i j Hi Hj E. apply in_seq in Hi, Hj.
      destruct (Hr i ltac:(lia)) as (p & x & Hp & Ep). destruct (Hr j ltac:(lia)) as (p' & x' & Hp' & Ep').
      assert (p = p') by lia. subst p'. rewrite Hp in Hp'. congruence.
    + assert (Hrange : forall i, i < n -> 1 <= rank_in i l 1 n <= n).
      { intros i Hi. destruct (Hr i Hi) as (p & x & Hp & ->). assert (p < length l) by (apply nth_error_Some; rewrite Hp; discriminate). lia. }
      intros k. rewrite in_seq, in_map_iff. split.
      * intros Hk. destruct (nth_error l (k - 1)) as [[i x]|] eqn:E; [|apply nth_error_None in E; lia].
        assert (Hi : i < n). { pose proof (nth_error_In _ _ E) as H. apply (in_map fst) in H. apply (Permutation_in _ (Permutation_sym Hfst)) in H. apply in_seq in H. cbn in H. lia. }
        exists i. split; [|apply in_seq; lia]. destruct (Hr i Hi) as (p & y & Hp & ->).
        assert (p = k - 1); [|lia]. rewrite NoDup_nth_error in Hnd. apply Hnd; [rewrite map_length; apply nth_error_Some; rewrite Hp; discriminate|].
        rewrite !nth_error_map, Hp, E. reflexivity.
      * intros (i & <- & Hi). apply in_seq in Hi. specialize (Hrange i ltac:(lia)). lia.
  - intros Hn i j Hi Hj Hlt. assert (W : weak_order_on (fun a b : nat * float => fgt (snd a) (snd b)) l0).
    { apply (weak_order_desc (fun x : nat * float => snd x)). intros [k x] Hk. apply (Permutation_in _ P) in Hk. pose proof Hk as Hin2. apply In_nth_error in Hk as [p Hp].
      cbn. rewrite <- (Hv p k x Hp). apply Hn. apply (in_map fst) in Hin2. apply (Permutation_in _ (Permutation_sym Hfst)) in Hin2. apply in_seq in Hin2. cbn in Hin2. lia. }
    specialize (Sr W). destruct (Hr i Hi) as (p & x & Hp & Ep). destruct (Hr j Hj) as (p' & x' & Hp' & Ep').
    rewrite (Hv p i x Hp), (Hv p' j x' Hp'). assert (p < p') by lia.
    assert (Hcross : forall (l : list (nat * float)) p p' a b, sorted_by (fun a b : nat * float => fgt (snd a) (snd b)) l -> p < p' -> nth_error l p = Some a -> nth_error l p' = Some b -> flt (snd a) (snd b) = false).
    { clear. intros l p p' a b S. revert p p'. induction S as [|y l Hl IH HF]; intros [|p] [|p'] Hlt Ha Hb; cbn in *; try discriminate; try lia.
      - injection Ha as ->. rewrite Forall_forall in HF. apply (HF b). eapply nth_error_In; eauto.
      - apply (IH p p'); auto. lia. }
    exact (Hcross l p p' (i, x) (j, x') Sr ltac:(lia) Hp Hp').
Qed.

(** *** diversity *)
Lemma div_loop_spec value cs : forall fuel idxs sel ridx rem,
  picked cs idxs sel -> rests cs idxs ridx rem -> length rem <= fuel -> StronglySorted lt ridx ->
  (forall n i j ci cj, nth_error idxs n = Some i -> nth_error cs i = Some ci -> nth_error cs j = Some cj -> ~ In j (firstn n idxs) ->
     flt (value (firstn n sel) ci) (value (firstn n sel) cj) = false \/
     (flt (f64_of_Z (-1)) (value (firstn n sel) cj) = false /\ i <= j)) ->
  let out := div_loop value fuel sel rem in
  exists idxs', picked cs idxs' out /\ length out = length cs /\
  (forall n i j ci cj, nth_error idxs' n = Some i -> nth_error cs i = Some ci -> nth_error cs j = Some cj -> ~ In j (firstn n idxs') ->
     flt (value (firstn n out) ci) (value (firstn n out) cj) = false \/
     (flt (f64_of_Z (-1)) (value (firstn n out) cj) = false /\ i <= j)).
Proof.
  assert (Hend : forall idxs sel ridx (rem : list scored), picked cs idxs sel -> rests cs idxs ridx rem -> rem = [] -> length sel = length cs).
  { intros idxs sel ridx rem P (R1 & _ & R3) ->. inversion R1; subst. pose proof (picked_le _ _ _ P).
    assert (length cs <= length sel); [|lia]. rewrite <- (picked_length _ _ _ P), <- (seq_length (length cs) 0).
    apply NoDup_incl_length; [apply seq_NoDup|]. intros i Hi. apply in_seq in Hi. destruct (in_dec Nat.eq_dec i idxs) as [?|Hn]; auto.
    exfalso. apply (proj2 (R3 i)). split; [lia|auto]. }
  induction fuel as [|fuel IH]; intros idxs sel ridx rem P R Hf Hso G; cbn [div_loop]; cbv zeta.
  - exists idxs. split; auto. split; auto. apply (Hend idxs sel ridx rem); auto. destruct rem; [auto|cbn in Hf; lia].
  - destruct rem as [|r0 rem0] eqn:Er.
    { exists idxs. split; auto. split; auto. apply (Hend idxs sel ridx []); auto. }
    rewrite <- Er in *.
    assert (Hpick : exists p x, best_index (value sel) rem 0 (f64_of_Z (-1)) (Some 0) = Some p /\ nth_error rem p = Some x /\
        ((forall y, In y rem -> flt (value sel x) (value sel y) = false) \/ (p = 0 /\ forall y, In y rem -> flt (f64_of_Z (-1)) (value sel y) = false))).
    { destruct (best_index_spec (value sel) rem 0 (f64_of_Z (-1)) (Some 0) ltac:(discriminate)) as [(E & H)|(p & x & E & Hp & _ & H)].
      - exists 0, r0. split; auto. split; [rewrite Er; reflexivity|]. right. auto.
      - exists p, x. split; auto. }
    destruct Hpick as (p & x & E & Hp & Hbest).
    rewrite E, Hp. destruct R as (R1 & R2 & R3).
    destruct (Forall2_nth _ _ _ _ _ R1 Hp) as (i & Hi & Ei).
    destruct (in_remove_at ridx p i R2 Hi) as [D1 D2].
    assert (Hni : ~ In i idxs) by (apply R3; eapply nth_error_In; eauto).
    rewrite Er. rewrite <- Er. apply (IH (idxs ++ [i]) (sel ++ [x]) (remove_at p ridx) (remove_at p rem)).
    + apply picked_snoc; auto.
    + split; [apply Forall2_remove_at; auto|]. split; auto. intros j. rewrite D2, R3, in_app_iff. cbn [In].
      split; [intros [[H1 H2] H3]; split; auto; intros [H4|[H4|[]]]; [auto|congruence]|]. intros [H1 H2]. split; [split; auto|]. intros ->. auto.
    + rewrite remove_at_length; [lia|]. apply nth_error_Some. rewrite Hp. discriminate.
    + clear -Hso. unfold remove_at. revert p. induction Hso as [|y l Hl IHl HF]; intros p; [rewrite firstn_nil, skipn_nil; constructor|].
      destruct p; [exact Hl|]. cbn [firstn app]. constructor; [apply IHl|]. rewrite Forall_forall in *. intros z Hz. apply HF.
      apply in_app_or in Hz as [Hz|Hz]; [eapply in_firstn; eauto|apply (in_skipn (S p)); exact Hz].
    + intros n a j ca cj Hn Ea Ej Hnot. pose proof (picked_length _ _ _ P) as PL.
      destruct (nth_error_snoc _ _ _ _ Hn) as [En|[-> ->]].
      * assert (n < length idxs) by (apply nth_error_Some; rewrite En; discriminate).
        rewrite firstn_snoc in Hnot by lia. rewrite firstn_snoc by lia. apply (G n a j); auto.
      * rewrite firstn_snoc_all in Hnot. rewrite PL, firstn_snoc_all. rewrite Ei in Ea. injection Ea as <-.
        assert (In j ridx) as Hin by (apply R3; split; [apply nth_error_Some; rewrite Ej; discriminate|auto]).
        destruct (Forall2_in_l _ _ _ _ R1 Hin) as (c' & Hc & Ec'). rewrite Ej in Ec'. injection Ec' as <-.
        destruct Hbest as [H|[-> H]]; [left; auto|right]. split; [auto|].
        destruct ridx as [|i0 ridx']; [discriminate|]. cbn in Hi. injection Hi as ->. inversion Hso as [|? ? _ HF]; subst.
        destruct Hin as [<-|Hin]; [lia|]. rewrite Forall_forall in HF. specialize (HF j Hin). lia.
Qed.
Lemma seq_sorted n : forall a, StronglySorted lt (seq a n).
Proof.
  induction n as [|n IH]; intros a; cbn; constructor; auto. rewrite Forall_forall. intros x Hx. apply in_seq in Hx. lia.
Qed.
Lemma picked_all_perm {A} (cs : list A) idxs out : picked cs idxs out -> length out = length cs -> Permutation cs out.
Proof.
  intros P L. assert (Pi : Permutation idxs (seq 0 (length cs))).
  { apply NoDup_Permutation_bis; [apply P|rewrite seq_length, (picked_length _ _ _ P); lia|]. intros i Hi. apply in_seq. pose proof (picked_range _ _ _ _ P Hi). lia. }
  destruct P as [_ F]. destruct (Forall2_perm_l _ _ _ _ F Pi) as (out' & Po & F').
  assert (out' = cs); [|subst; apply Permutation_sym; auto].
  pose proof (selection_refl cs) as [_ F2].
  assert (G : forall (l : list nat) (a b : list A), Forall2 (fun i x => nth_error cs i = Some x) l a -> Forall2 (fun i x => nth_error cs i = Some x) l b -> a = b).
  { clear. induction l as [|i l IH]; intros a b Ha Hb; inversion Ha; inversion Hb; subst; [reflexivity|]. f_equal; [congruence|auto]. }
  eapply G; eauto.
Qed.

(** *** hybrid *)
Lemma set_nth_ok {A} k (x : A) l : k < length l -> exists l', set_nth k x l = Some l' /\ length l' = length l /\
  nth_error l' k = Some x /\ forall j, j <> k -> nth_error l' j = nth_error l j.
Proof.
  revert k. induction l as [|y l IH]; intros k Hk; [cbn in Hk; lia|]. destruct k as [|k]; cbn [set_nth].
  - eexists. split; [reflexivity|]. split; [reflexivity|]. split; [reflexivity|]. intros [|j] Hj; [congruence|reflexivity].
  - destruct (IH k ltac:(cbn in Hk; lia)) as (l' & E & L & N1 & N2). rewrite E. eexists. split; [reflexivity|]. cbn. split; [lia|]. split; [exact N1|].
    intros [|j] Hj; [reflexivity|]. cbn. apply N2. lia.
Qed.
Lemma index_of_id_spec id l : forall n k, index_of_id id l n = Some k -> n <= k < n + length l.
Proof.
  induction l as [|r l IH]; intros n k H; cbn in *; [discriminate|]. destruct (String.eqb (e_id (fst r)) id); [injection H as <-; lia|].
  apply IH in H. lia.
Qed.
Lemma assign_ok results reranked : forall scores, length results <= length scores ->
  exists scores', assign_scores results reranked scores = Ok scores' /\ length scores' = length scores.
Proof.
  induction reranked as [|r rs IH]; intros scores H; cbn [assign_scores]; [eauto|].
  destruct (index_of_id (e_id (fst r)) results 0) as [k|] eqn:E; [|auto]. apply index_of_id_spec in E.
  destruct (set_nth_ok k (snd r) scores ltac:(lia)) as (l' & -> & L & _). destruct (IH l' ltac:(lia)) as (s' & -> & L'). exists s'. split; auto. lia.
Qed.
Lemma all_scores_ok rs query results :
  Forall (fun r => exists out, r query results = Ok out /\ length out = length results) rs ->
  exists scs, all_scores rs query results = Ok scs /\ Forall (fun sc => length sc = length results) scs.
Proof.
  induction 1 as [|r rs (out & E & L) H IH]; cbn [all_scores]; [eauto|]. rewrite E. cbn [bind].
  destruct (assign_ok results out (map (fun _ => f_zero) out) ltac:(rewrite map_length; lia)) as (sc & -> & Lsc). cbn [bind].
  destruct IH as (scs & -> & F). cbn [bind]. eexists. split; [reflexivity|]. constructor; auto. rewrite Lsc, map_length. auto.
Qed.
Lemma combine_scores_ok n i : i < n -> forall scs ws acc tot, Forall (fun sc : list float => length sc = n) scs -> exists p, combine_scores scs ws i acc tot = Ok p.
Proof.
  intros Hi. induction scs as [|sc scs IH]; intros ws acc tot F; cbn [combine_scores]; [eauto|]. destruct ws; [eauto|].
  inversion F; subst. destruct (nth_error sc i) eqn:E; [apply IH; auto|apply nth_error_None in E; lia].
Qed.
Lemma combine_all_ok scs ws n : Forall (fun sc : list float => length sc = n) scs -> forall l i, i + length l <= n ->
  exists out, combine_all scs ws i l = Ok out /\ map fst out = map fst l.
Proof.
  intros F. induction l as [|r l IH]; intros i H; cbn [combine_all]; [eauto|]. cbn in H.
  destruct (combine_scores_ok n i ltac:(lia) scs ws f_zero f_zero F) as (p & ->). cbn [bind].
  destruct (IH (S i) ltac:(lia)) as (out & -> & E). cbn [bind]. eexists. split; [reflexivity|]. cbn. rewrite E. f_equal. destruct (fgt (snd p) f_zero); reflexivity.
Qed.

(** *** every built-in reranker permutes *)
Lemma diversity_spec sim lambda query results :
  exists out idxs, diversity_rerank sim lambda query results = Ok out /\ picked results idxs out /\ Permutation results out.
Proof.
  assert (Triv : exists out idxs, Ok results = Ok out /\ picked results idxs out /\ Permutation results out).
  { exists results, (seq 0 (length results)). split; [reflexivity|]. split; [apply selection_refl|auto]. }
  unfold diversity_rerank. destruct results as [|r0 [|r1 l]]; auto. clear Triv. set (cs := r0 :: r1 :: l).
  destruct (div_loop_spec (div_score (match sim with Some f => f | None => cosine end) lambda (vec_of (fst r0))) cs (length cs) [] [] (seq 0 (length cs)) cs) as (idxs & A & B & _).
  - split; constructor.
  - split; [apply selection_refl|]. split; [apply seq_NoDup|]. intros i. rewrite in_seq. split; [intros; split; [lia|intros []]|intros [? _]; lia].
  - auto.
  - apply seq_sorted.
  - intros [|n] i j ci cj H; discriminate.
  - eexists. exists idxs. split; [reflexivity|]. split; [exact A|]. eapply picked_all_perm; eauto.
Qed.
Definition permuting (r : reranker) : Prop := forall query results, exists out, r query results = Ok out /\ Permutation (map fst results) (map fst out).

Lemma builtin_permutes T srt tsrt (Hs : sort_ok by_score srt) : forall b, permuting (rerank_with T srt tsrt b).
Proof.
  assert (Hsf : forall l, Permutation (map fst l) (map fst (srt l))) by (intros l; apply perm_fst; apply (Hs l)).
  fix IH 1. intros b query results. destruct b as [lo hi|boost cs|k vw tw|sim lambda|f|bs ws]; cbn [rerank_with].
  - unfold normalize_scores. destruct results as [|r0 l]; [eexists; split; [reflexivity|auto]|]. eexists. split; [reflexivity|].
    eapply perm_trans; [|apply Hsf]. rewrite map_map. cbn. auto.
  - unfold keyword_match. eexists. split; [reflexivity|]. eapply perm_trans; [|apply Hsf]. rewrite map_map. apply Permutation_refl'. apply map_ext.
    intros r. cbv zeta. destruct (0 <? _)%nat; reflexivity.
  - unfold rrf_rerank. eexists. split; [reflexivity|]. eapply perm_trans; [|apply Hsf]. rewrite (mapi_keeps (fun i r => f64_add _ _)). auto.
  - destruct (diversity_spec sim lambda query results) as (out & idxs & E & _ & P). exists out. split; auto. apply perm_fst. auto.
  - unfold custom_rerank. eexists. split; [reflexivity|]. eapply perm_trans; [|apply Hsf]. rewrite map_map. apply Permutation_refl'. apply map_ext.
    intros r. destruct f; reflexivity.
  - unfold hybrid_rerank. destruct bs as [|b bs]; cbn [map]; [eexists; split; [reflexivity|auto]|].
    change (rerank_with T srt tsrt b :: map (rerank_with T srt tsrt) bs) with (map (rerank_with T srt tsrt) (b :: bs)).
    assert (F : Forall (fun r => exists out, r query results = Ok out /\ length out = length results) (map (rerank_with T srt tsrt) (b :: bs))).
    { generalize (b :: bs). clear b bs. induction l as [|b l IHl]; cbn [map]; constructor; auto.
      destruct (IH b query results) as (out & E & P). exists out. split; auto. apply Permutation_length in P. rewrite !map_length in P. auto. }
    destruct (all_scores_ok _ _ _ F) as (scs & -> & Fs). cbn [bind].
    destruct (combine_all_ok scs ws (length results) Fs results 0 ltac:(lia)) as (l & -> & El). cbn [bind].
    eexists. split; [reflexivity|]. rewrite <- El. apply Hsf.
Qed.

(** *** exact hybrid scores *)
Definition sid (r : scored) : string := e_id (fst r).
Lemma index_of_id_found l : NoDup (map sid l) -> forall n k r, nth_error l k = Some r -> index_of_id (sid r) l n = Some (n + k).
Proof.
  induction l as [|r0 l IH]; intros Hn n k r H; [destruct k; discriminate|]. cbn [index_of_id]. inversion Hn as [|? ? Hr Hn']; subst.
  destruct k as [|k]; cbn in H.
  - injection H as <-. unfold sid. rewrite String.eqb_refl, Nat.add_0_r. reflexivity.
  - destruct (String.eqb_spec (e_id (fst r0)) (sid r)) as [E|E].
    + exfalso. apply Hr. change (sid r0) with (e_id (fst r0)). rewrite E. apply in_map. eapply nth_error_In; eauto.
    + rewrite (IH Hn' (S n) k r H). f_equal. lia.
Qed.
Lemma index_of_id_id l id : forall n k, index_of_id id l n = Some k -> exists r, nth_error l (k - n) = Some r /\ sid r = id.
Proof.
  induction l as [|r0 l IH]; intros n k H; cbn in H; [discriminate|]. destruct (String.eqb_spec (e_id (fst r0)) id) as [E|E].
  - injection H as <-. rewrite Nat.sub_diag. exists r0. auto.
  - pose proof (index_of_id_spec _ _ _ _ H). destruct (IH _ _ H) as (r & Hr & Er). exists r. split; auto. replace (k - n) with (S (k - S n)) by lia. exact Hr.
Qed.
Lemma assign_exact results : NoDup (map sid results) -> forall reranked scores, NoDup (map sid reranked) -> length results <= length scores ->
  exists scores', assign_scores results reranked scores = Ok scores' /\ length scores' = length scores /\
  forall k r, nth_error results k = Some r ->
    (forall y, In y reranked -> sid y = sid r -> nth_error scores' k = Some (snd y)) /\
    ((forall y, In y reranked -> sid y <> sid r) -> nth_error scores' k = nth_error scores k).
Proof.
  intros Hr. induction reranked as [|y rs IH]; intros scores Hn HL; cbn [assign_scores].
  - exists scores. split; auto. split; auto. intros k r Hk. split; [intros y []|auto].
  - inversion Hn as [|? ? Hy Hn']; subst. destruct (index_of_id (e_id (fst y)) results 0) as [k0|] eqn:E.
    + pose proof (index_of_id_spec _ _ _ _ E) as Hk0. destruct (index_of_id_id _ _ _ _ E) as (r0 & Hr0 & Er0). rewrite Nat.sub_0_r in Hr0.
      destruct (set_nth_ok k0 (snd y) scores ltac:(lia)) as (s1 & -> & L1 & N1 & N2).
      destruct (IH s1 Hn' ltac:(lia)) as (s' & -> & L' & A). exists s'. split; auto. split; [lia|]. intros k r Hk. destruct (A k r Hk) as [A1 A2]. split.
      * intros z [<-|Hz] Ez; [|auto]. assert (k = k0).
        { rewrite NoDup_nth_error in Hr. apply Hr; [rewrite map_length; apply nth_error_Some; rewrite Hk; discriminate|]. rewrite !nth_error_map, Hk, Hr0. cbn. f_equal. rewrite <- Ez. symmetry. exact Er0. }
        subst k0. rewrite A2, N1; auto. intros z Hz Ez'. apply Hy. rewrite Ez, <- Ez'. apply in_map; auto.
      * intros Hno. rewrite A2 by (intros z Hz; apply Hno; right; auto). apply N2. intros ->. apply (Hno y (or_introl eq_refl)).
        rewrite Hk in Hr0. injection Hr0 as <-. symmetry. exact Er0.
    + destruct (IH scores Hn' HL) as (s' & -> & L' & A). exists s'. split; auto. split; auto. intros k r Hk. destruct (A k r Hk) as [A1 A2]. split.
      * intros z [<-|Hz] Ez; [|auto]. exfalso. pose proof (index_of_id_found results Hr 0 k r Hk) as F. rewrite <- Ez in F. unfold sid in F. rewrite E in F. discriminate.
      * intros Hno. apply A2. intros z Hz. apply Hno. right; auto.
Qed.

Definition given (results : list scored) (query : string) (r : scored) (rr : reranker) : float :=
  match rr query results with
  | Ok o => match find (fun y => String.eqb (sid y) (sid r)) o with Some y => snd y | None => f_zero end
  | _ => f_zero
  end.
Definition permutes (query : string) (results : list scored) (rr : reranker) : Prop :=
  exists o, rr query results = Ok o /\ Permutation (map fst results) (map fst o).
Lemma permutes_ids results o : Permutation (map fst results) (map fst o) -> NoDup (map sid results) -> NoDup (map sid o).
Proof.
  intros P H. apply (Permutation_map e_id) in P. rewrite !map_map in P. eapply Permutation_NoDup; [exact P|exact H].
Qed.
Lemma given_spec query results rr r : NoDup (map sid results) -> permutes query results rr -> In r results ->
  exists o, rr query results = Ok o /\ In (fst r, given results query r rr) o.
Proof.
  intros Hn (o & E & P) Hr. exists o. split; auto. unfold given. rewrite E.
  assert (Hin : In (fst r) (map fst o)) by (apply (Permutation_in _ P); apply in_map; auto). apply in_map_iff in Hin as (y & Ey & Hy).
  pose proof (permutes_ids _ _ P Hn) as Hno.
  destruct (find (fun y => String.eqb (sid y) (sid r)) o) as [z|] eqn:F.
  - apply find_some_iff in F as [Hz Ez]. apply String.eqb_eq in Ez. assert (z = y).
    { eapply (NoDup_map_eq sid); eauto. rewrite Ez. unfold sid. rewrite Ey. reflexivity. }
    subst z. rewrite <- Ey. destruct y; exact Hy.
  - exfalso. pose proof (find_none _ _ F y Hy) as Q. cbn in Q. unfold sid in Q. rewrite Ey, String.eqb_refl in Q. discriminate.
Qed.
Lemma all_scores_exact rs query results : NoDup (map sid results) -> Forall (permutes query results) rs ->
  exists scs, all_scores rs query results = Ok scs /\
    forall k r, nth_error results k = Some r -> Forall2 (fun sc x => nth_error sc k = Some x) scs (map (given results query r) rs).
Proof.
  intros Hn. induction 1 as [|rr rs Hrr H IH]; cbn [all_scores map].
  - exists []. split; auto.
  - destruct Hrr as (o & E & P). rewrite E. cbn [bind].
    assert (L : length o = length results) by (apply Permutation_length in P; rewrite !map_length in P; auto).
    destruct (assign_exact results Hn o (map (fun _ => f_zero) o) (permutes_ids _ _ P Hn) ltac:(rewrite map_length; lia)) as (sc & -> & _ & A). cbn [bind].
    destruct IH as (scs & -> & B). cbn [bind]. eexists. split; [reflexivity|]. intros k r Hk. constructor; [|auto].
    destruct (given_spec query results rr r Hn (ex_intro _ o (conj E P)) (nth_error_In _ _ Hk)) as (o' & E' & Hin). rewrite E in E'. injection E' as <-.
    destruct (A k r Hk) as [A1 _]. apply (A1 _ Hin). reflexivity.
Qed.
Lemma combine_scores_exact i scs xs : Forall2 (fun (sc : list float) x => nth_error sc i = Some x) scs xs -> forall ws acc tot,
  combine_scores scs ws i acc tot =
  Ok (fold_left f64_add (map (fun p => f64_mul (fst p) (snd p)) (combine xs ws)) acc, fold_left f64_add (map snd (combine xs ws)) tot).
Proof.
  induction 1 as [|sc x scs xs E H IH]; intros ws acc tot; cbn [combine_scores]; [reflexivity|]. destruct ws as [|w ws]; [reflexivity|].
  rewrite E, IH. reflexivity.
Qed.
Lemma combine_all_exact scs ws (g : scored -> list float) l : forall i,
  (forall k r, nth_error l k = Some r -> Forall2 (fun (sc : list float) x => nth_error sc (i + k) = Some x) scs (g r)) ->
  combine_all scs ws i l = Ok (map (fun r => (fst r, weighted_mean (g r) ws (snd r))) l).
Proof.
  induction l as [|r l IH]; intros i H; cbn [combine_all map]; [reflexivity|].
  rewrite (combine_scores_exact i scs (g r)). 2:{ pose proof (H 0 r eq_refl) as F. rewrite Nat.add_0_r in F. exact F. }
  cbn [bind fst snd]. rewrite (IH (S i)). 2:{ intros k r' Hk. pose proof (H (S k) r' Hk) as F. rewrite Nat.add_succ_r in F. exact F. }
  cbn [bind]. do 2 f_equal. unfold weighted_mean. destruct (fgt _ f_zero); [reflexivity|]. destruct r; reflexivity.
Qed.
Lemma hybrid_rerank_spec srt rs ws query results : sort_ok by_score srt -> rs <> [] -> NoDup (map sid results) ->
  Forall (permutes query results) rs ->
  exists g out, hybrid_rerank srt rs ws query results = Ok out /\
    (forall r, In r results -> Forall2 (fun rr x => exists o, rr query results = Ok o /\ In (fst r, x) o) rs (g r)) /\
    rescored (fun r => weighted_mean (g r) ws (snd r)) results out.
Proof.
  intros Hs Hne Hn F. exists (fun r => map (given results query r) rs).
  destruct (all_scores_exact rs query results Hn F) as (scs & E & A). unfold hybrid_rerank. destruct rs as [|r0 rs0] eqn:Ers; [congruence|]. rewrite <- Ers in *. rewrite E. cbn [bind].
  rewrite (combine_all_exact scs ws (fun r => map (given results query r) rs) results 0) by (exact A). cbn [bind].
  eexists. split; [reflexivity|]. split; [|apply (sort_rescored srt); auto].
  intros r Hr. clear Ers E A scs Hne. induction F as [|rr rs P F IH]; [constructor|]. cbn [map]. constructor; [|auto].
  apply given_spec; auto.
Qed.

(** *** rank fusion, exactly *)
Lemma overlap_spec T query content : overlap T query content (word_overlap T query content).
Proof.
  unfold word_overlap. set (qw := fields T (lower T query)). set (cw := fields T (lower T content)).
  destruct (Nat.ltb_spec 0 (length qw)) as [H|H].
  - right. split; [fold qw; intros E; rewrite E in H; cbn in H; lia|]. eexists. split; [|reflexivity].
    eexists. split; [reflexivity|]. eexists. split; [reflexivity|]. intros w _. fold cw. rewrite existsb_exists. split.
    + intros (y & Hy & E). apply String.eqb_eq in E. subst. exact Hy.
    + intros Hw. exists w. split; auto. apply String.eqb_refl.
  - left. split; [|reflexivity]. fold qw. destruct qw; [reflexivity|cbn in H; lia].
Qed.
Lemma rrf_spec T srt tsrt k vw tw query results : sort_ok by_score srt -> sort_ok (fun a b : nat * float => fgt (snd a) (snd b)) tsrt ->
  exists value rank l out, rrf_rerank T srt tsrt k vw tw query results = Ok out /\
    (forall i r, nth_error results i = Some r -> overlap T query (e_content (fst r)) (value i)) /\
    ranking (length results) value rank /\
    length l = length results /\
    (forall i r, nth_error results i = Some r ->
       nth_error l i = Some (fst r, f64_add (f64_div vw (f64_add k (f64_of_Z (Z.of_nat (i + 1))))) (f64_div tw (f64_add k (f64_of_Z (Z.of_nat (rank i))))))) /\
    Permutation l out /\ ((forall r, In r l -> not_nan (snd r)) -> best_first out).
Proof.
  intros Hs Ht. pose proof (text_ranking tsrt (fun _ r => word_overlap T query (e_content (fst r))) results Ht) as R. cbv zeta in R.
  unfold rrf_rerank. set (tr := tsrt _) in *. do 2 eexists. 
  set (l := mapi _ 0 results). exists l. exists (srt l). split; [reflexivity|]. split; [|split; [exact R|]].
  - intros i r E. cbv beta. rewrite E. apply overlap_spec.
  - split; [apply mapi_length|]. split.
    + intros i r E. unfold l. rewrite (mapi_nth _ _ 0 i r E). reflexivity.
    + destruct (Hs l) as [P S]. split; [exact P|]. intros Hn. apply S. apply (weak_order_desc (fun x : scored => snd x)). exact Hn.
Qed.
Lemma div_score_spec sim lambda e taken c : mmr_value sim lambda e taken c (div_score sim lambda (vec_of e) taken c).
Proof. eexists. split; [apply max_pos_spec|reflexivity]. Qed.
Lemma diversity_greedy sim lambda query r0 r1 l :
  let results := r0 :: r1 :: l in
  let f := match sim with Some f => f | None => cosine end in
  exists out idxs value, diversity_rerank sim lambda query results = Ok out /\ picked results idxs out /\ length out = length results /\
  (forall taken c, mmr_value f lambda (fst r0) taken c (value taken c)) /\
  (forall n i j ci cj, nth_error idxs n = Some i -> nth_error results i = Some ci -> nth_error results j = Some cj -> ~ In j (firstn n idxs) ->
     flt (value (firstn n out) ci) (value (firstn n out) cj) = false \/
     (flt (f64_of_Z (-1)) (value (firstn n out) cj) = false /\ i <= j)).
Proof.
  cbv zeta. set (cs := r0 :: r1 :: l). set (f := match sim with Some f => f | None => cosine end).
  destruct (div_loop_spec (div_score f lambda (vec_of (fst r0))) cs (length cs) [] [] (seq 0 (length cs)) cs) as (idxs & A & B & C).
  - split; constructor.
  - split; [apply selection_refl|]. split; [apply seq_NoDup|]. intros i. rewrite in_seq. split; [intros; split; [lia|intros []]|intros [? _]; lia].
  - auto.
  - apply seq_sorted.
  - intros [|n] i j ci cj H; discriminate.
  - eexists. exists idxs, (div_score f lambda (vec_of (fst r0))). split; [reflexivity|]. split; [exact A|]. split; [exact B|]. split; [|exact C].
    intros. apply div_score_spec.
Qed.
