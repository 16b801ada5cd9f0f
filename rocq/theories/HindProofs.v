(** Proofs about the agent memory. *)
From Coq Require Import String Ascii List NArith ZArith Bool Lia Permutation Sorted.
From Coq Require Import Floats.SpecFloat.
From Verif Require Import Base Floats64 TopK EncodingModel DimensionModel StoreModel StoreSpec StoreInv StoreProofs SearchModel SearchSpec SearchProofs FilterModel
  AdvSearchModel AdvSearchSpec AdvSearchProofs GraphModel ChatModel ChatSpec RagModel RagSearchProofs HindModel HindSpec.
Import ListNotations.
Open Scope string_scope.
Open Scope list_scope.
Open Scope nat_scope.

(** *** Floats that are not negative *)
Definition nonneg (f : float) : Prop :=
  match f with S754_zero false | S754_infinity false | S754_finite false _ _ => True | _ => False end.
Lemma nonneg_not_nan f : nonneg f -> not_nan f.
Proof. destruct f; cbn; try tauto; intros; discriminate. Qed.
Lemma round_aux_nonneg prec emax m e l : (0 <= m)%Z -> nonneg (SpecFloat.binary_round_aux prec emax false m e l).
Proof.
  intros Hm. unfold SpecFloat.binary_round_aux.
  pose proof (shr_fexp_pos prec emax m e l Hm) as A. destruct (shr_fexp _ _ _ _ _) as [r1 e1]. cbn [fst] in A.
  assert (B : (0 <= round_nearest_even (shr_m r1) (loc_of_shr_record r1))%Z).
  { unfold round_nearest_even. destruct (loc_of_shr_record r1) as [|[]]; try lia. destruct (Z.even _); lia. }
  pose proof (shr_fexp_pos prec emax _ e1 loc_Exact B) as D. destruct (shr_fexp _ _ _ _ _) as [r2 e2]. cbn [fst] in D.
  destruct (shr_m r2); [exact Logic.I| |lia]. destruct (Z.leb _ _); exact Logic.I.
Qed.
Lemma round_nonneg prec emax m e : nonneg (SpecFloat.binary_round prec emax false m e).
Proof. unfold SpecFloat.binary_round. destruct (shl_align _ _ _) as [mz ez]. apply round_aux_nonneg. lia. Qed.
Lemma nonneg_add a b : nonneg a -> nonneg b -> nonneg (f64_add a b).
Proof.
  unfold f64_add. destruct a as [[]|[]| |[] m e]; cbn [nonneg]; try tauto; destruct b as [[]|[]| |[] m' e']; cbn [nonneg]; try tauto; intros _ _.
  all: unfold SFadd; try exact Logic.I.
  unfold SpecFloat.binary_normalize, cond_Zopp. cbn [Z.add]. apply round_nonneg.
Qed.
Lemma nonneg_of_Z z : (0 <= z)%Z -> nonneg (f64_of_Z z).
Proof.
  intros H. unfold f64_of_Z. unfold SpecFloat.binary_normalize. destruct z; try lia; [exact Logic.I|apply round_nonneg].
Qed.
Lemma nonneg_div a b : nonneg a -> nonneg b -> (b = S754_zero false -> a <> S754_zero false) -> (b = S754_infinity false -> a <> S754_infinity false) -> nonneg (f64_div a b).
Proof.
  unfold f64_div. destruct a as [[]|[]| |[] m e]; cbn [nonneg]; try tauto; destruct b as [[]|[]| |[] m' e']; cbn [nonneg]; try tauto; intros _ _ H1 H2.
  all: try (exfalso; apply H1; reflexivity); try (exfalso; apply H2; reflexivity).
  all: unfold SFdiv; cbn [xorb]; auto.
  destruct (SFdiv_core_binary _ _ _ _ _ _) as [[mz ez] lz] eqn:E. apply round_aux_nonneg.
  unfold SFdiv_core_binary in E. cbv zeta in E.
  destruct (Z.div_eucl _ _) as [q r] eqn:D in E. injection E as <- <- <-.
  match type of D with Z.div_eucl ?a ?b = _ => pose proof (Z_div_mod a b ltac:(lia)) as X; rewrite D in X; assert (0 <= a)%Z end.
  { match goal with |- (0 <= match ?x with _ => _ end)%Z => destruct x end; try lia. apply Z.shiftl_nonneg. lia. }
  destruct X as [X Y]. nia.
Qed.
Lemma dec7 : dec 7 10 = f64_div (f64_of_Z 7) (f64_of_Z 10).
Proof. reflexivity. Qed.
Lemma recip_nonneg n : nonneg (f64_div f_one (f64_add (f64_of_Z 60) (f64_of_Z (Z.of_nat n)))).
Proof.
  apply nonneg_div; try discriminate; [exact Logic.I|]. apply nonneg_add; [exact Logic.I|apply nonneg_of_Z; lia].
Qed.
Lemma recip_sum_nonneg {A} (g : A -> nat) l a : nonneg a ->
  nonneg (fold_left (fun a n => f64_add a (f64_div f_one (f64_add (f64_of_Z 60) (f64_of_Z (Z.of_nat (g n)))))) l a).
Proof. revert a. induction l as [|n l IH]; intros a H; cbn [fold_left]; auto. apply IH. apply nonneg_add; auto. apply recip_nonneg. Qed.

(** *** Texts *)
Lemma prefix_iff x s : String.prefix x s = true <-> exists b, s = (x ++ b)%string.
Proof.
  revert s. induction x as [|c x IH]; intros s.
  - split; [intros _; exists s; reflexivity|intros _; destruct s; reflexivity].
  - destruct s as [|d s]; [split; [discriminate|intros (b & H); discriminate]|].
    cbn [String.prefix]. destruct (ascii_dec c d) as [->|N].
    + rewrite IH. split; intros (b & H); exists b; [rewrite H; reflexivity|injection H; auto].
    + split; [discriminate|]. intros (b & [= H _]). congruence.
Qed.
Lemma contains_iff x s : contains x s = true <-> occurs x s.
Proof.
  induction s as [|c s IH].
  - cbn [contains]. rewrite orb_false_r, prefix_iff. split.
    + intros (b & H). exists "", b. exact H.
    + intros (a & b & H). destruct a; [exists b; exact H|discriminate].
  - cbn [contains]. rewrite orb_true_iff, prefix_iff, IH. split.
    + intros [(b & H)|(a & b & H)]; [exists "", b; exact H|exists (String c a), b; cbn; rewrite H; reflexivity].
    + intros ([|d a] & b & H); [left; exists b; exact H|right]. injection H as -> H. exists a, b. exact H.
Qed.
Lemma split_app a b : no_comma a -> split_comma (a ++ "," ++ b) = a :: split_comma b.
Proof.
  induction a as [|c a IH]; intros H; [reflexivity|].
  assert (N : no_comma a) by (intros x y ->; apply (H (String c x) y); reflexivity).
  change ((String c a ++ "," ++ b)%string) with (String c (a ++ "," ++ b)). cbn [split_comma].
  destruct (Ascii.eqb_spec c ",") as [->|N']; [exfalso; apply (H "" a); reflexivity|]. rewrite (IH N). reflexivity.
Qed.
Lemma split_none a : no_comma a -> split_comma a = [a].
Proof.
  induction a as [|c a IH]; intros H; [reflexivity|].
  assert (N : no_comma a) by (intros x y ->; apply (H (String c x) y); reflexivity).
  cbn [split_comma]. destruct (Ascii.eqb_spec c ",") as [->|N']; [exfalso; apply (H "" a); reflexivity|]. rewrite (IH N). reflexivity.
Qed.
Lemma split_concat l : l <> [] -> Forall no_comma l -> split_comma (String.concat "," l) = l.
Proof.
  induction l as [|x l IH]; [congruence|]. intros _ H. apply Forall_cons_iff in H as [H1 H2]. destruct l as [|y l]; [apply split_none; exact H1|].
  change (String.concat "," (x :: y :: l)) with (x ++ "," ++ String.concat "," (y :: l))%string. rewrite split_app by exact H1. rewrite IH; [reflexivity|discriminate|exact H2].
Qed.
Lemma concat_empty l : String.concat "," l = "" -> l = [] \/ l = [""].
Proof. destruct l as [|x [|y l]]; cbn; auto; [intros ->; auto|]. destruct x; discriminate. Qed.

(** *** Metadata *)
Lemma assoc_app_none {V} k (a b : list (string * V)) : assoc k a = None -> assoc k (a ++ b) = assoc k b.
Proof. induction a as [|[k' v] a IH]; cbn; auto. destruct (String.eqb k k'); [discriminate|auto]. Qed.
Lemma assoc_app_some {V} k v (a b : list (string * V)) : assoc k a = Some v -> assoc k (a ++ b) = Some v.
Proof. induction a as [|[k' v'] a IH]; cbn; [discriminate|]. destruct (String.eqb k k'); auto. Qed.
Lemma assoc_filter_other {V} k k' (l : list (string * V)) : k <> k' -> assoc k (filter (fun x => negb (String.eqb (fst x) k')) l) = assoc k l.
Proof.
  intros N. induction l as [|[a v] l IH]; cbn; auto. destruct (String.eqb_spec a k') as [->|N']; cbn.
  - rewrite IH. apply String.eqb_neq in N. rewrite N. reflexivity.
  - destruct (String.eqb k a); auto.
Qed.
Lemma assoc_filter_same {V} k (l : list (string * V)) : assoc k (filter (fun x => negb (String.eqb (fst x) k)) l) = None.
Proof.
  induction l as [|[a v] l IH]; cbn; auto. destruct (String.eqb_spec a k) as [->|N']; cbn; auto.
  destruct (String.eqb_spec k a); [congruence|auto].
Qed.
Lemma assoc_set m k k' v : assoc k (set_key m (k', v)) = if String.eqb k k' then Some v else assoc k m.
Proof.
  unfold set_key. cbn [fst]. destruct (String.eqb_spec k k') as [->|N].
  - rewrite assoc_app_none by apply assoc_filter_same. cbn. rewrite String.eqb_refl. reflexivity.
  - pose proof (assoc_filter_other k k' m N) as H. destruct (assoc k m) eqn:A.
    + erewrite assoc_app_some; eauto.
    + rewrite assoc_app_none by exact H. cbn. apply String.eqb_neq in N. rewrite N. reflexivity.
Qed.
Lemma assoc_sets k l : assoc k l = None -> forall m, assoc k (fold_left set_key l m) = assoc k m.
Proof.
  induction l as [|[a v] l IH]; cbn [fold_left assoc]; intros H m; auto. destruct (String.eqb_spec k a) as [->|N]; [discriminate|].
  rewrite (IH H), assoc_set. apply String.eqb_neq in N. rewrite N. reflexivity.
Qed.
Lemma assoc_sets_hit k l : NoDup (map fst l) -> forall v m, assoc k l = Some v -> assoc k (fold_left set_key l m) = Some v.
Proof.
  induction l as [|[a w] l IH]; cbn [fold_left assoc map fst]; intros N v m H; [discriminate|]. apply NoDup_cons_iff in N as [N1 N2].
  destruct (String.eqb_spec k a) as [->|Ne]; [|apply IH; auto]. injection H as ->. rewrite assoc_sets.
  - rewrite assoc_set, String.eqb_refl. reflexivity.
  - clear - N1. induction l as [|[b x] l IH]; cbn in *; auto. destruct (String.eqb_spec a b) as [->|]; [exfalso; apply N1; auto|]. apply IH. tauto.
Qed.

(** *** What searches return *)
Definition row_of (d : db) (e : embedding) : Prop :=
  exists r, In r (t_rows d) /\ e_id e = r_id r /\ e_content e = r_content r /\ e_meta e = r_meta r.
Lemma scan_row d r e : In r (t_rows d) -> scan_search d r = Ok e -> row_of d e.
Proof.
  intros H E. unfold scan_search in E. destruct (decode_vector (r_blob r)); cbn in E; try discriminate. injection E as <-. exists r. auto.
Qed.
Lemma search_from_rows I srt noise m sc (s : store I) q o out e x : sort_ok by_score srt -> search I srt noise m sc s q o = Ok out -> In (e, x) out ->
  row_of (st_db I s) e /\ matches_filter e (o_filter o) = true.
Proof.
  intros S H Hin. apply search_inv in H as (_ & w & _ & ->).
  destruct (search_core_cases I srt m sc s o w) as [E|(ids & E & _)]; rewrite E in Hin; clear E.
  - unfold search_linear, score_candidates in Hin. apply in_firstn in Hin. apply (Permutation_in _ (Permutation_sym (proj1 (S _)))) in Hin.
    assert (G : In (e, x) (map (fun e => (e, score sc o w e)) (fetch_candidates (st_db I s) o))).
    { destruct (fgt _ _); auto. apply filter_In in Hin. tauto. }
    apply in_map_iff in G as (e' & [= -> _] & G). unfold fetch_candidates in G. apply filter_In in G as [G1 G2]. split; auto.
    apply in_oks in G1. apply in_map_iff in G1 as (r & Er & Hr). apply filter_In in Hr as [Hr _]. eapply scan_row; eauto.
  - unfold process_candidates in Hin. apply in_firstn in Hin. apply (Permutation_in _ (Permutation_sym (proj1 (S _)))) in Hin.
    apply filter_In in Hin as [Hin _]. apply in_map_iff in Hin as (e' & [= -> _] & G). apply filter_In in G as [G1 G2]. apply andb_prop in G2 as [_ G2].
    split; auto. apply in_oks in G1. apply in_map_iff in G1 as (r & Er & Hr). apply filter_In in Hr as [Hr _]. eapply scan_row; eauto.
Qed.
Lemma add_hit_in e x l e' y : In (e', y) (add_hit e x l) -> e' = e \/ exists z, In (e', z) l.
Proof.
  induction l as [|[e0 y0] l IH]; cbn; [intros [[= <- _]|[]]; auto|].
  destruct (String.eqb (e_id e0) (e_id e)).
  - intros [[= -> _]|H]; right; eauto.
  - intros [[= -> _]|H]; [right; eauto|]. destruct (IH H) as [->|(z & Hz)]; eauto.
Qed.
Lemma vector_part_from k l : forall n e y, In (e, y) (vector_part k n l) -> exists z, In (e, z) l.
Proof.
  induction l as [|[e0 y0] l IH]; cbn; intros n e y; [tauto|]. intros [[= -> _]|H]; [eauto|]. destruct (IH _ _ _ H) as (z & Hz). eauto.
Qed.
Lemma fuse_from k d hits vres e x : In (e, x) (fuse k d hits vres) -> (exists z, In (e, z) vres) \/ row_of d e.
Proof.
  unfold fuse. assert (G : forall rows acc, (forall r, In r rows -> In r (t_rows d)) -> In (e, x) (fold_left (fun acc r => match rank_of hits (r_id r) 1 with
      Some n => add_hit (scan_fts d r) (recip k n) acc | None => acc end) rows acc) -> (exists z, In (e, z) acc) \/ row_of d e).
  { induction rows as [|r rows IH]; intros acc Hr H; cbn [fold_left] in H; [eauto|].
    destruct (IH _ (fun r' Hr' => Hr r' (or_intror Hr')) H) as [(z & Hz)|]; auto.
    destruct (rank_of hits (r_id r) 1); [|eauto]. apply add_hit_in in Hz as [->|]; auto.
    right. exists r. cbn. split; [apply Hr; left; reflexivity|auto]. }
  intros H. destruct (G _ _ (fun r H => H) H) as [(z & Hz)|]; auto. apply vector_part_from in Hz as (z' & Hz). eauto.
Qed.
Lemma hybrid_from_rows I srt shuffle noise m sc ft (s : store I) q text o k out e x : sort_ok by_score srt -> (forall l, Permutation l (shuffle l)) ->
  hybrid_search I srt shuffle noise m sc ft s q text o k = Ok out -> In (e, x) out -> row_of (st_db I s) e.
Proof.
  intros S P H Hin. unfold hybrid_search in H. destruct (st_closed I s); [discriminate|].
  destruct (match q with [] => Ok [] | _ => search I srt noise m sc s (Some q) o end) as [vres| |] eqn:V; cbn [bind] in H; try discriminate.
  injection H as <-.
  assert (G : forall l, In (e, x) (limit o l) -> In (e, x) l). { intros l. unfold limit. destruct (Z.ltb _ _); auto. apply in_firstn. }
  apply G in Hin. apply (Permutation_in _ (Permutation_sym (proj1 (S _)))) in Hin. apply (Permutation_in _ (Permutation_sym (P _))) in Hin.
  apply fuse_from in Hin as [(z & Hz)|]; auto. destruct q as [|q0 q]; [injection V as <-; destruct Hz|].
  eapply search_from_rows in V; eauto. tauto.
Qed.

(** *** What is stored *)
Section H.
Variable I : index_ops.
Variable F : formats.
Definition stored_as (m : memory) (r : row) : Prop :=
  r_id r = hm_id m /\ r_content r = hm_content m /\ r_meta r = Some (build_metadata F m (match hm_time m with Some t => t | None => 0%Z end)).
(** The rows are the last retained memories. *)
Definition rows_kept (d : db) (l : list memory) : Prop :=
  NoDup (map r_id (t_rows d)) /\
  (forall r, In r (t_rows d) -> exists m, last_memory (r_id r) l = Some m /\ stored_as m r) /\
  (forall id m, last_memory id l = Some m -> exists r, In r (t_rows d) /\ r_id r = id).
Lemma last_memory_app id a b : last_memory id (a ++ b) = match last_memory id b with Some m => Some m | None => last_memory id a end.
Proof. induction a as [|m a IH]; cbn; [destruct (last_memory id b); auto|]. rewrite IH. destruct (last_memory id b); auto. Qed.
Lemma last_memory_in id l m : last_memory id l = Some m -> In m l /\ hm_id m = id.
Proof.
  induction l as [|x l IH]; cbn; [discriminate|]. destruct (last_memory id l); [intros H; destruct (IH H); auto|].
  destruct (String.eqb_spec (hm_id x) id); [intros [= <-]; auto|discriminate].
Qed.
Lemma stamped_as ev m : stamped ev m = as_retained ev m.
Proof. reflexivity. Qed.
Lemma upsert_cases ev (s : store I) e s' r : upsert I ev s e = (s', r) ->
  (r = Ok tt /\ exists cid blob, t_rows (st_db I s') = StoreModel.put_row (make_row e cid blob) (t_rows (st_db I s))) \/ (r <> Ok tt /\ st_db I s' = st_db I s).
Proof.
  unfold upsert. destruct (st_closed I s); [intros [= <- <-]; right; split; [discriminate|auto]|].
  set (s1 := if Z.eqb (st_dim I s) 0 then _ else s). assert (D : st_db I s1 = st_db I s) by (unfold s1; destruct (Z.eqb _ _); reflexivity). clearbody s1.
  destruct (if Z.eqb _ _ then _ else _) as [v| |]; [|intros [= <- <-]; right; split; [discriminate|exact D]..].
  destruct (resolve_coll _ _) as [cid| |]; [|intros [= <- <-]; right; split; [discriminate|exact D]..].
  destruct (encode_vector v) as [blob| |]; [|intros [= <- <-]; right; split; [discriminate|exact D]..].
  destruct (ev_ok ev 0); [|intros [= <- <-]; right; split; [discriminate|exact D]].
  unfold insert_row. destruct (_ && _); [intros [= <- <-]; right; split; [discriminate|exact D]|].
  intros [= <- <-]. left. split; auto. exists cid, blob. cbn. rewrite D. reflexivity.
Qed.
Lemma put_row_rows r l : StoreModel.put_row r l = filter (fun x => negb (row_is (r_id r) x)) l ++ [r].
Proof. reflexivity. Qed.
Lemma retain_kept ev (y : sys I) m l : rows_kept (st_db I (sy_store y)) l ->
  rows_kept (st_db I (sy_store (fst (retain I F ev y m)))) (l ++ kept_one I F ev y m).
Proof.
  intros (N & A & B). unfold kept_one, retain. destruct (upsert I _ _ _) as [s' r] eqn:U. cbn [fst snd sy_store].
  apply upsert_cases in U as [(-> & cid & blob & E)|(Ne & E)].
  - set (new := make_row _ cid blob) in E. assert (Hid : r_id new = hm_id (as_retained ev m)) by reflexivity.
    unfold rows_kept. rewrite E, put_row_rows. set (id := hm_id (as_retained ev m)) in *.
    assert (K : forall x, In x (filter (fun x => negb (row_is (r_id new) x)) (t_rows (st_db I (sy_store y)))) <-> In x (t_rows (st_db I (sy_store y))) /\ r_id x <> id).
    { intros x. rewrite filter_In, Hid. unfold row_is. rewrite negb_true_iff, String.eqb_neq. reflexivity. }
    split; [|split].
    + rewrite map_app. apply NoDup_app_intro; [apply NoDup_map_filter; exact N|repeat constructor; auto|].
      intros z Hz Hz'. apply in_map_iff in Hz as (x & <- & Hx). apply K in Hx. destruct Hz' as [Hz'|[]]. rewrite Hid in Hz'. destruct Hx as [_ Hx]. congruence.
    + intros x Hx. rewrite last_memory_app. cbn [last_memory]. apply in_app_or in Hx as [Hx|[<-|[]]].
      * apply K in Hx as [Hx Hn]. destruct (A x Hx) as (m0 & A1 & A2). fold id. destruct (String.eqb_spec id (r_id x)); [congruence|]. eauto.
      * rewrite Hid. fold id. rewrite String.eqb_refl. eexists. split; [reflexivity|]. split; [reflexivity|]. split; reflexivity.
    + intros i0 m0. rewrite last_memory_app. cbn [last_memory]. fold id. destruct (String.eqb_spec id i0) as [<-|Hn].
      * intros _. exists new. split; [apply in_or_app; right; left; reflexivity|exact Hid].
      * intros H. destruct (B i0 m0 H) as (x & Hx & Hxi). exists x. split; auto. apply in_or_app. left. apply K. split; auto. congruence.
  - rewrite E. replace (match r with Ok _ => [as_retained ev m] | _ => [] end) with (@nil memory) by (destruct r as [[]| |]; congruence). rewrite app_nil_r. repeat split; auto.
Qed.
Lemma usable_same f : (String.eqb (hm_id f) "" || match hm_vec f with Some (_ :: _) => false | _ => true end) = negb (usable_b f).
Proof. unfold usable_b. destruct (String.eqb (hm_id f) ""); cbn; auto. destruct (hm_vec f) as [[|]|]; reflexivity. Qed.
Lemma retain_facts_kept b fs : forall ev (y : sys I) l, rows_kept (st_db I (sy_store y)) l ->
  rows_kept (st_db I (sy_store (fst (retain_facts I F ev y b fs)))) (l ++ kept_facts I F ev y b fs).
Proof.
  induction fs as [|f fs IH]; intros ev y l H; [cbn; rewrite app_nil_r; exact H|].
  cbn [retain_facts kept_facts]. rewrite usable_same. destruct (usable_b f); cbn [negb].
  - fold (of_bank b f). pose proof (retain_kept (ev 0) y (of_bank b f) l H) as K. unfold kept_one in *. destruct (retain I F (ev 0) y (of_bank b f)) as [y1 r]. cbn [fst snd] in *.
    rewrite app_assoc. specialize (IH (fun i => ev (S i)) y1 _ K). destruct (retain_facts I F (fun i => ev (S i)) y1 b fs) as [y' [[a b'] c]]. cbn [fst] in IH. destruct r; exact IH.
  - specialize (IH (fun i => ev (S i)) y l H). destruct (retain_facts I F (fun i => ev (S i)) y b fs) as [y' [[a b'] c]]. exact IH.
Qed.
Lemma open_sys_rows c dim p ev d g i y : open_sys I c dim p ev d g i = Ok y -> t_rows (st_db I (sy_store y)) = t_rows d.
Proof.
  unfold open_sys. destruct (open_store I dim p d i) as [s| |] eqn:O; cbn [bind]; try discriminate. intros [= <-]. cbn.
  assert (E : t_rows (st_db I s) = t_rows d). { unfold open_store in O. destruct (Z.ltb dim 0); [discriminate|]. injection O as <-. cbn. unfold init_db. destruct (existsb _ _); reflexivity. }
  rewrite <- E. destruct (find_coll (st_db I s) c); auto. unfold create_collection. destruct (st_closed I s); auto. destruct (find_coll (st_db I s) c); auto.
  destruct (Z.ltb dim 0); auto. destruct (negb (ev_ok (he_store ev) 0)); auto.
Qed.
Lemma hrun_kept h : forall y l, rows_kept (st_db I (sy_store y)) l -> rows_kept (st_db I (sy_store (hrun I F y h))) (l ++ retained I F y h).
Proof.
  induction h as [|[ev o] h IH]; intros y l H; cbn [hrun fold_left retained fst snd]; [rewrite app_nil_r; exact H|].
  rewrite app_assoc. apply IH. destruct o as [m|b fs|k b|id|c dim p i]; cbn [hstep].
  - apply retain_kept. exact H.
  - apply retain_facts_kept. exact H.
  - rewrite app_nil_r. unfold create_bank. destruct (existsb _ _); exact H.
  - rewrite app_nil_r. unfold delete_bank. destruct (existsb _ _); exact H.
  - rewrite app_nil_r. destruct (open_sys _ _ _ _ _ _ _ _) as [y'| |] eqn:O; auto. apply open_sys_rows in O. unfold rows_kept in *. rewrite O. exact H.
Qed.
Lemma new_kept y : new_system I y -> rows_kept (st_db I (sy_store y)) [].
Proof. intros (c & dim & p & ev & i & H). apply open_sys_rows in H. unfold rows_kept. rewrite H. cbn. split; [constructor|]. split; [tauto|discriminate]. Qed.
Lemma history_kept y h : new_system I y -> rows_kept (st_db I (sy_store (hrun I F y h))) (retained I F y h).
Proof. intros H. apply (hrun_kept h y []). apply new_kept. exact H. Qed.
End H.
