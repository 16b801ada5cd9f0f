(** Proofs about StreamModel.v. *)
From Coq Require Import String List NArith ZArith Bool Arith Lia Permutation Sorted.
From Coq Require Import Floats.SpecFloat.
From Verif Require Import Base Floats64 TopK EncodingModel DimensionModel StoreModel StoreSpec StoreProofs SearchModel SearchSpec StreamModel StreamSpec.
Import ListNotations.
Open Scope string_scope.
Open Scope list_scope.

(** *** first occurrences *)
Lemma firsts_in l x : In x (firsts l) -> In x l.
Proof.
  revert x. induction l as [|y l IH]; intros x H; [auto|]. destruct H as [H|H]; [left; auto|right]. apply filter_In in H as [H _]. auto.
Qed.
Lemma firsts_ids l id : In id (map (fun r => e_id (fst r)) (firsts l)) <-> In id (map (fun r => e_id (fst r)) l).
Proof.
  induction l as [|y l IH]; [tauto|]. cbn [firsts map In]. split.
  - intros [H|H]; [auto|]. apply in_map_iff in H as (z & <- & Hz). apply filter_In in Hz as [Hz _]. right. apply IH. apply (in_map (fun r => e_id (fst r))); auto.
  - intros [H|H]; [auto|]. destruct (String.eqb_spec (e_id (fst y)) id) as [E|E]; [auto|]. right. apply IH in H. apply in_map_iff in H as (z & <- & Hz).
    apply (in_map (fun r => e_id (fst r))). apply filter_In. split; auto. destruct (String.eqb_spec (e_id (fst z)) (e_id (fst y))); [congruence|reflexivity].
Qed.
Lemma firsts_NoDup l : NoDup (map (fun r => e_id (fst r)) (firsts l)).
Proof.
  induction l as [|y l IH]; cbn [firsts map]; constructor.
  - rewrite in_map_iff. intros (z & E & Hz). apply filter_In in Hz as [_ Hz]. rewrite E, String.eqb_refl in Hz. discriminate.
  - apply NoDup_map_filter. exact IH.
Qed.
Lemma firsts_snoc_new l r : ~ In (e_id (fst r)) (map (fun r => e_id (fst r)) l) -> firsts (l ++ [r]) = firsts l ++ [r].
Proof.
  induction l as [|y l IH]; intros H; [reflexivity|]. cbn [app firsts]. rewrite IH by (intros G; apply H; right; auto). rewrite filter_app. cbn [filter].
  destruct (String.eqb_spec (e_id (fst r)) (e_id (fst y))) as [E|E]; [exfalso; apply H; left; auto|]. reflexivity.
Qed.
Lemma firsts_snoc_old l r : In (e_id (fst r)) (map (fun r => e_id (fst r)) l) -> firsts (l ++ [r]) = firsts l.
Proof.
  induction l as [|y l IH]; intros H; [destruct H|]. cbn [app firsts]. f_equal.
  destruct (in_dec string_dec (e_id (fst r)) (map (fun r => e_id (fst r)) l)) as [Hin|Hin]; [rewrite IH; auto|].
  rewrite (firsts_snoc_new l r Hin), filter_app. cbn [filter]. destruct H as [H|H]; [|contradiction]. rewrite H, String.eqb_refl. apply app_nil_r.
Qed.

(** *** keeping the k best *)
Lemma flt_through a b c : not_nan b -> flt a b = false -> flt b c = false -> flt a c = false.
Proof.
  intros Hb H1 H2. destruct (is_nanb a) eqn:Na; [destruct a; try discriminate; reflexivity|].
  destruct (is_nanb c) eqn:Nc; [destruct c; try discriminate; destruct a as [[]|[]| |[] ? ?]; reflexivity|].
  apply flt_ntrans with (b := b); auto; intros ->; discriminate.
Qed.
Section Collect.
Variable srt : list scored -> list scored.
Hypothesis Hs : sort_ok by_score srt.

Lemma desc_order l : (forall r : scored, In r l -> not_nan (snd r)) -> weak_order_on by_score l.
Proof. intros H. apply (weak_order_desc (fun x : scored => snd x)). exact H. Qed.
Lemma by_score_trans_false (x y z : scored) : not_nan (snd y) -> by_score x y = false -> by_score y z = false -> by_score x z = false.
Proof. unfold by_score, fgt. intros Hn H1 H2. exact (flt_through _ _ _ Hn H2 H1). Qed.

Lemma grow_topk k all out r : is_topk by_score k all out -> length out < k -> (forall x, In x (all ++ [r]) -> not_nan (snd x)) ->
  is_topk by_score k (all ++ [r]) (srt (out ++ [r])) /\ length (srt (out ++ [r])) = S (length out).
Proof.
  intros (rest & P & L & _ & _) Hlt Hn. destruct (Hs (out ++ [r])) as [Ps Ss].
  assert (rest = []). { pose proof (Permutation_length P) as PL. rewrite app_length in PL. apply length_zero_iff_nil. lia. } subst rest. rewrite app_nil_r in P.
  assert (W : weak_order_on by_score (out ++ [r])).
  { apply desc_order. intros x Hx. apply Hn. apply in_app_or in Hx as [Hx|Hx]; apply in_or_app; auto. left. apply (Permutation_in _ (Permutation_sym P)). auto. }
  assert (Len : length (srt (out ++ [r])) = S (length out)) by (rewrite <- (Permutation_length Ps), app_length; cbn; lia).
  split; [|exact Len]. exists []. rewrite app_nil_r. split; [|split; [|split]].
  - eapply perm_trans; [|exact Ps]. apply Permutation_app_tail. exact P.
  - rewrite Len, app_length, (Permutation_length P). cbn. lia.
  - apply Ss. exact W.
  - intros x y _ [].
Qed.
Lemma sorted_last (l : list scored) n z : sorted_by by_score l -> nth_error l n = Some z -> length l = S n -> forall x, In x l -> by_score z x = false.
Proof.
  intros S. revert n. induction S as [|y l Hl IH HF]; intros n Hz Hlen x Hx; [destruct Hx|].
  destruct n as [|n]; cbn in Hz, Hlen.
  - injection Hz as ->. assert (l = []) by (apply length_zero_iff_nil; lia). subst. destruct Hx as [<-|[]]. unfold by_score, fgt. apply flt_irrefl.
  - rewrite Forall_forall in HF. destruct Hx as [<-|Hx]; [apply HF; eapply nth_error_In; eauto|]. apply (IH n); auto.
Qed.
Lemma split_last {A} (l : list A) n z : nth_error l n = Some z -> length l = S n -> l = firstn n l ++ [z].
Proof.
  revert n. induction l as [|y l IH]; intros n Hz Hlen; [destruct n; discriminate|]. destruct n as [|n]; cbn in *.
  - injection Hz as ->. f_equal. apply length_zero_iff_nil. lia.
  - f_equal. apply IH; auto.
Qed.
Lemma keep_topk k all out r z : is_topk by_score k all out -> length out = k -> nth_error out (k - 1) = Some z ->
  (forall x, In x (all ++ [r]) -> not_nan (snd x)) -> fgt (snd r) (snd z) = false -> is_topk by_score k (all ++ [r]) out.
Proof.
  intros (rest & P & L & So & B) Hk Hz Hn Hr. assert (0 < k) by (destruct k; [destruct out; discriminate|lia]).
  exists (rest ++ [r]). split; [|split; [|split]]; auto.
  - rewrite app_assoc. apply Permutation_app_tail. exact P.
  - rewrite app_length. cbn. lia.
  - intros x y Hx Hy. apply in_app_or in Hy as [Hy|[<-|[]]]; [auto|].
    assert (Hzx : by_score z x = false) by (apply (sorted_last out (k - 1)); auto; lia).
    eapply by_score_trans_false with (y := z); auto. apply Hn. apply in_or_app. left. apply (Permutation_in _ (Permutation_sym P)). apply in_or_app. left. eapply nth_error_In; eauto.
Qed.
Lemma replace_topk k all out r z : is_topk by_score k all out -> length out = k -> nth_error out (k - 1) = Some z ->
  (forall x, In x (all ++ [r]) -> not_nan (snd x)) -> fgt (snd r) (snd z) = true ->
  is_topk by_score k (all ++ [r]) (srt (update_at (k - 1) r out)) /\ length (srt (update_at (k - 1) r out)) = k.
Proof.
  intros (rest & P & L & So & B) Hk Hz Hn Hr. assert (Hpos : 0 < k) by (destruct k; [destruct out; discriminate|lia]).
  assert (Eu : update_at (k - 1) r out = firstn (k - 1) out ++ [r]).
  { unfold update_at. rewrite Hz. replace (skipn (S (k - 1)) out) with (@nil scored); auto. symmetry. apply skipn_all2. lia. }
  rewrite Eu. pose proof (split_last out (k - 1) z Hz ltac:(lia)) as Eo. set (l0 := firstn (k - 1) out) in *.
  assert (Hl0 : length l0 = k - 1) by (unfold l0; rewrite firstn_length; lia).
  assert (Hall : forall x, In x (out ++ rest) -> not_nan (snd x)).
  { intros x Hx. apply Hn. apply in_or_app. left. apply (Permutation_in _ (Permutation_sym P)). exact Hx. }
  assert (Hnr : not_nan (snd r)) by (apply Hn; apply in_or_app; right; left; auto).
  destruct (Hs (l0 ++ [r])) as [Ps Ss].
  assert (W : weak_order_on by_score (l0 ++ [r])).
  { apply desc_order. intros x Hx. apply in_app_or in Hx as [Hx|[<-|[]]]; auto. apply Hall. apply in_or_app. left. rewrite Eo. apply in_or_app. auto. }
  assert (Len : length (srt (l0 ++ [r])) = k) by (rewrite <- (Permutation_length Ps), app_length, Hl0; cbn; lia).
  assert (Hz' : forall x, In x out -> by_score z x = false) by (intros x Hx; apply (sorted_last out (k - 1)); auto; lia).
  assert (Hzn : not_nan (snd z)) by (apply Hall; apply in_or_app; left; eapply nth_error_In; eauto).
  assert (Hrz : by_score z r = false) by (unfold by_score; apply flt_asym; exact Hr).
  split; [|exact Len]. exists (z :: rest). split; [|split; [|split]].
  - eapply perm_trans; [apply Permutation_app_tail; exact P|]. rewrite Eo. rewrite <- !app_assoc. cbn [app].
    eapply perm_trans; [|apply Permutation_app_tail; exact Ps]. rewrite <- app_assoc. cbn [app]. apply Permutation_app_head.
    eapply perm_trans; [apply perm_skip; apply Permutation_app_comm|]. cbn. apply perm_swap.
  - rewrite Len, app_length. cbn. lia.
  - apply Ss. exact W.
  - intros x y Hx Hy. apply (Permutation_in _ (Permutation_sym Ps)) in Hx.
    assert (Hzx : by_score z x = false).
    { apply in_app_or in Hx as [Hx|[<-|[]]]; auto. apply Hz'. rewrite Eo. apply in_or_app; auto. }
    destruct Hy as [<-|Hy]; auto. eapply by_score_trans_false with (y := z); auto. apply B; auto. eapply nth_error_In; eauto.
Qed.

(** What CollectTopKFromStream has read when it returns: everything, everything before
    the cancellation, or enough to have k results above 0.9. *)
Definition received (l : list (option scored)) : list scored := flat_map (fun x => match x with Some r => [r] | None => [] end) l.

Lemma collect_loop_spec k (Hk : (0 < k)%Z) : forall stream topk seen pre out b,
  is_topk by_score (Z.to_nat k) (firsts pre) topk ->
  (forall id, In id seen <-> In id (map (fun r => e_id (fst r)) pre)) ->
  (forall r, In (Some r) stream -> not_nan (snd r)) -> (forall r, In r pre -> not_nan (snd r)) ->
  collect_loop srt k topk seen stream = Ok (out, b) ->
  exists mid post, stream = map Some mid ++ post /\ is_topk by_score (Z.to_nat k) (firsts (pre ++ mid)) out /\
    ((b = false /\ post = []) \/ (b = true /\ exists post', post = None :: post') \/
     (b = false /\ length out = Z.to_nat k /\ forall x, In x out -> fgt (snd x) f_09 = true)).
Proof.
  induction stream as [|[r|] stream IH]; intros topk seen pre out b T Sn Nn Np H; cbn [collect_loop] in H.
  - injection H as <- <-. exists (@nil scored), []. rewrite (app_nil_r pre). split; [reflexivity|]. split; [exact T|]. left; auto.
  - assert (Hpre : forall x, In x (pre ++ [r]) -> not_nan (snd x)).
    { intros x Hx. apply in_app_or in Hx as [Hx|[<-|[]]]; auto. apply Nn. left; auto. }
    assert (Nn' : forall r, In (Some r) stream -> not_nan (snd r)) by (intros; apply Nn; right; auto).
    assert (Step : forall topk' seen', is_topk by_score (Z.to_nat k) (firsts (pre ++ [r])) topk' ->
       (forall id, In id seen' <-> In id (map (fun r => e_id (fst r)) (pre ++ [r]))) ->
       collect_loop srt k topk' seen' stream = Ok (out, b) ->
       exists mid post, Some r :: stream = map Some mid ++ post /\ is_topk by_score (Z.to_nat k) (firsts (pre ++ mid)) out /\
        ((b = false /\ post = []) \/ (b = true /\ exists post', post = None :: post') \/ (b = false /\ length out = Z.to_nat k /\ forall x, In x out -> fgt (snd x) f_09 = true))).
    { intros topk' seen' T' S' H'. destruct (IH topk' seen' (pre ++ [r]) out b T' S' Nn' Hpre H') as (mid & post & E & T2 & R).
      exists (r :: mid), post. cbn. rewrite E. rewrite <- app_assoc in T2. auto. }
    destruct (mem (e_id (fst r)) seen) eqn:M.
    + apply mem_In in M. apply Sn in M as M'. apply (Step topk seen); auto; [rewrite firsts_snoc_old; auto|].
      intros id. rewrite Sn, map_app, in_app_iff. cbn. intuition congruence.
    + assert (Hnew : ~ In (e_id (fst r)) (map (fun r => e_id (fst r)) pre)) by (rewrite <- Sn, <- mem_In; congruence).
      assert (Snew : forall id, In id (e_id (fst r) :: seen) <-> In id (map (fun r => e_id (fst r)) (pre ++ [r]))).
      { intros id. rewrite map_app, in_app_iff. cbn. rewrite Sn. tauto. }
      assert (Hfn : forall x, In x (firsts pre ++ [r]) -> not_nan (snd x)).
      { intros x Hx. rewrite <- firsts_snoc_new in Hx by auto. apply firsts_in in Hx. auto. }
      assert (Next : exists topk', is_topk by_score (Z.to_nat k) (firsts (pre ++ [r])) topk' /\ 
         next_topk srt k topk r = Some topk').
      { rewrite firsts_snoc_new by auto. unfold next_topk. destruct (Z.ltb_spec (Z.of_nat (length topk)) k) as [C|C].
        - eexists. split; [|reflexivity]. apply grow_topk; auto. lia.
        - assert (L : length topk = Z.to_nat k). { destruct T as (rest & P & L & _). lia. }
          unfold last_kept. replace (k <=? 0)%Z with false by lia.
          destruct (nth_error topk (Z.to_nat (k - 1))) as [z|] eqn:Ez; [|apply nth_error_None in Ez; lia].
          replace (Z.to_nat (k - 1)) with (Z.to_nat k - 1) in * by lia. destruct (fgt (snd r) (snd z)) eqn:G.
          + eexists. split; [|reflexivity]. apply (replace_topk (Z.to_nat k) (firsts pre) topk r z); auto.
          + eexists. split; [|reflexivity]. apply (keep_topk (Z.to_nat k) (firsts pre) topk r z); auto. }
      destruct Next as (topk' & T' & E). cbv zeta in H. rewrite E in H.
      destruct (Z.eqb_spec (Z.of_nat (length topk')) k) as [L|L]; [|apply (Step topk' _ T' Snew H)].
      unfold last_kept in H. replace (k <=? 0)%Z with false in H by lia.
      destruct (nth_error topk' (Z.to_nat (k - 1))) as [z|] eqn:Ez; [|discriminate].
      destruct (fgt (snd z) f_09) eqn:G; [|apply (Step topk' _ T' Snew H)].
      injection H as <- <-. exists [r], stream. split; [reflexivity|]. split; [exact T'|]. right. right. split; auto. split; [lia|].
      destruct T' as (rest & P & _ & So & _). intros x Hx. pose proof (sorted_last topk' _ z So Ez ltac:(lia) x Hx) as Hzx. unfold by_score in Hzx.
      destruct (fgt (snd x) f_09) eqn:Gx; auto. exfalso. change (flt f_09 (snd x) = false) in Gx. change (flt f_09 (snd z) = true) in G. change (flt (snd x) (snd z) = false) in Hzx.
      assert (not_nan (snd x)). { apply Hpre. apply firsts_in. apply (Permutation_in _ (Permutation_sym P)). apply in_or_app; auto. }
      assert (flt f_09 (snd z) = false); [|congruence]. apply flt_through with (b := snd x); auto.
  - injection H as <- <-. exists (@nil scored), (None :: stream). rewrite (app_nil_r pre). split; auto. split; auto. right. left. eauto.
Qed.
End Collect.

(** CollectTopKFromStream does not panic for positive k. *)
Lemma collect_loop_ok srt (Hs : sort_ok by_score srt) k (Hk : (0 < k)%Z) : forall stream topk seen, length topk <= Z.to_nat k ->
  exists out b, collect_loop srt k topk seen stream = Ok (out, b).
Proof.
  induction stream as [|[r|] stream IH]; intros topk seen L; cbn [collect_loop]; [eauto| |eauto].
  destruct (mem (e_id (fst r)) seen); [auto|].
  assert (Next : exists topk', next_topk srt k topk r = Some topk' /\ length topk' <= Z.to_nat k).
  { unfold next_topk. destruct (Z.ltb_spec (Z.of_nat (length topk)) k) as [C|C].
    - eexists. split; [reflexivity|]. rewrite <- (Permutation_length (proj1 (Hs _))), app_length. cbn. lia.
    - unfold last_kept. replace (k <=? 0)%Z with false by lia.
      destruct (nth_error topk (Z.to_nat (k - 1))) as [z|] eqn:Ez; [|apply nth_error_None in Ez; lia].
      destruct (fgt (snd r) (snd z)); eexists; (split; [reflexivity|]); auto.
      rewrite <- (Permutation_length (proj1 (Hs _))). unfold update_at. rewrite Ez, app_length, firstn_length. cbn [length]. rewrite skipn_length. lia. }
  destruct Next as (topk' & -> & L').
  destruct (Z.eqb_spec (Z.of_nat (length topk')) k) as [E|E]; [|auto].
  unfold last_kept. replace (k <=? 0)%Z with false by lia.
  destruct (nth_error topk' (Z.to_nat (k - 1))) as [z|] eqn:Ez; [|apply nth_error_None in Ez; lia]. destruct (fgt (snd z) f_09); eauto.
Qed.

(** *** sublists *)
Lemma sublist_refl {A} (l : list A) : sublist l l.
Proof. induction l; constructor; auto. Qed.
Lemma sublist_app {A} (a a' b b' : list A) : sublist a a' -> sublist b b' -> sublist (a ++ b) (a' ++ b').
Proof.
  intros H Hb. induction H as [l|x l l' H IH|x l l' H IH]; cbn; [|constructor; auto|constructor; auto].
  induction l as [|x l IH]; cbn; [auto|constructor; auto].
Qed.
Lemma sublist_in {A} (l l' : list A) x : sublist l l' -> In x l -> In x l'.
Proof. induction 1 as [l|y l l' H IH|y l l' H IH]; cbn; [tauto| |]; intuition. Qed.
Lemma sublist_NoDup {A B} (f : A -> B) (l l' : list A) : sublist l l' -> NoDup (map f l') -> NoDup (map f l).
Proof.
  induction 1 as [l|y l l' H IH|y l l' H IH]; intros N; cbn in *; [constructor| |]; inversion N as [|? ? Hy N']; subst; auto.
  constructor; auto. intros Hin. apply Hy. apply in_map_iff in Hin as (z & E & Hz). rewrite <- E. apply in_map. eapply sublist_in; eauto.
Qed.

(** *** sending *)
Lemma send_batch_sub fate o enough rs : forall n out n' stop, send_batch fate o enough n rs = (out, n', stop) -> sublist out rs.
Proof.
  induction rs as [|r rs IH]; intros n out n' stop H; cbn [send_batch] in H; [injection H as <- <- <-; constructor|].
  destruct (fate n).
  - destruct (so_early o && fge (snd r) (so_quality o) && enough); [injection H as <- <- <-; repeat constructor|].
    destruct (send_batch fate o enough (S n) rs) as [[out' n''] stop'] eqn:E. injection H as <- <- <-. constructor. eapply IH; eauto.
  - injection H as <- <- <-. constructor.
  - constructor. eapply IH; eauto.
Qed.
Lemma send_batch_all fate o enough rs : (forall n, fate n = Sent) -> forall n out n' stop, send_batch fate o enough n rs = (out, n', stop) ->
  let halt (r : scored) := so_early o && fge (snd r) (so_quality o) && enough in
  (stop = false /\ out = rs /\ forall r, In r out -> halt r = false) \/
  (stop = true /\ exists out' r, out = out' ++ [r] /\ halt r = true /\ forall r, In r out' -> halt r = false).
Proof.
  intros F. induction rs as [|r rs IH]; intros n out n' stop H; cbn [send_batch] in H; cbv zeta in *.
  { injection H as <- <- <-. left. split; auto. split; auto. intros r []. }
  rewrite F in H. destruct (so_early o && fge (snd r) (so_quality o) && enough) eqn:C.
  - injection H as <- <- <-. right. split; auto. exists [], r. split; auto. split; auto. intros x [].
  - destruct (send_batch fate o enough (S n) rs) as [[out' n''] stop'] eqn:E. injection H as <- <- <-.
    destruct (IH _ _ _ _ E) as [(-> & -> & A)|(-> & o2 & r2 & -> & D & A)].
    + left. split; auto. split; auto. intros x [<-|Hx]; auto.
    + right. split; auto. exists (r :: o2), r2. split; auto. split; auto. intros x [<-|Hx]; auto.
Qed.

Lemma skipn_twice {A} (l : list A) : forall a b, skipn a (skipn b l) = skipn (b + a) l.
Proof. induction l as [|x l IH]; intros a b; [rewrite !skipn_nil; reflexivity|]. destruct b; [reflexivity|]. cbn. apply IH. Qed.
Lemma batch_size_pos o : 0 < batch_size o.
Proof. unfold batch_size. destruct (Z.leb_spec (so_batch o) 0); lia. Qed.

Lemma stream_loop_batches srt (Hs : sort_ok by_score srt) fate quit sc q o : forall fuel b i n cs,
  let out := stream_loop srt fate quit sc q o fuel b i n cs in
  StronglySorted le (map snd out) /\ (forall x, In x out -> b <= snd x) /\
  forall k, exists sorted, Permutation (map (scored_by sc q) (firstn (batch_size o) (skipn (k * batch_size o) cs))) sorted /\
    ((forall x, In x sorted -> not_nan (snd x)) -> best_first sorted) /\
    sublist (map fst (filter (fun x => Nat.eqb (snd x) (b + k)) out)) sorted.
Proof.
  induction fuel as [|fuel IH]; intros b i n cs; cbv zeta.
  { cbn. split; [constructor|]. split; [intros x []|]. intros k. destruct (Hs (map (scored_by sc q) (firstn (batch_size o) (skipn (k * batch_size o) cs)))) as [P S].
    eexists. split; [exact P|]. split; [|constructor]. intros Hn. apply S. apply desc_order. intros r Hr. apply Hn. apply (Permutation_in _ P). auto. }
  assert (Triv : StronglySorted le (map snd (@nil (scored * nat))) /\ (forall x : scored * nat, In x [] -> b <= snd x) /\ forall k, exists sorted, Permutation (map (scored_by sc q) (firstn (batch_size o) (skipn (k * batch_size o) cs))) sorted /\
    ((forall x, In x sorted -> not_nan (snd x)) -> best_first sorted) /\ sublist (map fst (filter (fun x : scored * nat => Nat.eqb (snd x) (b + k)) [])) sorted).
  { split; [constructor|]. split; [intros x []|]. intros k. destruct (Hs (map (scored_by sc q) (firstn (batch_size o) (skipn (k * batch_size o) cs)))) as [P S].
    eexists. split; [exact P|]. split; [|constructor]. intros Hn. apply S. apply desc_order. intros r Hr. apply Hn. apply (Permutation_in _ P). auto. }
  cbn [stream_loop]. destruct cs as [|c cs0] eqn:Ec; [exact Triv|]. rewrite <- Ec in *. destruct (quit b); [exact Triv|].
  set (batch := firstn (batch_size o) cs). set (rs := srt (map (scored_by sc q) batch)).
  destruct (send_batch fate o _ n rs) as [[out n'] stop] eqn:E. pose proof (send_batch_sub _ _ _ _ _ _ _ _ E) as Sub.
  set (tail := if stop then [] else _).
  assert (T : StronglySorted le (map snd tail) /\ (forall x, In x tail -> S b <= snd x) /\
     forall k, exists sorted, Permutation (map (scored_by sc q) (firstn (batch_size o) (skipn (k * batch_size o) (skipn (batch_size o) cs)))) sorted /\
      ((forall x, In x sorted -> not_nan (snd x)) -> best_first sorted) /\ sublist (map fst (filter (fun x => Nat.eqb (snd x) (S b + k)) tail)) sorted).
  { unfold tail. destruct stop; [|apply IH]. split; [constructor|]. split; [intros x []|]. intros k.
    destruct (Hs (map (scored_by sc q) (firstn (batch_size o) (skipn (k * batch_size o) (skipn (batch_size o) cs))))) as [P S].
    eexists. split; [exact P|]. split; [|constructor]. intros Hn. apply S. apply desc_order. intros r Hr. apply Hn. apply (Permutation_in _ P). auto. }
  destruct T as (T1 & T2 & T3). split; [|split].
  - clear -T1 T2. rewrite map_app, map_map. cbn [snd]. induction out as [|r out IHo]; cbn [map app]; [exact T1|]. constructor; auto.
    rewrite Forall_forall. intros x Hx. apply in_app_or in Hx as [Hx|Hx]; apply in_map_iff in Hx as (y & <- & Hy); auto. specialize (T2 y Hy). lia.
  - intros x Hx. apply in_app_or in Hx as [Hx|Hx]; [apply in_map_iff in Hx as (y & <- & _); auto|]. specialize (T2 x Hx). lia.
  - intros k. rewrite filter_app, map_app. destruct k as [|k].
    + destruct (Hs (map (scored_by sc q) batch)) as [P S]. exists rs. split; [exact P|]. split.
      * intros Hn. apply S. apply desc_order. intros r Hr. apply Hn. apply (Permutation_in _ P). auto.
      * rewrite (filter_none _ tail), app_nil_r. 2:{ intros x Hx. specialize (T2 x Hx). apply Nat.eqb_neq. lia. }
        rewrite filter_all. 2:{ intros x Hx. apply in_map_iff in Hx as (y & <- & _). cbn. apply Nat.eqb_eq. lia. }
        rewrite map_map. cbn. rewrite map_id. exact Sub.
    + destruct (T3 k) as (sorted & P & B & Sb). exists sorted. split; [|split; [exact B|]].
      * replace (skipn (S k * batch_size o) cs) with (skipn (k * batch_size o) (skipn (batch_size o) cs)); [exact P|]. rewrite skipn_twice. f_equal.
      * rewrite filter_none. 2:{ intros x Hx. apply in_map_iff in Hx as (y & <- & _). cbn. apply Nat.eqb_neq. lia. }
        cbn [map app]. replace (b + S k) with (S b + k) by lia. exact Sb.
Qed.

Lemma stream_loop_sub srt (Hs : sort_ok by_score srt) fate quit sc q o : forall fuel b i n cs,
  exists l, Permutation (map (scored_by sc q) cs) l /\ sublist (map fst (stream_loop srt fate quit sc q o fuel b i n cs)) l.
Proof.
  induction fuel as [|fuel IH]; intros b i n cs; [eexists; split; [apply Permutation_refl|constructor]|].
  cbn [stream_loop]. destruct cs as [|c cs0] eqn:Ec; [eexists; split; [apply Permutation_refl|constructor]|]. rewrite <- Ec.
  destruct (quit b); [eexists; split; [apply Permutation_refl|constructor]|].
  set (batch := firstn (batch_size o) cs). set (rs := srt (map (scored_by sc q) batch)).
  destruct (send_batch fate o _ n rs) as [[out n'] stop] eqn:E. pose proof (send_batch_sub _ _ _ _ _ _ _ _ E) as Sub.
  destruct (IH (S b) (i + length batch) n' (skipn (batch_size o) cs)) as (l & P & S).
  exists (rs ++ l). split.
  - rewrite <- (firstn_skipn (batch_size o) cs) at 1. rewrite map_app. apply Permutation_app; auto. apply (Hs (map (scored_by sc q) batch)).
  - rewrite map_app, map_map. cbn. rewrite map_id. apply sublist_app; auto. destruct stop; [constructor|exact S].
Qed.

Definition halts (o : stopts) (total : nat) (x : scored * nat) : bool :=
  so_early o && fge (snd (fst x)) (so_quality o) &&
  ((0 <? o_topk (so_opts o))%Z && (o_topk (so_opts o) <=? Z.of_nat (Nat.min ((snd x + 1) * batch_size o) total))%Z).
Lemma halts_iff o total x : halts o total x = true <-> ends_early o total x.
Proof.
  unfold halts, ends_early, batch_size. cbv zeta. rewrite !andb_true_iff. destruct (Z.leb_spec (so_batch o) 0); destruct (Z.ltb_spec 0 (so_batch o)); try lia.
  - rewrite Z.ltb_lt, Z.leb_le. tauto.
  - rewrite Z.ltb_lt, Z.leb_le. tauto.
Qed.
Lemma stream_loop_all srt (Hs : sort_ok by_score srt) fate quit sc q o total :
  (forall n, fate n = Sent) -> (forall b, quit b = false) -> forall fuel b i n cs, length cs <= fuel ->
  (cs <> [] -> i = b * batch_size o) -> i + length cs = total ->
  let out := stream_loop srt fate quit sc q o fuel b i n cs in
  (Permutation (map (scored_by sc q) cs) (map fst out) /\ forall x, In x out -> halts o total x = false) \/
  (exists out' x, out = out' ++ [x] /\ halts o total x = true /\ forall x, In x out' -> halts o total x = false).
Proof.
  intros F Q. induction fuel as [|fuel IH]; intros b i n cs Hl Hi Ht; cbv zeta.
  { destruct cs; [left; split; [constructor|intros x []]|cbn in Hl; lia]. }
  cbn [stream_loop]. destruct cs as [|c cs0] eqn:Ec; [left; split; [constructor|intros x []]|]. rewrite <- Ec in *. rewrite Q.
  specialize (Hi ltac:(rewrite Ec; discriminate)).
  set (batch := firstn (batch_size o) cs). set (rs := srt (map (scored_by sc q) batch)).
  set (enough := (0 <? o_topk (so_opts o))%Z && _).
  destruct (send_batch fate o enough n rs) as [[out n'] stop] eqn:E. pose proof (batch_size_pos o) as Hb.
  assert (Hlen : length batch + length (skipn (batch_size o) cs) = length cs) by (rewrite <- app_length; unfold batch; rewrite firstn_skipn; auto).
  assert (Hmin : i + length batch = Nat.min ((b + 1) * batch_size o) total). { unfold batch. rewrite firstn_length. rewrite Nat.mul_add_distr_r. lia. }
  assert (Hh : forall r, so_early o && fge (snd r) (so_quality o) && enough = halts o total (r, b)).
  { intros r. unfold halts, enough. cbn [fst snd]. rewrite Hmin. reflexivity. }
  destruct (send_batch_all _ _ _ _ F _ _ _ _ E) as [(-> & -> & A)|(-> & o2 & r2 & -> & D & A)].
  - assert (Hl' : length (skipn (batch_size o) cs) <= fuel). { rewrite skipn_length. assert (length cs = S (length cs0)) by (rewrite Ec; reflexivity). lia. }
    assert (A' : forall x, In x (map (fun r => (r, b)) rs) -> halts o total x = false). { intros x Hx. apply in_map_iff in Hx as (r & <- & Hr). rewrite <- Hh. auto. }
    destruct (IH (S b) (i + length batch) n' (skipn (batch_size o) cs) Hl') as [[P B]|(o2 & x2 & E2 & D & B)].
    + intros Hne. unfold batch. rewrite firstn_length. assert (batch_size o < length cs); [|lia].
      destruct (Nat.lt_ge_cases (batch_size o) (length cs)); auto. rewrite skipn_all2 in Hne by lia. congruence.
    + lia.
    + left. split.
      * rewrite <- (firstn_skipn (batch_size o) cs) at 1. rewrite !map_app, map_map. cbn. rewrite map_id. apply Permutation_app; auto.
        apply (Hs (map (scored_by sc q) batch)).
      * intros x Hx. apply in_app_or in Hx as [Hx|Hx]; auto.
    + right. rewrite E2. exists (map (fun r => (r, b)) rs ++ o2), x2. rewrite app_assoc. split; auto. split; auto. intros x Hx. apply in_app_or in Hx as [Hx|Hx]; auto.
  - right. exists (map (fun r => (r, b)) o2), (r2, b). rewrite map_app, app_nil_r. split; auto. rewrite <- Hh. split; auto.
    intros x Hx. apply in_map_iff in Hx as (r & <- & Hr). rewrite <- Hh. auto.
Qed.

(** *** merging *)
Lemma update_at_nth {A} i (x : A) l : forall j, nth_error (update_at i x l) j = if Nat.eqb j i then (match nth_error l i with Some _ => Some x | None => None end) else nth_error l j.
Proof.
  intros j. unfold update_at. destruct (nth_error l i) as [y|] eqn:E.
  - assert (Hi : i < length l) by (apply nth_error_Some; rewrite E; discriminate). destruct (Nat.eqb_spec j i) as [->|Hj].
    + rewrite nth_error_app2 by (rewrite firstn_length; lia). rewrite firstn_length. replace (i - Nat.min i (length l)) with 0 by lia. reflexivity.
    + destruct (Nat.lt_ge_cases j i).
      * rewrite nth_error_app1 by (rewrite firstn_length; lia). rewrite <- (firstn_skipn i l) at 2. rewrite nth_error_app1; auto. rewrite firstn_length. lia.
      * rewrite nth_error_app2 by (rewrite firstn_length; lia). rewrite firstn_length. replace (j - Nat.min i (length l)) with (S (j - S i)) by lia. cbn [nth_error].
        rewrite <- (firstn_skipn (S i) l) at 2. rewrite nth_error_app2 by (rewrite firstn_length; lia). rewrite firstn_length. f_equal. lia.
  - destruct (Nat.eqb_spec j i) as [->|Hj]; auto.
Qed.
Definition merge_inv (channels : list (list scored)) (st : list forwarder * list (nat * scored)) : Prop :=
  (forall i c, nth_error channels i = Some c -> exists rest h, nth_error (fst st) i = Some (rest, h) /\
     c = from_channel i (snd st) ++ (match h with Some r => [r] | None => [] end) ++ rest) /\
  (forall p, In p (snd st) -> fst p < length channels) /\ length (fst st) = length channels.
Lemma from_channel_snoc i j r out : from_channel i (out ++ [(j, r)]) = from_channel i out ++ if Nat.eqb j i then [r] else [].
Proof. unfold from_channel. rewrite filter_app, map_app. cbn. destruct (Nat.eqb j i); reflexivity. Qed.
Lemma merge_step_inv channels st i : merge_inv channels st -> merge_inv channels (merge_step st i).
Proof.
  intros (A & B & L). unfold merge_step. destruct (nth_error (fst st) i) as [[rest [r|]]|] eqn:E; [| |split; auto].
  - assert (Hi : i < length channels) by (rewrite <- L; apply nth_error_Some; rewrite E; discriminate).
    split; [|split]; cbn [fst snd].
    + intros j c Hc. destruct (A j c Hc) as (rest' & h & E' & Ec). destruct (Nat.eqb_spec j i) as [->|Hj].
      * rewrite E in E'. injection E' as <- <-. exists rest, None. rewrite update_at_nth, E, from_channel_snoc, Nat.eqb_refl. split; auto. rewrite Ec, <- app_assoc. reflexivity.
      * exists rest', h. rewrite update_at_nth, from_channel_snoc. rewrite (Nat.eqb_sym i j). destruct (Nat.eqb_spec j i); [contradiction|]. split; auto. rewrite app_nil_r. exact Ec.
    + intros p Hp. apply in_app_or in Hp as [Hp|[<-|[]]]; auto.
    + unfold update_at. rewrite E. rewrite app_length, firstn_length. cbn [length]. rewrite skipn_length. lia.
  - destruct rest as [|r rest]; [split; auto|]. assert (Hi : i < length channels) by (rewrite <- L; apply nth_error_Some; rewrite E; discriminate).
    split; [|split]; cbn [fst snd]; auto.
    + intros j c Hc. destruct (A j c Hc) as (rest' & h & E' & Ec). destruct (Nat.eqb_spec j i) as [->|Hj].
      * rewrite E in E'. injection E' as <- <-. exists rest, (Some r). rewrite update_at_nth, E, Nat.eqb_refl. split; auto.
      * exists rest', h. rewrite update_at_nth. destruct (Nat.eqb_spec j i); [contradiction|]. auto.
    + unfold update_at. rewrite E. rewrite app_length, firstn_length. cbn [length]. rewrite skipn_length. lia.
Qed.
Lemma merge_inv_run channels schedule : merge_inv channels (merge_streams channels schedule).
Proof.
  unfold merge_streams. assert (H0 : merge_inv channels (map (fun c => (c, None)) channels, [])).
  { split; [|split]; cbn [fst snd]; [|intros p []|apply map_length]. intros i c Hc. exists c, None. rewrite nth_error_map, Hc. auto. }
  revert H0. generalize (map (fun c : list scored => (c, @None scored)) channels, @nil (nat * scored)).
  induction schedule as [|i l IH]; intros st H; cbn; auto. apply IH. apply merge_step_inv. auto.
Qed.
