(** Proofs about packing and reranking of RagModel.v. *)
From Coq Require Import String Ascii List NArith ZArith Bool Arith Lia ZifyBool ZifyNat Permutation Sorted.
From Coq Require Import Floats.SpecFloat.
From Verif Require Import Base Floats64 TopK StoreModel SearchModel DiversityModel DiversitySpec DiversityProofs RerankProofs RagModel RagSpec.
Import ListNotations.
Open Scope list_scope.
Open Scope nat_scope.

(** *** defaults *)
Lemma def_chunks o : q_chunks (query_defaults o) = chunks_limit o.
Proof.
  unfold query_defaults, chunks_limit, topk_limit, related_limit, or_positive, topk_limit, or_positive. cbn.
  destruct (q_topk o <=? 0)%Z, (q_related o <? 0)%Z eqn:A, (q_related o <=? 0)%Z eqn:B, (q_chunks o <=? 0)%Z; try lia.
  all: destruct (q_related o =? 0)%Z eqn:C; cbn; try lia.
Qed.
Lemma def_related o : q_related (query_defaults o) = related_limit o.
Proof.
  unfold query_defaults, related_limit, topk_limit, or_positive, topk_limit, or_positive. cbn.
  destruct (q_topk o <=? 0)%Z, (q_related o <? 0)%Z eqn:A, (q_related o <=? 0)%Z eqn:B; try lia.
  all: destruct (q_related o =? 0)%Z eqn:C; cbn; try lia.
Qed.
Lemma def_chars o : q_chars (query_defaults o) = chars_limit o.
Proof. reflexivity. Qed.
Lemma def_doc o : q_perdoc (query_defaults o) = doc_limit o.
Proof. reflexivity. Qed.
Lemma limit_pos x d : (0 < d -> 0 < or_positive x d)%Z.
Proof. unfold or_positive. destruct (x <=? 0)%Z eqn:E; lia. Qed.
Lemma topk_pos o : (0 < topk_limit o)%Z. Proof. apply limit_pos. lia. Qed.
Lemma related_pos o : (0 < related_limit o)%Z. Proof. apply limit_pos, topk_pos. Qed.
Lemma chunks_pos o : (0 < chunks_limit o)%Z.
Proof. apply limit_pos. pose proof (topk_pos o). pose proof (related_pos o). lia. Qed.
Lemma doc_pos o : (0 < doc_limit o)%Z. Proof. apply limit_pos. lia. Qed.
Lemma fle_0 x : fle x f_zero = negb (flt f_zero x) && negb (is_nanb x).
Proof. destruct x as [[]|[]| |[] ? ?]; reflexivity. Qed.
Lemma def_lambda o : q_lambda (query_defaults o) = lambda_in_force o.
Proof.
  unfold query_defaults, lambda_in_force. cbn [q_lambda]. rewrite fle_0. set (x := q_lambda o).
  change (fgt x f_one) with (flt f_one x). change (f64_of_Z 1) with f_one.
  destruct (is_nanb x) eqn:N; [destruct x; try discriminate; reflexivity|].
  assert (not_nan x) by (intros Q; rewrite Q in N; discriminate).
  rewrite (fle_flt x f_one) by (auto; discriminate). destruct (flt f_zero x), (flt f_one x); reflexivity.
Qed.

(** *** marked *)
Lemma marked_app {A} k k' (l l' : list A) : length k = length l -> marked (k ++ k') (l ++ l') = marked k l ++ marked k' l'.
Proof.
  unfold marked. revert l. induction k as [|b k IH]; intros [|x l] H; try discriminate; [reflexivity|].
  cbn. destruct b; cbn; [f_equal|]; apply IH; cbn in H; lia.
Qed.
Lemma marked_cons {A} b k (x : A) l : marked (b :: k) (x :: l) = (if b then [x] else []) ++ marked k l.
Proof. destruct b; reflexivity. Qed.
Lemma marked_sub {A} k : forall (l : list A), subsequence (marked k l) l.
Proof.
  induction k as [|b k IH]; intros l; [constructor|]. destruct l as [|x l]; [constructor|]. rewrite marked_cons.
  destruct b; cbn [app]; [apply sub_take|apply sub_skip]; auto.
Qed.
Lemma marked_none {A} n : forall (l : list A), marked (repeat false n) l = [].
Proof. induction n as [|n IH]; intros [|x l]; auto. cbn [repeat]. rewrite marked_cons. cbn. apply IH. Qed.

Lemma total_app a b : total_weight (a ++ b) = (total_weight a + total_weight b)%Z.
Proof. unfold total_weight. induction a as [|c a IH]; [reflexivity|]. cbn in *. lia. Qed.
Lemma of_document_app d a b : of_document d (a ++ b) = of_document d a + of_document d b.
Proof. unfold of_document. rewrite filter_app, app_length. reflexivity. Qed.

Lemma pack_loop_spec o0 : let o := query_defaults o0 in forall cs taken docs chars,
  (forall d, d <> EmptyString -> count_occ string_dec docs d = of_document d taken) -> chars = total_weight taken ->
  exists keep, length keep = length cs /\ pack_loop o cs taken docs chars = taken ++ marked keep cs /\
    forall i c, nth_error cs i = Some c -> (nth_error keep i = Some true <-> admissible o0 (taken ++ marked (firstn i keep) (firstn i cs)) c).
Proof.
  intros o. induction cs as [|c cs IH]; intros taken docs chars Hd Hc.
  - exists []. split; auto. split; [cbn; rewrite app_nil_r; auto|]. intros [|i] c' H; discriminate.
  - cbn [pack_loop]. unfold o at 1. rewrite def_chunks.
    destruct (chunks_limit o0 <=? Z.of_nat (length taken))%Z eqn:E1.
    { exists (repeat false (length (c :: cs))). split; [apply repeat_length|]. split; [rewrite marked_none, app_nil_r; auto|].
      intros i c' _. split.
      - intros H. apply nth_error_In in H. apply repeat_spec in H. discriminate.
      - intros (H & _). rewrite app_length in H. lia. }
    unfold o at 1. rewrite def_doc.
    assert (Hskip : forall keep, length keep = length cs /\ pack_loop o cs taken docs chars = taken ++ marked keep cs /\
        (forall i c', nth_error cs i = Some c' -> (nth_error keep i = Some true <-> admissible o0 (taken ++ marked (firstn i keep) (firstn i cs)) c')) ->
        ~ admissible o0 taken c ->
        length (false :: keep) = length (c :: cs) /\ pack_loop o cs taken docs chars = taken ++ marked (false :: keep) (c :: cs) /\
        (forall i c', nth_error (c :: cs) i = Some c' -> (nth_error (false :: keep) i = Some true <-> admissible o0 (taken ++ marked (firstn i (false :: keep)) (firstn i (c :: cs))) c'))).
    { intros keep (L & P & A) Hn. split; [cbn; lia|]. split; [exact P|]. intros [|i] c' H; cbn in H.
      - injection H as <-. cbn. rewrite app_nil_r. split; [discriminate|tauto].
      - cbn [firstn nth_error]. rewrite marked_cons. apply A. exact H. }
    destruct (negb (String.eqb (c_doc c) "") && (doc_limit o0 <=? Z.of_nat (count_occ string_dec docs (c_doc c)))%Z) eqn:E2.
    { destruct (IH taken docs chars Hd Hc) as (keep & H). exists (false :: keep). apply Hskip; auto.
      intros (_ & D & _). apply andb_true_iff in E2 as [E2 E3]. apply negb_true_iff, String.eqb_neq in E2. rewrite Hd in E3 by auto. destruct D; [auto|lia]. }
    cbv zeta. unfold o at 1. rewrite def_chars.
    assert (Ew : (len (c_content c) + len (c_id c) + len (c_doc c) + 8)%Z = weight c) by (unfold len, weight; lia). rewrite Ew.
    destruct (negb match taken with [] => true | _ => false end && (chars_limit o0 <? chars + weight c)%Z) eqn:E3.
    { destruct (IH taken docs chars Hd Hc) as (keep & H). exists (false :: keep). apply Hskip; auto.
      intros (_ & _ & D). destruct taken; [discriminate|]. destruct D as [D|D]; [discriminate|]. subst chars. lia. }
    destruct (IH (taken ++ [c]) (if String.eqb (c_doc c) "" then docs else docs ++ [c_doc c]) (chars + weight c)%Z) as (keep & L & P & A).
    { intros d Hne. rewrite of_document_app, <- Hd by auto. unfold of_document. cbn [filter].
      destruct (String.eqb (c_doc c) "") eqn:Ee.
      - apply String.eqb_eq in Ee. rewrite Ee. destruct (String.eqb "" d) eqn:F; [apply String.eqb_eq in F; congruence|]. cbn. lia.
      - rewrite count_occ_app. cbn [count_occ]. destruct (string_dec (c_doc c) d) as [-> |Hx].
        + rewrite String.eqb_refl. reflexivity.
        + apply String.eqb_neq in Hx. rewrite Hx. reflexivity. }
    { rewrite total_app. cbn. lia. }
    exists (true :: keep). split; [cbn; lia|]. split; [rewrite P, marked_cons, <- app_assoc; reflexivity|].
    intros [|i] c' H; cbn in H.
    + injection H as <-. cbn. rewrite app_nil_r. split; [|auto]. intros _. split; [lia|]. split.
      * destruct (String.eqb (c_doc c) "") eqn:Ee; [left; apply String.eqb_eq; auto|right]. apply String.eqb_neq in Ee. rewrite Hd in E2 by auto. cbn in E2. lia.
      * destruct taken; [auto|right]. cbn [negb andb] in E3. lia.
    + cbn [firstn nth_error]. rewrite marked_cons. specialize (A i c' H). rewrite <- app_assoc in A. exact A.
Qed.
Lemma pack_packed o cs : packed o cs (pack (query_defaults o) cs).
Proof.
  destruct (pack_loop_spec o cs [] [] 0%Z) as (keep & L & P & A); [reflexivity|reflexivity|]. cbn [app] in *.
  exists keep. split; auto. split; auto. unfold pack. rewrite P. destruct cs as [|c cs].
  - destruct keep; [reflexivity|discriminate].
  - assert (H : nth_error keep 0 = Some true).
    { apply (A 0 c); [reflexivity|]. split; [cbn; pose proof (chunks_pos o); lia|]. split; [|left; reflexivity].
      destruct (string_dec (c_doc c) EmptyString); [auto|right]. cbn. pose proof (doc_pos o). lia. }
    destruct keep as [|b keep]; [discriminate|]. cbn in H. injection H as ->. rewrite marked_cons. reflexivity.
Qed.

Lemma firstn_exact {A} n (a b : list A) : length a = n -> firstn n (a ++ b) = a.
Proof. intros <-. rewrite firstn_app, Nat.sub_diag, firstn_all. cbn. apply app_nil_r. Qed.
Lemma nth_exact {A} (a : list A) x b : nth_error (a ++ x :: b) (length a) = Some x.
Proof. rewrite nth_error_app2, Nat.sub_diag by lia. reflexivity. Qed.
(** Bounds of a packed list. *)
Lemma packed_prefix o cs out : packed o cs out -> forall n c, nth_error out n = Some c -> admissible o (firstn n out) c.
Proof.
  intros (keep & L & -> & A).
  assert (G : forall pre prek l k, length prek = length pre -> length k = length l -> (forall i c, nth_error (pre ++ l) i = Some c ->
      (nth_error (prek ++ k) i = Some true <-> admissible o (marked (firstn i (prek ++ k)) (firstn i (pre ++ l))) c)) ->
      forall n c, nth_error (marked k l) n = Some c -> admissible o (marked prek pre ++ firstn n (marked k l)) c).
  { clear. intros pre prek l. revert pre prek. induction l as [|x l IH]; intros pre prek k Lp Lk A n c H.
    - destruct k; [|discriminate]. destruct n; discriminate.
    - destruct k as [|b k]; [discriminate|]. cbn in Lk.
      assert (IH' : forall n c, nth_error (marked k l) n = Some c -> admissible o (marked (prek ++ [b]) (pre ++ [x]) ++ firstn n (marked k l)) c).
      { apply (IH (pre ++ [x]) (prek ++ [b]) k); [rewrite !app_length; cbn; lia|lia|]. intros i c'. rewrite <- !app_assoc. cbn [app]. apply A. }
      rewrite marked_app in IH' by auto. rewrite marked_cons in *. cbn [marked combine filter map] in IH'. rewrite app_nil_r in IH'.
      destruct b; cbn [app] in *.
      + destruct n as [|n]; cbn in H.
        * injection H as <-. cbn [firstn]. rewrite app_nil_r. specialize (A (length pre) x).
          rewrite (nth_exact pre), <- Lp, (nth_exact prek), firstn_exact, Lp, firstn_exact in A by auto. apply A; reflexivity.
        * specialize (IH' n c H). cbn in IH'. rewrite <- app_assoc in IH'. exact IH'.
      + specialize (IH' n c H). cbn in IH'. rewrite app_nil_r in IH'. exact IH'. }
  intros n c H. apply (G [] [] cs keep); auto.
Qed.
Lemma packed_bounds o cs out : packed o cs out ->
  subsequence out cs /\ (Z.of_nat (length out) <= chunks_limit o)%Z /\
  (forall d, d <> EmptyString -> Z.of_nat (of_document d out) <= doc_limit o)%Z /\
  (length out <= 1 \/ (total_weight out <= chars_limit o)%Z).
Proof.
  intros P. split; [destruct P as (k & _ & -> & _); apply marked_sub|].
  pose proof (packed_prefix o cs out P) as A.
  assert (G : forall n, n <= length out -> let p := firstn n out in (Z.of_nat (length p) <= chunks_limit o)%Z /\
    (forall d, d <> EmptyString -> Z.of_nat (of_document d p) <= doc_limit o)%Z /\ (length p <= 1 \/ (total_weight p <= chars_limit o)%Z)).
  { induction n as [|n IH]; intros Hn p.
    - unfold p. cbn. pose proof (chunks_pos o). pose proof (doc_pos o). split; [lia|]. split; [intros; lia|left; lia].
    - destruct (nth_error out n) as [c|] eqn:E; [|apply nth_error_None in E; lia].
      assert (Ep : p = firstn n out ++ [c]).
      { unfold p. clear -E. revert out E. induction n as [|n IH]; intros [|x out] E; cbn in *; try discriminate; [congruence|]. f_equal. auto. }
      destruct (IH ltac:(lia)) as (I1 & I2 & I3). destruct (A n c E) as (A1 & A2 & A3). rewrite Ep. rewrite app_length. cbn [length]. split; [lia|]. split.
      + intros d Hd. rewrite of_document_app. unfold of_document at 2. cbn [filter]. destruct (String.eqb (c_doc c) d) eqn:F.
        * apply String.eqb_eq in F. subst d. destruct A2 as [A2|A2]; [congruence|]. cbn [length]. lia.
        * specialize (I2 d Hd). cbn. lia.
      + destruct A3 as [A3|A3]; [left; rewrite A3; cbn; lia|right]. rewrite total_app. cbn. lia. }
  specialize (G (length out) ltac:(lia)). cbv zeta in G. rewrite firstn_all in G. exact G.
Qed.

(** *** the context text *)
Lemma append_assoc_s a b c : ((a ++ b) ++ c)%string = (a ++ (b ++ c))%string.
Proof. induction a as [|x a IH]; cbn; [reflexivity|rewrite IH; reflexivity]. Qed.
Lemma append_length_s a b : String.length (a ++ b)%string = String.length a + String.length b.
Proof. induction a as [|x a IH]; cbn; [reflexivity|rewrite IH; reflexivity]. Qed.
Lemma context_line_spec c : context_line c = chunk_line c.
Proof.
  unfold context_line, chunk_line. destruct (c_doc c) as [|a d]; [reflexivity|]. cbn [String.eqb]. rewrite !append_assoc_s. reflexivity.
Qed.
Lemma build_context_spec cs : build_context cs = lines_of (map chunk_line cs).
Proof.
  unfold build_context. rewrite (map_ext _ _ context_line_spec). induction (map chunk_line cs) as [|l ls IH]; [reflexivity|].
  destruct ls; [reflexivity|]. cbn [String.concat lines_of] in *. rewrite IH. reflexivity.
Qed.
Lemma context_length cs : (Z.of_nat (String.length (lines_of (map chunk_line cs))) <= total_weight cs)%Z.
Proof.
  assert (L : forall c, (Z.of_nat (String.length (chunk_line c)) + 4 <= weight c)%Z).
  { intros c. unfold chunk_line, weight. destruct (c_doc c); rewrite ?append_length_s; cbn [String.length String.append]; rewrite ?append_length_s; cbn [String.length String.append]; rewrite ?append_length_s; cbn; lia. }
  unfold total_weight. induction cs as [|c cs IH]; [cbn; lia|]. cbn [map fold_right]. specialize (L c).
  destruct (map chunk_line cs) as [|l ls] eqn:E.
  - destruct cs; [cbn; lia|discriminate].
  - change (lines_of (chunk_line c :: l :: ls)) with (chunk_line c ++ String (ascii_of_nat 10) (lines_of (l :: ls)))%string.
    rewrite append_length_s. cbn [String.length]. lia.
Qed.

(** *** reranking *)
Section Rerank.
Variable tokens names : string -> list string.

Lemma token_set_spec t : distinct_words tokens t (token_set tokens t).
Proof.
  split; [apply NoDup_nodup|]. intros w. unfold token_set. rewrite nodup_In, filter_In. rewrite negb_true_iff, Nat.ltb_ge. tauto.
Qed.
Lemma overlap_spec s t : word_overlap tokens s t (overlap_score (token_set tokens s) (token_set tokens t)).
Proof.
  set (a := token_set tokens s). set (b := token_set tokens t).
  exists a, b, (filter (fun k => if in_dec string_dec k b then true else false) a).
  split; [apply token_set_spec|]. split; [apply token_set_spec|]. split; [apply NoDup_filter, NoDup_nodup|]. split.
  - intros w. rewrite filter_In. destruct (in_dec string_dec w b) as [H|H]; split; intros [H1 H2]; try discriminate; auto.
  - unfold overlap_score. clearbody a b. destruct a as [|x a]; [reflexivity|]. destruct b as [|y b]; [reflexivity|]. cbn [length Nat.eqb orb].
    cbv zeta. f_equal. f_equal. destruct (S (length a) <? S (length b)) eqn:E; lia.
Qed.

Lemma least_fold rest : forall s, least_of (s :: rest) (fold_left (fun m x => if flt x m then x else m) rest s).
Proof.
  assert (G : forall rest m seen, In m seen -> (forall x, In x seen -> flt x m = false) ->
     least_of (seen ++ rest) (fold_left (fun m x => if flt x m then x else m) rest m)).
  { clear. induction rest as [|y rest IH]; intros m seen Hin Hle; cbn [fold_left].
    - rewrite app_nil_r. split; auto.
    - replace (seen ++ y :: rest) with ((seen ++ [y]) ++ rest) by (rewrite <- app_assoc; reflexivity).
      destruct (flt y m) eqn:E.
      + apply IH; [apply in_or_app; right; left; auto|]. intros x Hx. apply in_app_or in Hx as [Hx|[<-|[]]]; [|apply flt_irrefl].
        destruct (flt x y) eqn:F; auto. pose proof (flt_trans x y m F E) as Q. rewrite (Hle x Hx) in Q. discriminate.
      + apply IH; [apply in_or_app; auto|]. intros x Hx. apply in_app_or in Hx as [Hx|[<-|[]]]; auto. }
  intros s. apply (G rest s [s]); [left; auto|]. intros x [<-|[]]. apply flt_irrefl.
Qed.
Lemma greatest_fold rest : forall s, greatest_of (s :: rest) (fold_left (fun m x => if fgt x m then x else m) rest s).
Proof.
  assert (G : forall rest m seen, In m seen -> (forall x, In x seen -> flt m x = false) ->
     greatest_of (seen ++ rest) (fold_left (fun m x => if flt m x then x else m) rest m)).
  { clear. induction rest as [|y rest IH]; intros m seen Hin Hle; cbn [fold_left].
    - rewrite app_nil_r. split; auto.
    - replace (seen ++ y :: rest) with ((seen ++ [y]) ++ rest) by (rewrite <- app_assoc; reflexivity).
      destruct (flt m y) eqn:E.
      + apply IH; [apply in_or_app; right; left; auto|]. intros x Hx. apply in_app_or in Hx as [Hx|[<-|[]]]; [|apply flt_irrefl].
        destruct (flt y x) eqn:F; auto. pose proof (flt_trans m y x E F) as Q. rewrite (Hle x Hx) in Q. discriminate.
      + apply IH; [apply in_or_app; auto|]. intros x Hx. apply in_app_or in Hx as [Hx|[<-|[]]]; auto. }
  intros s. apply (G rest s [s]); [left; auto|]. intros x [<-|[]]. apply flt_irrefl.
Qed.
Lemma normalize_spec xs : Forall2 (normalised xs) xs (normalize_scores xs).
Proof.
  destruct xs as [|s0 rest]; [constructor|]. unfold normalize_scores.
  set (mn := fold_left (fun m s => if flt s m then s else m) rest s0). set (mx := fold_left (fun m s => if fgt s m then s else m) rest s0). cbv zeta.
  assert (G : forall x, normalised (s0 :: rest) x (if flt (f64_sub mx mn) (dec 1 1000000000) then f_one else f64_div (f64_sub x mn) (f64_sub mx mn))).
  { intros x. exists mn, mx. split; [apply least_fold|]. split; [apply greatest_fold|]. reflexivity. }
  assert (M : forall (f : float -> float) l, (forall x, normalised (s0 :: rest) x (f x)) -> Forall2 (normalised (s0 :: rest)) l (map f l)).
  { intros f l H. induction l; cbn; constructor; auto. }
  destruct (flt (f64_sub mx mn) (dec 1 1000000000)) eqn:E.
  - apply (M (fun _ => f_one)). exact G.
  - apply (M (fun s => f64_div (f64_sub s mn) (f64_sub mx mn))). exact G.
Qed.

Lemma rerank_scores_spec q cs :
  Forall2 (fun c d => same_chunk c d /\ combined tokens names q cs c (c_rerank d)) cs (rerank_scores tokens names q cs).
Proof.
  unfold rerank_scores. pose proof (normalize_spec (map c_score cs)) as N. revert N. generalize (normalize_scores (map c_score cs)).
  assert (G : forall l ys, Forall2 (normalised (map c_score cs)) (map c_score l) ys ->
    Forall2 (fun c d => same_chunk c d /\ combined tokens names q cs c (c_rerank d)) l
      (map (fun p => set_rerank (fst p) (rerank_score tokens names q (fst p) (snd p))) (List.combine l ys))).
  { induction l as [|c l IH]; intros ys H; cbn in H; inversion H as [|? y ? ys' Hn Hr]; subst; cbn; constructor; auto.
    split; [repeat split|]. exists y, (overlap_score (token_set tokens q) (token_set tokens (c_content c))), (overlap_score (token_set tokens (String.concat " " (names q))) (token_set tokens (String.concat " " (c_ents c)))).
    split; auto. split; [apply overlap_spec|]. split; [apply overlap_spec|]. reflexivity. }
  apply G.
Qed.

Lemma redundancy_spec c sel : exists reps, Forall2 (fun d r => repeats tokens c d r) sel reps /\ highest reps (redundancy tokens c sel).
Proof.
  unfold redundancy. eexists. split; [|apply max_pos_spec]. induction sel as [|d sel IH]; cbn; constructor; auto.
  exists (overlap_score (token_set tokens (c_content c)) (token_set tokens (c_content d))). split; [apply overlap_spec|].
  destruct (String.eqb (c_doc c) "") eqn:E1; cbn [negb andb].
  - right. split; auto. left. apply String.eqb_eq. auto.
  - apply String.eqb_neq in E1. destruct (String.eqb (c_doc c) (c_doc d)) eqn:E2.
    + apply String.eqb_eq in E2. left. split; auto.
    + apply String.eqb_neq in E2. right. auto.
Qed.
Lemma mmr_value_spec lambda sel c : marginal tokens lambda sel c (mmr_value tokens lambda sel c).
Proof. destruct (redundancy_spec c sel) as (reps & H1 & H2). exists reps, (redundancy tokens c sel). auto. Qed.

Definition greedy_at (value : list rchunk -> rchunk -> float) (cs : list rchunk) (idxs : list nat) (out : list rchunk) : Prop :=
  forall n i j ci cj, nth_error idxs n = Some i -> nth_error cs i = Some ci -> nth_error cs j = Some cj -> ~ In j (firstn n idxs) ->
     flt (value (firstn n out) ci) (value (firstn n out) cj) = false \/ (flt (SFopp max_float64) (value (firstn n out) cj) = false /\ i <= j).

Lemma greedy_loop_spec lambda k cs : forall fuel idxs sel ridx rem,
  picked cs idxs sel -> rests cs idxs ridx rem -> length rem <= fuel -> StronglySorted lt ridx -> (Z.of_nat (length sel) <= k)%Z ->
  greedy_at (mmr_value tokens lambda) cs idxs sel ->
  let out := greedy_loop tokens lambda k fuel sel rem in
  exists idxs', picked cs idxs' out /\ length out = Nat.min (Z.to_nat k) (length cs) /\ greedy_at (mmr_value tokens lambda) cs idxs' out.
Proof.
  assert (Hend : forall idxs sel ridx (rem : list rchunk), picked cs idxs sel -> rests cs idxs ridx rem -> rem = [] -> length sel = length cs).
  { intros idxs sel ridx rem P (R1 & _ & R3) ->. inversion R1; subst. pose proof (picked_le _ _ _ P).
    assert (length cs <= length sel); [|lia]. rewrite <- (picked_length _ _ _ P), <- (seq_length (length cs) 0).
    apply NoDup_incl_length; [apply seq_NoDup|]. intros i Hi. apply in_seq in Hi. destruct (in_dec Nat.eq_dec i idxs) as [?|Hn]; auto.
    exfalso. apply (proj2 (R3 i)). split; [lia|auto]. }
  set (value := mmr_value tokens lambda).
  induction fuel as [|fuel IH]; intros idxs sel ridx rem P R Hf Hso Hk G; cbn [greedy_loop]; cbv zeta.
  - exists idxs. split; auto. split; auto. assert (length sel = length cs); [|lia]. apply (Hend idxs sel ridx rem); auto. destruct rem; [auto|cbn in Hf; lia].
  - destruct rem as [|r0 rem0] eqn:Er.
    { exists idxs. split; auto. split; auto. assert (length sel = length cs); [|lia]. apply (Hend idxs sel ridx []); auto. }
    destruct (Z.of_nat (length sel) <? k)%Z eqn:Ek.
    2:{ exists idxs. split; auto. split; auto. pose proof (picked_le _ _ _ P). lia. }
    rewrite <- Er in *.
    assert (Hpick : exists p x, best_index (value sel) rem 0 (SFopp max_float64) (Some 0) = Some p /\ nth_error rem p = Some x /\
        ((forall y, In y rem -> flt (value sel x) (value sel y) = false) \/ (p = 0 /\ forall y, In y rem -> flt (SFopp max_float64) (value sel y) = false))).
    { destruct (best_index_spec (value sel) rem 0 (SFopp max_float64) (Some 0) ltac:(discriminate)) as [(E & H)|(p & x & E & Hp & _ & H)].
      - exists 0, r0. split; auto. split; [rewrite Er; reflexivity|]. right. auto.
      - exists p, x. split; auto. }
    destruct Hpick as (p & x & E & Hp & Hbest). fold value.
    rewrite E, Hp. destruct R as (R1 & R2 & R3).
    destruct (Forall2_nth _ _ _ _ _ R1 Hp) as (i & Hi & Ei).
    destruct (in_remove_at ridx p i R2 Hi) as [D1 D2].
    assert (Hni : ~ In i idxs) by (apply R3; eapply nth_error_In; eauto).
    rewrite Er. rewrite <- Er. apply (IH (idxs ++ [i]) (sel ++ [x]) (remove_at p ridx) (remove_at p rem)).
    + apply picked_snoc; auto.
    + split; [apply Forall2_remove_at; auto|]. split; auto. intros j. rewrite D2, R3, in_app_iff. cbn [In].
      split; [intros [[H1 H2] H3]; split; auto; intros [H4|[H4|[]]]; [auto|congruence]|]. intros [H1 H2]. split; [split; auto|]. intros ->. auto.
    + rewrite remove_at_length; [lia|]. apply nth_error_Some. rewrite Hp. discriminate.
    + clear -Hso. unfold remove_at. revert p. induction Hso as [|y l Hl IHl HF]; intros p; [rewrite firstn_nil, skipn_nil; constructor|].
      destruct p; [exact Hl|]. cbn [firstn app]. constructor; [apply IHl|]. rewrite Forall_forall in *. intros z Hz. apply HF.
      apply in_app_or in Hz as [Hz|Hz]; [eapply in_firstn; eauto|apply (in_skipn (S p)); exact Hz].
    + rewrite app_length. cbn [length]. lia.
    + intros n a j ca cj Hn Ea Ej Hnot. pose proof (picked_length _ _ _ P) as PL.
      destruct (nth_error_snoc _ _ _ _ Hn) as [En|[-> ->]].
      * assert (n < length idxs) by (apply nth_error_Some; rewrite En; discriminate).
        rewrite firstn_snoc in Hnot by lia. rewrite firstn_snoc by lia. apply (G n a j); auto.
      * rewrite firstn_snoc_all in Hnot. rewrite PL, firstn_snoc_all. rewrite Ei in Ea. injection Ea as <-.
        assert (In j ridx) as Hin by (apply R3; split; [apply nth_error_Some; rewrite Ej; discriminate|auto]).
        destruct (Forall2_in_l _ _ _ _ R1 Hin) as (c' & Hc & Ec'). rewrite Ej in Ec'. injection Ec' as <-.
        destruct Hbest as [H|[-> H]]; [left; auto|right]. split; [auto|].
        destruct ridx as [|i0 ridx']; [discriminate|]. cbn in Hi. injection Hi as ->. inversion Hso as [|? ? _ HF]; subst.
        destruct Hin as [<-|Hin]; [lia|]. rewrite Forall_forall in HF. specialize (HF j Hin). lia.
Qed.

Lemma rerank_reranked o q cs :
  reranked tokens names (lambda_in_force o) (Z.to_nat (chunks_limit o)) q cs (rerank tokens names (query_defaults o) q cs).
Proof.
  unfold rerank. rewrite def_lambda, def_chunks. set (scored := rerank_scores tokens names q cs).
  pose proof (rerank_scores_spec q cs) as F. fold scored in F.
  assert (L : length cs = length scored). { clear -F. induction F; cbn; auto. }
  destruct (greedy_loop_spec (lambda_in_force o) (chunks_limit o) scored (length cs) [] [] (seq 0 (length scored)) scored) as (idxs & P & Len & G).
  - split; constructor.
  - split; [apply selection_refl|]. split; [apply seq_NoDup|]. intros i. rewrite in_seq. cbn. intuition lia.
  - lia.
  - apply seq_sorted.
  - cbn. pose proof (chunks_pos o). lia.
  - intros n i j ci cj H. destruct n; discriminate.
  - exists scored, idxs. split; auto. split; auto. split; [rewrite Len, L; reflexivity|].
    intros n i j ci cj Hi Eci Ecj Hn. eexists. eexists. split; [apply mmr_value_spec|]. split; [apply mmr_value_spec|]. apply (G n i j); auto.
Qed.
End Rerank.
