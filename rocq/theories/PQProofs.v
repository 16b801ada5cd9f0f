From Coq Require Import List NArith ZArith Bool Lia Permutation Sorted ZifyN ZifyNat ZifyBool.
From Coq Require Import Init.Byte Strings.Byte.
From Coq Require Import Floats.SpecFloat.
From Verif Require Import Base Floats64 TopK EncodingModel EncodingProofs PQModel PQSpec.
Import ListNotations.

Section Dist.
Variable dist : list N -> list N -> float.

Lemma subvec_ok v m sub : m * sub + sub <= length v -> subvec v m sub = Ok (sub_at v m sub).
Proof. intros H. unfold subvec. destruct (Nat.ltb_spec (length v) (m * sub + sub)); [lia|reflexivity]. Qed.

Lemma argmin_lt ds : forall k m i m' i', argmin_loop ds k m i = (m', i') -> i' = i \/ (k <= i' < k + length ds).
Proof.
  induction ds as [|d ds IH]; cbn [argmin_loop length]; intros k m i m' i' H.
  - injection H as <- <-; auto.
  - destruct (flt d m); apply IH in H; lia.
Qed.

Lemma encode_loop_spec v sub k books : forall todo m,
  (m + todo) * sub <= length v -> m + todo <= length books -> k <= 256 ->
  (forall book, In book books -> length book = k) ->
  exists cs, encode_loop dist v sub k books m todo = Ok cs /\ length cs = todo /\
    forall j, j < todo -> exists book i d, nth_error books (m + j) = Some book /\
      nth_error cs j = Some (N.of_nat i) /\
      argmin_loop (map (dist (sub_at v (m + j) sub)) book) 0 max_float32 0 = (d, i).
Proof.
  induction todo as [|todo IH]; intros m Hl Hb Hk Hbk; cbn [encode_loop].
  - exists []. repeat split; auto. lia.
  - rewrite subvec_ok by nia. cbn [bind].
    destruct (nth_error books m) as [book|] eqn:Eb; [|apply nth_error_None in Eb; lia].
    pose proof (Hbk book (nth_error_In _ _ Eb)) as Lb.
    unfold nearest. destruct (Nat.ltb_spec (length book) k); [lia|]. cbn [bind].
    destruct (IH (S m)) as (cs & E & L & G); try lia; auto.
    rewrite E. cbn [bind]. eexists; split; [reflexivity|]. split; [cbn; lia|].
    rewrite (firstn_all2 book) by lia.
    destruct (argmin_loop (map (dist (sub_at v m sub)) book) 0 max_float32 0) as [d i] eqn:Ea.
    assert (Hi : i < 256).
    { pose proof (argmin_lt _ _ _ _ _ _ Ea) as Hx. rewrite map_length in Hx. lia. }
    intros [|j] Hj.
    + rewrite Nat.add_0_r. exists book, i, d. split; auto. split; auto. cbn [nth_error snd]. unfold code_byte.
      rewrite N.mod_small by lia. reflexivity.
    + destruct (G j) as (b & i' & d' & G1 & G2 & G3); [lia|].
      exists b, i', d'. replace (m + S j) with (S m + j) by lia. auto.
Qed.

Lemma pq_encode_spec p v : wf_pq p -> length v = pq_d p ->
  exists cs, pq_encode dist p v = Ok cs /\ length cs = pq_m p /\
    forall m book, nth_error (pq_books p) m = Some book ->
      (exists c, In c book /\ flt (dist (sub_at v m (pq_sub p)) c) max_float32 = true) ->
      exists i c, nth_error cs m = Some (N.of_nat i) /\ nth_error book i = Some c /\
        forall c', In c' book ->
          flt (dist (sub_at v m (pq_sub p)) c') (dist (sub_at v m (pq_sub p)) c) = false.
Proof.
  intros (Ht & Hd & Hk & Hm & HF) Hv. unfold pq_encode. rewrite Ht, Hv, Nat.eqb_refl. cbn [negb].
  destruct (encode_loop_spec v (pq_sub p) (pq_k p) (pq_books p) (pq_m p) 0) as (cs & E & L & G); try lia.
  { rewrite Forall_forall in HF. intros b Hb. apply HF; auto. }
  exists cs. split; auto. split; auto. intros m book Eb (c0 & Hc0 & Hlt).
  assert (Hmm : m < pq_m p). { rewrite <- Hm. apply nth_error_Some. congruence. }
  destruct (G m Hmm) as (b & i & d & G1 & G2 & G3). cbn [Nat.add] in *.
  assert (b = book) by congruence. subst b.
  destruct (argmin_loop_found _ _ _ _ (ltac:(discriminate) : not_nan max_float32) G3) as [F1 F2].
  { apply In_nth_error in Hc0 as [j Hj]. exists j. eexists. rewrite nth_error_map, Hj. split; [reflexivity|exact Hlt]. }
  rewrite nth_error_map in F1. destruct (nth_error book i) as [c|] eqn:Ec; cbn in F1; [|discriminate].
  injection F1 as <-.
  exists i, c. split; auto. split; auto.
  intros c' Hc'. apply In_nth_error in Hc' as [j Hj]. apply (F2 j). rewrite nth_error_map, Hj. reflexivity.
Qed.

Lemma decode_loop_spec sub k books : forall codes m,
  m + length codes <= length books ->
  (forall book, In book books -> length book = k /\ Forall (fun c => length c = sub) book) ->
  Forall (fun c => N.to_nat c < k) codes ->
  exists cens, length cens = length codes /\
    (forall j c, nth_error codes j = Some c -> exists book cen, nth_error books (m + j) = Some book /\
        nth_error book (N.to_nat c) = Some cen /\ nth_error cens j = Some cen) /\
    Forall (fun c => length c = sub) cens /\
    decode_loop codes sub k books m = Ok (concat cens).
Proof.
  induction codes as [|c codes IH]; intros m Hl Hb HF; cbn [decode_loop].
  - exists []. repeat split; auto. intros [|j]; discriminate.
  - inversion HF; subst. cbn [length] in Hl.
    destruct (Nat.leb_spec k (N.to_nat c)); [lia|].
    destruct (nth_error books m) as [book|] eqn:Eb; [|apply nth_error_None in Eb; lia].
    destruct (Hb book (nth_error_In _ _ Eb)) as [Lb Fb].
    destruct (nth_error book (N.to_nat c)) as [cen|] eqn:Ec; [|apply nth_error_None in Ec; lia].
    rewrite Forall_forall in Fb. pose proof (Fb cen (nth_error_In _ _ Ec)) as Lc.
    destruct (Nat.ltb_spec (length cen) sub); [lia|].
    destruct (IH (S m)) as (cens & L & G & F & E); auto; [lia|].
    rewrite E. cbn [bind]. exists (cen :: cens). split; [cbn; lia|]. split; [|split].
    + intros [|j] c' Hj; cbn in Hj.
      * injection Hj as <-. rewrite Nat.add_0_r. exists book, cen. auto.
      * destruct (G j c' Hj) as (b' & cen' & G1 & G2 & G3). exists b', cen'.
        replace (m + S j) with (S m + j) by lia. auto.
    + constructor; auto.
    + cbn [concat]. rewrite firstn_all2 by lia. reflexivity.
Qed.

Lemma concat_length_const {A} (ls : list (list A)) n : Forall (fun l => length l = n) ls -> length (concat ls) = length ls * n.
Proof. induction 1; cbn; auto. rewrite app_length. lia. Qed.

Lemma pq_decode_spec p codes : wf_pq p -> length codes = pq_m p -> Forall (fun c => N.to_nat c < pq_k p) codes ->
  exists cens, length cens = pq_m p /\
    (forall m c, nth_error codes m = Some c -> exists book cen, nth_error (pq_books p) m = Some book /\
        nth_error book (N.to_nat c) = Some cen /\ nth_error cens m = Some cen) /\
    pq_decode p codes = Ok (concat cens) /\ length (concat cens) = pq_d p.
Proof.
  intros (Ht & Hd & Hk & Hm & HF) Hc HFc. unfold pq_decode. rewrite Ht, Hc, Nat.eqb_refl. cbn [negb].
  rewrite Forall_forall in HF.
  destruct (decode_loop_spec (pq_sub p) (pq_k p) (pq_books p) codes 0) as (cens & L & G & F & E); auto; [lia|].
  pose proof (concat_length_const _ _ F) as CL.
  exists cens. split; [lia|]. split; auto. rewrite E. cbn [bind].
  destruct (Nat.ltb_spec (pq_d p) (length (concat cens))); [nia|].
  replace (pq_d p - length (concat cens)) with 0 by nia. cbn [repeat]. rewrite app_nil_r. split; auto. nia.
Qed.

Lemma decode_loop_invalid sub k books : forall codes m,
  m + length codes <= length books ->
  (forall book, In book books -> length book = k /\ Forall (fun c => length c = sub) book) ->
  ~ Forall (fun c => N.to_nat c < k) codes ->
  decode_loop codes sub k books m = Err EOther.
Proof.
  induction codes as [|c codes IH]; intros m Hl Hb HF; cbn [decode_loop]; [exfalso; apply HF; constructor|].
  cbn [length] in Hl.
  destruct (Nat.leb_spec k (N.to_nat c)); auto.
  destruct (nth_error books m) as [book|] eqn:Eb; [|apply nth_error_None in Eb; lia].
  destruct (Hb book (nth_error_In _ _ Eb)) as [Lb Fb].
  destruct (nth_error book (N.to_nat c)) as [cen|] eqn:Ec; [|apply nth_error_None in Ec; lia].
  rewrite Forall_forall in Fb. pose proof (Fb cen (nth_error_In _ _ Ec)) as Lc.
  destruct (Nat.ltb_spec (length cen) sub); [lia|].
  rewrite IH; auto; lia.
Qed.

Lemma pq_decode_invalid p codes : wf_pq p ->
  (length codes <> pq_m p \/ ~ Forall (fun c => N.to_nat c < pq_k p) codes) -> pq_decode p codes = Err EOther.
Proof.
  intros (Ht & Hd & Hk & Hm & HF) H. unfold pq_decode. rewrite Ht. cbn [negb].
  destruct (Nat.eqb_spec (length codes) (pq_m p)); cbn [negb]; auto.
  rewrite decode_loop_invalid; auto; [lia| |tauto]. rewrite Forall_forall in HF. exact HF.
Qed.

(** Distances of all codes. *)
Lemma all_distances_spec p q : forall db i rs, all_distances dist p q i db = Ok rs ->
  map fst rs = seq i (length db) /\
  forall j d, In (j, d) rs <-> exists c, nth_error db (j - i) = Some c /\ i <= j /\ compute_distance dist p c q = Ok d.
Proof.
  induction db as [|c db IH]; cbn [all_distances]; intros i rs H.
  - injection H as <-. split; auto. intros j d. split; [intros []|].
    intros (c & Hc & _). destruct (j - i); discriminate.
  - destruct (compute_distance dist p c q) as [d|e|] eqn:Ed; cbn [bind] in H; try discriminate.
    destruct (all_distances dist p q (S i) db) as [r|e|] eqn:Er; cbn [bind] in H; try discriminate.
    injection H as <-. apply IH in Er as [I1 I2]. split; [cbn; f_equal; exact I1|].
    intros j d'. cbn [In]. rewrite I2. split.
    + intros [[= <- <-]|(c' & H1 & H2 & H3)].
      * exists c. rewrite Nat.sub_diag. auto.
      * exists c'. replace (j - i) with (S (j - S i)) by lia. repeat split; auto. lia.
    + intros (c' & H1 & H2 & H3). destruct (Nat.eq_dec j i) as [->|Hne].
      * rewrite Nat.sub_diag in H1. injection H1 as ->. left. congruence.
      * right. exists c'. replace (j - i) with (S (j - S i)) in H1 by lia. repeat split; auto. lia.
Qed.

Lemma search_pq_spec srt p query db k rs : sort_ok by_dist srt ->
  pq_trained p = true -> db <> [] -> (0 <= k)%Z ->
  all_distances dist p query 0 db = Ok rs -> (forall j d, In (j, d) rs -> not_nan d) ->
  exists out, search_pq dist srt p query db k = Ok out /\ is_topk by_dist (Z.to_nat k) rs out.
Proof.
  intros HS Ht Hne Hk Er Hnan. unfold search_pq. rewrite Ht. cbn [negb orb].
  destruct (Nat.eqb_spec (length db) 0) as [E|_]. { apply length_zero_iff_nil in E. congruence. }
  rewrite Er. cbn [bind].
  assert (W : weak_order_on by_dist rs).
  { apply (weak_order_asc snd). intros [j d] H. eapply Hnan; eauto. }
  pose proof (topk_of_sort by_dist srt (Z.to_nat k) rs HS W) as T.
  destruct (HS rs) as [P _].
  destruct (Z.ltb_spec (Z.of_nat (length (srt rs))) k).
  - destruct (Z.ltb_spec (Z.of_nat (length (srt rs))) 0); [lia|].
    eexists; split; [reflexivity|]. rewrite Nat2Z.id, firstn_all.
    rewrite firstn_all2 in T by lia. exact T.
  - destruct (Z.ltb_spec k 0); [lia|]. eexists; split; [reflexivity|]. exact T.
Qed.

(** Training produces a well-formed quantiser. *)
Variable centroid_of : nat -> list (list N) -> list N.
Hypothesis centroid_len : forall dim l, length (centroid_of dim l) = dim.

Lemma kmeans_iter_shape fuel : forall dim k vs asg cs,
  length cs = k -> Forall (fun c => length c = dim) cs ->
  length (kmeans_iter dist centroid_of fuel dim k vs asg cs) = k /\
  Forall (fun c => length c = dim) (kmeans_iter dist centroid_of fuel dim k vs asg cs).
Proof.
  induction fuel as [|f IH]; cbn [kmeans_iter]; intros dim k vs asg cs H1 H2; auto.
  destruct (list_eq_dec Nat.eq_dec asg (map (assign dist cs) vs)); auto.
  apply IH.
  - unfold update_centroids. rewrite map_length, seq_length. reflexivity.
  - unfold update_centroids. apply Forall_forall. intros c Hc. apply in_map_iff in Hc as (j & <- & _).
    apply centroid_len.
Qed.

Lemma kmeans_shape perm vs k iters dim cs :
  (forall v, In v vs -> length v = dim) -> Permutation perm (seq 0 (length vs)) ->
  kmeans dist centroid_of perm vs k iters = Ok cs ->
  length cs = k /\ Forall (fun c => length c = dim) cs.
Proof.
  intros Hd HP. unfold kmeans. destruct (Nat.ltb_spec (length vs) k); [discriminate|].
  destruct vs as [|v0 vs]; [discriminate|].
  intros [= <-]. assert (length v0 = dim) by (apply Hd; cbn; auto). rewrite H0.
  apply kmeans_iter_shape.
  - rewrite map_length, firstn_length. apply Permutation_length in HP. rewrite seq_length in HP. lia.
  - apply Forall_forall. intros c Hc. apply in_map_iff in Hc as (i & <- & Hi).
    apply in_firstn in Hi. eapply Permutation_in in Hi; [|exact HP]. apply in_seq in Hi.
    destruct (nth_error (v0 :: vs) i) as [v|] eqn:Ev; [|apply nth_error_None in Ev; lia].
    rewrite app_length, firstn_length, repeat_length. lia.
Qed.

Lemma subvecs_spec vs m sub svs : subvecs vs m sub = Ok svs -> length svs = length vs /\ forall v, In v svs -> length v = sub.
Proof.
  revert svs. induction vs as [|v vs IH]; cbn [subvecs]; intros svs H.
  - injection H as <-. split; auto. intros ? [].
  - unfold subvec in H. destruct (Nat.ltb_spec (length v) (m * sub + sub)); cbn [bind] in H; [discriminate|].
    destruct (subvecs vs m sub) as [r|e|]; cbn [bind] in H; try discriminate.
    injection H as <-. destruct (IH r eq_refl) as [I1 I2]. split; [cbn; lia|].
    intros w [<-|Hw]; auto. rewrite firstn_length, skipn_length. lia.
Qed.

Lemma train_books_shape perm vs sub k : (forall m, Permutation (perm m) (seq 0 (length vs))) ->
  forall todo m books, train_books dist centroid_of perm vs sub k m todo = Ok books ->
  length books = todo /\ Forall (fun book => length book = k /\ Forall (fun c => length c = sub) book) books.
Proof.
  intros HP. induction todo as [|t IH]; cbn [train_books]; intros m books H.
  - injection H as <-. auto.
  - destruct (subvecs vs m sub) as [svs|e|] eqn:Es; cbn [bind] in H; try discriminate.
    destruct (kmeans dist centroid_of (perm m) svs k 20) as [cs|e|] eqn:Ek; cbn [bind] in H; try discriminate.
    destruct (train_books dist centroid_of perm vs sub k (S m) t) as [r|e|] eqn:Er; cbn [bind] in H; try discriminate.
    injection H as <-. apply IH in Er as [R1 R2]. apply subvecs_spec in Es as [S1 S2].
    apply kmeans_shape with (dim := sub) in Ek; auto. { split; cbn; auto. }
    rewrite S1. apply HP.
Qed.

Lemma pq_train_wf perm dim m k p0 vs p : (forall m, Permutation (perm m) (seq 0 (length vs))) ->
  pq_new dim m k = Ok p0 -> pq_train dist centroid_of perm p0 vs = Ok p ->
  wf_pq p /\ pq_d p = dim /\ pq_m p = m /\ pq_k p = k.
Proof.
  intros HP. unfold pq_new. destruct (Nat.eqb_spec m 0); [discriminate|].
  destruct (Nat.eqb_spec (Nat.modulo dim m) 0) as [Em|]; cbn [negb]; [|discriminate].
  destruct (Nat.ltb_spec 256 k); [discriminate|]. intros [= <-].
  unfold pq_train. cbn [pq_k pq_m pq_sub pq_d].
  destruct (Nat.ltb_spec (length vs) (k * m)); [discriminate|].
  destruct (train_books dist centroid_of perm vs (Nat.div dim m) k 0 m) as [books|e|] eqn:Eb; cbn [bind]; try discriminate.
  intros [= <-]. apply train_books_shape in Eb as [B1 B2]; auto.
  repeat split; cbn; auto. pose proof (Nat.div_exact dim m n). lia.
Qed.
End Dist.

(** ** Serialisation *)
Lemma rd_floats_spec xs tail : Forall (fun x => x < 2^32)%N xs ->
  rd_floats (length xs) (flat_map le32 xs ++ tail) = Ok (xs, tail).
Proof.
  induction 1 as [|x xs Hx HF IH]; cbn [length rd_floats flat_map]; auto.
  rewrite <- app_assoc, rd32_le32 by exact Hx. rewrite IH. reflexivity.
Qed.
Lemma rd_book_spec sub book tail : Forall (fun c => length c = sub /\ Forall (fun x => x < 2^32)%N c) book ->
  rd_book (length book) sub (flat_map (fun c => flat_map le32 c) book ++ tail) = Ok (book, tail).
Proof.
  induction 1 as [|c book [Hc Hx] HF IH]; cbn [length rd_book flat_map]; auto.
  rewrite <- app_assoc. rewrite <- Hc at 1. rewrite rd_floats_spec by auto. cbn [bind]. rewrite IH. reflexivity.
Qed.
Lemma rd_books_spec k sub books tail :
  Forall (fun book => length book = k /\ Forall (fun c => length c = sub /\ Forall (fun x => x < 2^32)%N c) book) books ->
  rd_books (length books) k sub (flat_map (fun b => flat_map (fun c => flat_map le32 c) b) books ++ tail) = Ok (books, tail).
Proof.
  induction 1 as [|b books [Hb Hc] HF IH]; cbn [length rd_books flat_map]; auto.
  rewrite <- app_assoc. rewrite <- Hb at 1. rewrite rd_book_spec by auto. cbn [bind]. rewrite IH. reflexivity.
Qed.

Lemma serialize_round_trip p tail : wf_pq p -> books_bits p ->
  (N.of_nat (pq_m p) < 2^32)%N -> (N.of_nat (pq_d p) < 2^32)%N -> (N.of_nat (pq_sub p) < 2^32)%N ->
  exists bs, pq_serialize p = Some bs /\ pq_deserialize (bs ++ tail) = Ok p.
Proof.
  intros (Ht & Hd & Hk & Hm & HF) HB Bm Bd Bs. unfold pq_serialize. rewrite Ht. cbn [negb].
  eexists; split; [reflexivity|]. unfold pq_deserialize.
  rewrite <- !app_assoc. rewrite !app_length, !le32_length.
  match goal with |- context [Nat.ltb ?a 16] => destruct (Nat.ltb_spec a 16); [lia|] end.
  assert (Bk : (N.of_nat (pq_k p) < 2^32)%N) by (change (2^32)%N with 4294967296%N; lia).
  rewrite !rd32_le32 by assumption. rewrite !Nnat.Nat2N.id.
  rewrite <- Hm at 1. rewrite rd_books_spec.
  - cbn [bind]. destruct p; cbn in *. subst. reflexivity.
  - unfold books_bits in HB. rewrite Forall_forall in HF, HB. apply Forall_forall. intros b Hb.
    destruct (HF b Hb) as [F1 F2]. split; auto. specialize (HB b Hb).
    rewrite Forall_forall in F2, HB. apply Forall_forall. intros c Hc. split; auto.
Qed.

Lemma deserialize_short bs : length bs < 16 -> pq_deserialize bs = Err EOther.
Proof. intros H. unfold pq_deserialize. destruct (Nat.ltb_spec (length bs) 16); [auto|lia]. Qed.

Lemma code_distance_spec dist p query : wf_pq p -> length query = pq_d p -> forall codes m acc,
  m + length codes = pq_m p -> Forall (fun c => N.to_nat c < pq_k p) codes ->
  code_distance dist query (pq_sub p) (pq_books p) m codes acc =
  Ok (fold_left f32_add (map (fun mc => dist (sub_at query (fst mc) (pq_sub p)) (centroid_at p (fst mc) (snd mc)))
                     (combine (seq m (length codes)) codes)) acc).
Proof.
  intros (T & D & K & LB & FB) LQ. induction codes as [|c cs IH]; intros m acc Hm F; cbn [code_distance]; auto.
  cbn [length] in Hm. inversion F; subst. unfold subvec.
  destruct (Nat.ltb_spec (length query) (m * pq_sub p + pq_sub p)) as [H|H]; [rewrite LQ, D in H; nia|]. cbn [bind].
  destruct (nth_error (pq_books p) m) as [book|] eqn:Eb; [|apply nth_error_None in Eb; lia].
  pose proof (proj1 (Forall_forall _ _) FB book (nth_error_In _ _ Eb)) as [LK _].
  destruct (nth_error book (N.to_nat c)) as [cen|] eqn:Ec; [|apply nth_error_None in Ec; lia].
  rewrite IH; auto; [|lia]. cbn [length seq combine map fold_left]. do 3 f_equal.
  cbn [fst snd]. unfold centroid_at. rewrite (nth_error_nth _ _ _ Eb), (nth_error_nth _ _ _ Ec). reflexivity.
Qed.
Lemma compute_distance_spec dist p codes query : wf_pq p -> length codes = pq_m p -> Forall (fun c => N.to_nat c < pq_k p) codes ->
  length query = pq_d p ->
  compute_distance dist p codes query = Ok (table_distance f32_add f_zero dist p codes query).
Proof.
  intros W LC F LQ. unfold compute_distance, table_distance. destruct W as (T & W). rewrite T. cbn [negb].
  rewrite (proj2 (Nat.ltb_ge _ _)) by lia. rewrite firstn_all2 by lia. rewrite code_distance_spec; auto; [|split; auto]. rewrite LC. reflexivity.
Qed.
