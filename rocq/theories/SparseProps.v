(** Properties of the caching embedder, the sparse encoders and the sparse, hybrid and
    function routers. *)
From Coq Require Import String List NArith ZArith Bool Lia Permutation.
From Coq Require Import Floats.SpecFloat.
From Verif Require Import Base Floats64 TopK StoreModel StoreSpec StoreProofs MultiVecProofs SearchModel SearchProps RerankProps
  RouterModel RouterSpec RouterProofs RouterProps SparseModel SparseSpec SparseProofs IntAddProofs.
Import ListNotations.
Open Scope string_scope.
Open Scope list_scope.

(** ** CachedEmbedder *)
(** Calls on a caching embedder, each with the embedder behind it at that moment. *)
Inductive ccall :=
| CcEmbed (em : embedder) (t : string)
| CcBatch (em : embedder) (ord1 ord2 : list (nat * string) -> list (nat * string)) (ts : list string)
| CcClear.
Definition cstep (c : cache) (o : ccall) : cache :=
  match o with
  | CcEmbed em t => fst (cached_embed em c t)
  | CcBatch em o1 o2 ts => fst (cached_embed_batch o1 o2 em c ts)
  | CcClear => []
  end.
(** The embedder never answers a wrong vector, but may fail. *)
Definition truthful (emb : string -> list N) (em : embedder) : Prop :=
  (forall t v, em_one em t = Some v -> v = emb t) /\ (forall ts vs, em_batch em ts = Some vs -> vs = map emb ts).
Definition call_truthful (emb : string -> list N) (o : ccall) : Prop :=
  match o with
  | CcEmbed em _ => truthful emb em
  | CcBatch em o1 o2 _ => truthful emb em /\ (forall l, Permutation l (o1 l)) /\ (forall l, Permutation l (o2 l))
  | CcClear => True
  end.

Lemma embed_cache emb em c t : truthful emb em -> cache_ok emb c -> cache_ok emb (fst (cached_embed em c t)).
Proof.
  intros [H _] C. unfold cached_embed. destruct (assoc t c); auto. destruct (em_one em t) as [v|] eqn:E; auto. rewrite (H t v E). apply cache_ok_cons. exact C.
Qed.
Lemma batch_ok emb em o1 o2 c ts : truthful emb em -> (forall l, Permutation l (o1 l)) -> (forall l, Permutation l (o2 l)) -> cache_ok emb c ->
  let r := cached_embed_batch o1 o2 em c ts in
  cache_ok emb (fst r) /\
  (snd r = Ok (map (fun t => Some (emb t)) ts) \/
   (snd r = Err EOther /\ (exists t, In t ts /\ em_one em t = None) /\ exists us, em_batch em us = None)).
Proof.
  intros H P1 P2 C. cbv zeta. unfold cached_embed_batch. destruct (uncached c ts) as [|x u] eqn:U.
  - split; [exact C|]. left. cbn [snd]. f_equal. apply filling_done. apply (filling_start emb c ts); auto. rewrite U. constructor.
  - rewrite <- U. destruct (em_batch em (map snd (o1 (uncached c ts)))) as [bs|] eqn:B.
    + rewrite (proj2 H _ _ B). destruct (take_ok emb ts (o1 (uncached c ts)) c (from_cache c ts) C (filling_start emb c ts _ C (P1 _))) as [A1 A2]. split; [exact A1|]. left. exact A2.
    + destruct (missing_ok emb em ts (o2 (uncached c ts)) H c (from_cache c ts) C (filling_start emb c ts _ C (P2 _))) as [A1 [[A2 _]|[A2 (i & t & A3 & A4)]]].
      * split; [exact A1|]. left. exact A2.
      * split; [exact A1|]. right. split; [exact A2|]. split; [|eauto]. exists t. split; [|exact A4].
        apply (Permutation_in _ (Permutation_sym (P2 _))) in A3. apply uncached_in in A3 as [A3 _]. apply nth_error_In in A3. exact A3.
Qed.
Lemma run_cache_ok emb ops : Forall (call_truthful emb) ops -> forall c, cache_ok emb c -> cache_ok emb (fold_left cstep ops c).
Proof.
  induction 1 as [|o ops O F IH]; intros c C; auto. cbn [fold_left]. apply IH. destruct o as [em t|em o1 o2 ts|]; cbn [cstep call_truthful] in *.
  - apply embed_cache; auto.
  - destruct O as (T & P1 & P2). apply batch_ok; auto.
  - intros t v. discriminate.
Qed.
(** Whatever was embedded before, and in whatever order the maps are visited, a caching
    embedder answers every text with its own vector. It fails only when the embedder
    behind it does, and it never panics. *)
Theorem cached_embedder_transparent :
  forall emb ops em, Forall (call_truthful emb) ops -> truthful emb em ->
  let c := fold_left cstep ops [] in
  (forall t, snd (cached_embed em c t) = Ok (emb t) \/ (snd (cached_embed em c t) = Err EOther /\ em_one em t = None)) /\
  (forall o1 o2 ts, (forall l, Permutation l (o1 l)) -> (forall l, Permutation l (o2 l)) ->
     snd (cached_embed_batch o1 o2 em c ts) = Ok (map (fun t => Some (emb t)) ts) \/
     (snd (cached_embed_batch o1 o2 em c ts) = Err EOther /\ (exists t, In t ts /\ em_one em t = None) /\ exists us, em_batch em us = None)).
Proof.
  intros emb ops em F H c. assert (C : cache_ok emb c) by (apply run_cache_ok; auto; intros t v; discriminate). split.
  - intros t. unfold cached_embed. destruct (assoc t c) as [v|] eqn:E; [left; cbn; rewrite (C t v E); reflexivity|].
    destruct (em_one em t) as [v|] eqn:O; [left; cbn; rewrite (proj1 H t v O); reflexivity|right; auto].
  - intros o1 o2 ts P1 P2. apply batch_ok; auto.
Qed.
Print Assumptions cached_embedder_transparent.
Lemma steady_truthful : truthful emb_of steady.
Proof. split; [intros t v [= <-]|intros ts vs [= <-]]; reflexivity. Qed.
Lemma flaky_truthful : truthful emb_of flaky.
Proof. split; [|intros ts vs; discriminate]. intros t v. cbn. destruct (String.eqb t "hello"); [discriminate|]. intros [= <-]. reflexivity. Qed.
Example cached_embedder_ex :
  let ops := [CcEmbed steady "hello"; CcBatch flaky (@rev _) (fun l => l) ["bye"; "hi"; "bye"]] in
  Forall (call_truthful emb_of) ops /\
  snd (cached_embed flaky (fold_left cstep ops []) "hello") = Ok v10 /\
  snd (cached_embed_batch (@rev _) (fun l => l) steady (fold_left cstep ops []) ["new"; "hello"; "hi"; "new"]) = Ok [Some v01; Some v10; Some v11; Some v01] /\
  snd (cached_embed flaky [] "hello") = Err EOther.
Proof.
  split; [|vm_compute; auto]. apply Forall_cons; [exact steady_truthful|]. apply Forall_cons; [|apply Forall_nil].
  split; [exact flaky_truthful|]. split; [apply Permutation_rev|intros l; apply Permutation_refl].
Qed.

(** ** SparseRouter *)
(** Every registered route has a name; Route answers with the first route of the
    highest positive score. *)
Theorem sparse_route_exact :
  forall encode orders sr q,
  (forall n w, same_map w (fst (orders n) w) /\ same_map w (snd (orders n) w)) -> q <> "" ->
  exists table, scored_routes encode q (sr_routes sr) table /\ best_answer table (sr_threshold sr) (sroute encode orders sr q).
Proof. intros encode orders sr q O Q. apply sroute_table; auto. Qed.
Print Assumptions sparse_route_exact.

(** Add accepts exactly the routes with a new name and an utterance. *)
Theorem sparse_add_exact :
  forall sr o, let (sr', out) := sadd sr o in
  sr_threshold sr' = sr_threshold sr /\
  ((exists r, o = Some r /\ may_add (sr_routes sr) r /\ out = Ok tt /\ sr_routes sr' = sr_routes sr ++ [r]) \/
   ((forall r, o = Some r -> ~ may_add (sr_routes sr) r) /\ out = Err EOther /\ sr_routes sr' = sr_routes sr)).
Proof.
  intros sr [r|]; cbn [sadd].
  - assert (M : map en_route (map new_entry (sr_routes sr)) = sr_routes sr) by (rewrite map_map; apply map_id).
    destruct (acceptable_route (map new_entry (sr_routes sr)) r) eqn:A; cbn [negb].
    + apply acceptable_iff in A. rewrite M in A. split; [reflexivity|]. left. exists r. auto.
    + split; [reflexivity|]. right. split; [|auto]. intros r' [= <-] B. rewrite <- M in B. apply acceptable_iff in B. congruence.
  - split; [reflexivity|]. right. split; [discriminate|auto].
Qed.
Print Assumptions sparse_add_exact.

(** ** Encoders *)
(** Fit counts documents, not occurrences; the vocabulary accumulates over the calls. *)
Theorem bm25_fit_exact :
  forall lower fields log k1 b earlier docs,
  let old := fold_left (bm25_fit lower fields log) earlier (new_bm25 k1 b) in
  let e := bm25_fit lower fields log old docs in
  NoDup (b_voc e) /\
  (forall t, In t (b_voc e) <-> exists c d, In c (earlier ++ [docs]) /\ In d c /\ term_of lower fields t d) /\
  b_k1 e = k1 /\ b_b e = b /\
  (forall t n, documents_with lower fields t docs n -> n <> 0%nat ->
     let half := f64_div (f64_of_Z 1) (f64_of_Z 2) in
     let N := f64_of_Z (Z.of_nat (length docs)) in let df := f64_of_Z (Z.of_nat n) in
     assoc t (b_df e) = Some (Z.of_nat n) /\
     assoc t (b_idf e) = Some (log (f64_add (f64_div (f64_add (f64_sub N df) half) (f64_add df half)) (f64_of_Z 1)))) /\
  (forall t, documents_with lower fields t docs 0 -> assoc t (b_df e) = None /\ assoc t (b_idf e) = assoc t (b_idf old)) /\
  (forall sizes, Forall2 (size lower fields) docs sizes -> (Z.of_nat (list_sum sizes) <= 2 ^ 53)%Z ->
     b_avg e = f64_div (f64_of_Z (Z.of_nat (list_sum sizes))) (f64_of_Z (Z.of_nat (length docs)))).
Proof.
  intros lower fields log k1 b earlier docs old e.
  assert (Old : forall l, let o := fold_left (bm25_fit lower fields log) l (new_bm25 k1 b) in
    NoDup (b_voc o) /\ b_k1 o = k1 /\ b_b o = b /\ forall t, In t (b_voc o) <-> exists c d, In c l /\ In d c /\ term_of lower fields t d).
  { intros l. induction l as [|x l IH] using rev_ind; cbv zeta in *.
    - split; [constructor|]. split; [reflexivity|]. split; [reflexivity|]. intros t. split; [intros []|intros (c & d & [] & _)].
    - rewrite fold_left_app. cbn [fold_left]. set (o := fold_left (bm25_fit lower fields log) l (new_bm25 k1 b)) in *. destruct IH as (I1 & I2 & I3 & I4).
      split; [apply add_terms_nodup; exact I1|]. split; [exact I2|]. split; [exact I3|]. intros t. unfold bm25_fit. cbn [b_voc]. rewrite add_terms_in, I4, in_concat. split.
      + intros [(c & d & C & D & T)|(ts & M & T)]; [exists c, d; split; [apply in_or_app; auto|auto]|].
        apply in_map_iff in M as (d & <- & D). exists x, d. split; [apply in_or_app; right; left; reflexivity|]. split; [exact D|]. apply tokenize_in. exact T.
      + intros (c & d & C & D & T). apply in_app_iff in C as [C|[<-|[]]]; [left; eauto|]. right. exists (tokenize lower fields d). split; [apply in_map; exact D|apply tokenize_in; exact T]. }
  assert (V : forall t, In t (b_voc e) <-> exists c d, In c (earlier ++ [docs]) /\ In d c /\ term_of lower fields t d).
  { intros t. destruct (Old (earlier ++ [docs])) as (_ & _ & _ & X). rewrite fold_left_app in X. apply X. }
  destruct (Old earlier) as (N0 & K1 & B1 & _). fold old in N0, K1, B1.
  split; [apply add_terms_nodup; exact N0|]. split; [exact V|]. split; [exact K1|]. split; [exact B1|].
  assert (Idf : forall t, assoc t (b_idf e) = match assoc t (doc_counts (map (tokenize lower fields) docs)) with Some n => Some (bm25_idf log (Z.of_nat (length docs)) n) | None => assoc t (b_idf old) end).
  { intros t. apply (set_all_assoc (bm25_idf log (Z.of_nat (length docs)))). apply doc_counts_nodup. }
  split; [|split].
  - intros t n D NZ half N df. apply documents_holding in D. subst n.
    assert (E : assoc t (doc_counts (map (tokenize lower fields) docs)) = Some (Z.of_nat (holding t (map (tokenize lower fields) docs)))).
    { apply doc_counts_assoc. split; [lia|reflexivity]. }
    split; [exact E|]. rewrite Idf, E. reflexivity.
  - intros t D. apply documents_holding in D.
    assert (E : assoc t (doc_counts (map (tokenize lower fields) docs)) = None).
    { destruct (assoc t (doc_counts (map (tokenize lower fields) docs))) as [n|] eqn:E; auto. apply doc_counts_assoc in E. lia. }
    split; [exact E|]. rewrite Idf, E. reflexivity.
  - intros sizes F L. unfold e, bm25_fit. cbn [b_avg]. f_equal.
    assert (G : forall docs sizes s, Forall2 (size lower fields) docs sizes -> (0 <= s)%Z -> (s + Z.of_nat (list_sum sizes) <= 2 ^ 53)%Z ->
      fold_left (fun s t => f64_add s (f64_of_Z (Z.of_nat (length t)))) (map (tokenize lower fields) docs) (f64_of_Z s) = f64_of_Z (s + Z.of_nat (list_sum sizes))).
    { clear. induction docs as [|d docs IH]; intros sizes s F S L; inversion F as [|? n ? ns D F']; subst; [cbn; rewrite Z.add_0_r; reflexivity|].
      apply tokenize_size in D. subst n. cbn [map fold_left list_sum fold_right] in *. fold (list_sum ns) in L |- *.
      rewrite Nat2Z.inj_add in L |- *. rewrite f64_add_int by lia. rewrite (IH ns) by (auto; lia). f_equal. lia. }
    specialize (G docs sizes 0%Z F (Z.le_refl 0)). rewrite Z.add_0_l in G. exact (G L).
Qed.
Print Assumptions bm25_fit_exact.

(** A text is encoded as its terms, each weighted by its own frequency. *)
Theorem bm25_encode_exact :
  forall lower fields e text n, size lower fields text n ->
  NoDup (map fst (bm25_encode lower fields e text)) /\
  forall t w, In (t, w) (bm25_encode lower fields e text) <->
    term_of lower fields t text /\
    let tf := f64_of_Z (Z.of_nat (times lower fields t text)) in
    let one := f64_of_Z 1 in
    let idf := match assoc t (b_idf e) with Some x => x | None => one end in
    let norm := f64_add (f64_sub one (b_b e)) (f64_mul (b_b e) (f64_div (f64_of_Z (Z.of_nat n)) (b_avg e))) in
    w = f64_mul idf (f64_div (f64_mul tf (f64_add (b_k1 e) one)) (f64_add tf (f64_mul (b_k1 e) norm))).
Proof.
  intros lower fields e text n S. apply tokenize_size in S. subst n. split.
  - unfold bm25_encode. rewrite map_map. cbn [fst]. apply term_freq_nodup.
  - intros t w. unfold bm25_encode. rewrite in_map_iff. split.
    + intros ([u k] & [= <- <-] & H). cbn [fst snd] in *. apply assoc_iff in H; [|apply term_freq_nodup]. apply term_freq_assoc in H as [H ->]. apply tokenize_in in H.
      split; [exact H|]. rewrite (tokenize_count _ _ _ _ H). reflexivity.
    + intros [T ->]. exists (t, Z.of_nat (times lower fields t text)). split; [reflexivity|]. apply assoc_iff; [apply term_freq_nodup|]. apply term_freq_assoc.
      split; [apply tokenize_in; exact T|]. rewrite (tokenize_count _ _ _ _ T). reflexivity.
Qed.
Print Assumptions bm25_encode_exact.

Theorem tfidf_fit_exact :
  forall lower fields log sub earlier docs,
  let old := fold_left (tfidf_fit lower fields log) earlier (new_tfidf sub) in
  let e := tfidf_fit lower fields log old docs in
  NoDup (t_voc e) /\
  (forall t, In t (t_voc e) <-> exists c d, In c (earlier ++ [docs]) /\ In d c /\ term_of lower fields t d) /\
  t_sub e = sub /\
  (forall t n, documents_with lower fields t docs n -> n <> 0%nat ->
     assoc t (t_df e) = Some (Z.of_nat n) /\
     assoc t (t_idf e) = Some (log (f64_div (f64_of_Z (Z.of_nat (length docs))) (f64_of_Z (Z.of_nat n))))) /\
  (forall t, documents_with lower fields t docs 0 -> assoc t (t_df e) = None /\ assoc t (t_idf e) = assoc t (t_idf old)).
Proof.
  intros lower fields log sub earlier docs old e.
  assert (Old : forall l, let o := fold_left (tfidf_fit lower fields log) l (new_tfidf sub) in
    NoDup (t_voc o) /\ t_sub o = sub /\ forall t, In t (t_voc o) <-> exists c d, In c l /\ In d c /\ term_of lower fields t d).
  { intros l. induction l as [|x l IH] using rev_ind; cbv zeta in *.
    - split; [constructor|]. split; [reflexivity|]. intros t. split; [intros []|intros (c & d & [] & _)].
    - rewrite fold_left_app. cbn [fold_left]. set (o := fold_left (tfidf_fit lower fields log) l (new_tfidf sub)) in *. destruct IH as (I1 & I2 & I4).
      split; [apply add_terms_nodup; exact I1|]. split; [exact I2|]. intros t. unfold tfidf_fit. cbn [t_voc]. rewrite add_terms_in, I4, in_concat. split.
      + intros [(c & d & C & D & T)|(ts & M & T)]; [exists c, d; split; [apply in_or_app; auto|auto]|].
        apply in_map_iff in M as (d & <- & D). exists x, d. split; [apply in_or_app; right; left; reflexivity|]. split; [exact D|]. apply tokenize_in. exact T.
      + intros (c & d & C & D & T). apply in_app_iff in C as [C|[<-|[]]]; [left; eauto|]. right. exists (tokenize lower fields d). split; [apply in_map; exact D|apply tokenize_in; exact T]. }
  assert (V : forall t, In t (t_voc e) <-> exists c d, In c (earlier ++ [docs]) /\ In d c /\ term_of lower fields t d).
  { intros t. destruct (Old (earlier ++ [docs])) as (_ & _ & X). rewrite fold_left_app in X. apply X. }
  destruct (Old earlier) as (N0 & K1 & _). fold old in N0, K1.
  split; [apply add_terms_nodup; exact N0|]. split; [exact V|]. split; [exact K1|].
  assert (Idf : forall t, assoc t (t_idf e) = match assoc t (doc_counts (map (tokenize lower fields) docs)) with
      Some n => Some (log (f64_div (f64_of_Z (Z.of_nat (length docs))) (f64_of_Z n))) | None => assoc t (t_idf old) end).
  { intros t. apply (set_all_assoc (fun n => log (f64_div (f64_of_Z (Z.of_nat (length docs))) (f64_of_Z n)))). apply doc_counts_nodup. }
  split.
  - intros t n D NZ. apply documents_holding in D. subst n.
    assert (E : assoc t (doc_counts (map (tokenize lower fields) docs)) = Some (Z.of_nat (holding t (map (tokenize lower fields) docs)))).
    { apply doc_counts_assoc. split; [lia|reflexivity]. }
    split; [exact E|]. rewrite Idf, E. reflexivity.
  - intros t D. apply documents_holding in D.
    assert (E : assoc t (doc_counts (map (tokenize lower fields) docs)) = None).
    { destruct (assoc t (doc_counts (map (tokenize lower fields) docs))) as [n|] eqn:E; auto. apply doc_counts_assoc in E. lia. }
    split; [exact E|]. rewrite Idf, E. reflexivity.
Qed.
Print Assumptions tfidf_fit_exact.

Theorem tfidf_encode_exact :
  forall lower fields log e text,
  NoDup (map fst (tfidf_encode lower fields log e text)) /\
  forall t w, In (t, w) (tfidf_encode lower fields log e text) <->
    exists idf, term_of lower fields t text /\ assoc t (t_idf e) = Some idf /\
      let tf := f64_of_Z (Z.of_nat (times lower fields t text)) in
      w = f64_mul (if t_sub e then f64_add (f64_of_Z 1) (log tf) else tf) idf.
Proof.
  intros lower fields log e text. split.
  - unfold tfidf_encode. pose proof (term_freq_nodup (tokenize lower fields text)) as N. induction (term_freq (tokenize lower fields text)) as [|[u k] l IH]; [constructor|].
    cbn [map fst] in N. apply NoDup_cons_iff in N as [N1 N2]. specialize (IH N2). cbn [flat_map fst snd]. destruct (assoc u (t_idf e)) as [x|]; auto. cbn [app map fst]. constructor; auto.
    intros H. apply in_map_iff in H as ([t w] & E & H). cbn in E. subst t. apply in_flat_map in H as ([u' k'] & H1 & H2). cbn [fst] in H2. destruct (assoc u' (t_idf e)); [|destruct H2].
    destruct H2 as [[= <- _]|[]]. apply N1. apply (in_map fst) in H1. exact H1.
  - intros t w. unfold tfidf_encode. rewrite in_flat_map. split.
    + intros ([u k] & H & G). cbn [fst snd] in G. destruct (assoc u (t_idf e)) as [x|] eqn:E; [|destruct G]. destruct G as [[= <- <-]|[]].
      apply assoc_iff in H; [|apply term_freq_nodup]. apply term_freq_assoc in H as [H ->]. apply tokenize_in in H. exists x. split; [exact H|]. split; [exact E|].
      rewrite (tokenize_count _ _ _ _ H). reflexivity.
    + intros (x & T & E & ->). exists (t, Z.of_nat (times lower fields t text)). split.
      * apply assoc_iff; [apply term_freq_nodup|]. apply term_freq_assoc. split; [apply tokenize_in; exact T|]. rewrite (tokenize_count _ _ _ _ T). reflexivity.
      * cbn [fst snd]. rewrite E. left. reflexivity.
Qed.
Print Assumptions tfidf_encode_exact.

(** A query is never routed to a route it has no term in common with. *)
Theorem sparse_route_common_term :
  forall lower fields encode orders sr q,
  (forall n w, same_map w (fst (orders n) w) /\ same_map w (snd (orders n) w)) ->
  (exists e, encode = bm25_encode lower fields e) \/ (exists log e, encode = tfidf_encode lower fields log e) ->
  an_name (sroute encode orders sr q) <> "" ->
  exists r u t, In r (sr_routes sr) /\ rt_name r = an_name (sroute encode orders sr q) /\ In u (rt_utts r) /\
    term_of lower fields t q /\ term_of lower fields t u.
Proof.
  intros lower fields encode orders sr q O E A.
  assert (K : forall text t, In t (map fst (encode text)) -> term_of lower fields t text).
  { intros text t H. apply in_map_iff in H as ([t' w] & Et & H). cbn in Et. subst t'. destruct E as [[e ->]|[log [e ->]]].
    - apply (bm25_encode_exact lower fields e text (length (tokenize lower fields text))) in H; [apply H|]. apply tokenize_size. reflexivity.
    - apply tfidf_encode_exact in H as (x & T & _). exact T. }
  destruct (String.eqb q "") eqn:Q; [exfalso; apply A; unfold sroute; rewrite Q; reflexivity|]. apply eqb_false in Q.
  destruct (sroute_table encode orders O sr q Q) as (tb & S & B1 & B2).
  set (a := sroute encode orders sr q) in *.
  assert (X : exists r xs x, In (r, xs) tb /\ In x xs /\ fgt x f_zero = true).
  { destruct (existsb (fun e => existsb (fun x => fgt x f_zero) (snd e)) tb) eqn:X.
    - apply existsb_exists in X as ([r xs] & H & X). apply existsb_exists in X as (x & Hx & X). exists r, xs, x. auto.
    - exfalso. apply A. apply B1. intros r xs x H Hx. destruct (fgt x f_zero) eqn:G; auto. exfalso. assert (Y : existsb (fun e => existsb (fun x => fgt x f_zero) (snd e)) tb = true); [|congruence].
      apply existsb_exists. exists (r, xs). split; auto. apply existsb_exists. exists x. auto. }
  destruct (B2 X) as (t1 & r & xs & t2 & T & N & _ & I & G & _).
  assert (P : exists a b u, In r (sr_routes sr) /\ In u (rt_utts r) /\ same_map (encode q) a /\ same_map (encode u) b /\ fgt (sparse_sim a b) f_zero = true).
  { assert (J : In (r, xs) tb) by (rewrite T; apply in_or_app; right; left; reflexivity). unfold scored_routes in S. clear -S J I G.
    induction S as [|r0 e rs tb [E1 E2] S IH]; [destruct J|]. destruct J as [->|J].
    - cbn [fst snd] in *. subst r0. clear IH. revert I. induction E2 as [|u x us ys (w1 & w2 & Pa & Pb & Ex) E2 IH2]; [intros []|]. intros [Ix|I].
      + apply sparse_sim_cosine in Ex. rewrite <- Ix, Ex in G. exists w1, w2, u. split; [left; reflexivity|]. split; [left; reflexivity|]. auto.
      + destruct (IH2 I) as (a' & b' & u' & H1 & H2 & H3). exists a', b', u'. split; [exact H1|]. split; [right; exact H2|exact H3].
    - destruct (IH J) as (a' & b' & u' & H1 & H2). exists a', b', u'. split; [right; exact H1|exact H2]. }
  destruct P as (m1 & m2 & u & R & U & P1 & P2 & G2). exists r, u.
  destruct (existsb (fun t => existsb (String.eqb t) (map fst m2)) (map fst m1)) eqn:C.
  - apply existsb_exists in C as (t & H1 & H2). apply existsb_exists in H2 as (t' & H2 & E2). apply String.eqb_eq in E2. subst t'. exists t. split; [exact R|]. split; [auto|]. split; [exact U|]. split; apply K.
    + apply (Permutation_in t (Permutation_map fst (Permutation_sym P1))). exact H1.
    + apply (Permutation_in t (Permutation_map fst (Permutation_sym P2))). exact H2.
  - exfalso. rewrite (nothing_not_positive (sparse_sim m1 m2)) in G2; [discriminate|]. apply sparse_sim_disjoint. intros t H1 H2.
    assert (Y : existsb (fun t => existsb (String.eqb t) (map fst m2)) (map fst m1) = true); [|congruence]. apply existsb_exists. exists t. split; [exact H1|]. apply existsb_exists. exists t.
    split; [exact H2|apply String.eqb_refl].
Qed.
Print Assumptions sparse_route_common_term.

(** *** examples *)
Definition same_order (n : nat) : (weights -> weights) * (weights -> weights) := ((fun w => w), (fun w => w)).
Definition flipped (n : nat) : (weights -> weights) * (weights -> weights) := ((@rev _), (@rev _)).
Lemma flipped_ok : forall n w, same_map w (fst (flipped n) w) /\ same_map w (snd (flipped n) w).
Proof. intros n w. split; apply Permutation_rev. Qed.
Lemma same_order_ok : forall n w, same_map w (fst (same_order n) w) /\ same_map w (snd (same_order n) w).
Proof. intros n w. split; apply Permutation_refl. Qed.
Definition low (s : string) : string := s.
Definition words : string -> list string := words_of "".
(** Any function may stand for the logarithm. *)
Definition some_log (x : float) : float := x.
Definition k1_default : float := f64_div (f64_of_Z 3) (f64_of_Z 2).
Definition b_default : float := f64_div (f64_of_Z 3) (f64_of_Z 4).
Definition corpus : list string := ["red fox red"; "blue sea"; "the red sea"].
Definition fitted : bm25 := bm25_fit low words some_log (new_bm25 k1_default b_default) corpus.
Definition sample : srouter :=
  {| sr_routes := [rt_ "animal" ["red fox"]; rt_ "water" ["blue sea"; "green sea"]]; sr_threshold := f64_div (f64_of_Z 1) (f64_of_Z 4) |}.
Example bm25_fit_ex :
  b_voc fitted = ["red"; "fox"; "blue"; "sea"] /\ assoc "red" (b_df fitted) = Some 2%Z /\ b_avg fitted = f64_div (f64_of_Z 7) (f64_of_Z 3) /\
  documents_with low words "red" corpus 2 /\ Forall2 (size low words) corpus [3; 2; 2]%nat.
Proof.
  split; [vm_compute; reflexivity|]. split; [vm_compute; reflexivity|]. split; [vm_compute; reflexivity|]. split.
  - apply documents_holding. vm_compute. reflexivity.
  - repeat (apply Forall2_cons; [apply tokenize_size; vm_compute; reflexivity|]). apply Forall2_nil.
Qed.
Example tfidf_fit_ex :
  let e := tfidf_fit low words some_log (new_tfidf false) corpus in
  t_voc e = ["red"; "fox"; "blue"; "sea"] /\ assoc "sea" (t_df e) = Some 2%Z /\ map fst (tfidf_encode low words some_log e "a new red red sea") = ["red"; "sea"].
Proof. vm_compute. auto. Qed.
Example sparse_route_ex :
  let a := sroute (bm25_encode low words fitted) flipped sample "the deep sea" in
  an_name a = "water" /\ an_matched a = true /\ an_name (sroute (bm25_encode low words fitted) flipped sample "a green fox") = "animal" /\
  an_name (sroute (bm25_encode low words fitted) flipped sample "unknown words") = "".
Proof. vm_compute. auto. Qed.

(** A BM25 encoder that was never fitted has average length 0: a query that is word for
    word an utterance scores 0 and is not routed. *)
Theorem bm25_unfitted_refuted :
  exists k1 b sr q r,
    sr_routes sr = [r] /\ rt_utts r = [q] /\
    forall lower fields, fields (lower q) = [q] ->
    let a := sroute (bm25_encode lower fields (new_bm25 k1 b)) same_order sr q in
    an_name a = "" /\ an_score a = f_zero /\ an_matched a = false.
Proof.
  exists k1_default, b_default, {| sr_routes := [rt_ "animal" ["fox"]]; sr_threshold := f_zero |}, "fox", (rt_ "animal" ["fox"]).
  split; [reflexivity|]. split; [reflexivity|]. intros lower fields E a.
  assert (T : tokenize lower fields "fox" = ["fox"]) by (unfold tokenize; rewrite E; reflexivity).
  assert (X : bm25_encode lower fields (new_bm25 k1_default b_default) "fox" = bm25_encode low words (new_bm25 k1_default b_default) "fox").
  { unfold bm25_encode. rewrite T. vm_compute. reflexivity. }
  assert (A : a = {| an_name := ""; an_score := f_zero; an_matched := false; an_handler := None |}); [|rewrite A; auto].
  unfold a, sroute. cbn [String.eqb Ascii.eqb sr_routes sr_threshold sscan sscan_utts rt_utts rt_ same_order fst snd Bool.eqb]. rewrite X. vm_compute. reflexivity.
Qed.
(** A TF-IDF encoder fitted on one document weighs every term 0, because ln(1/1) = 0. *)
Theorem tfidf_single_document_refuted :
  exists docs sr q r,
    docs = [q] /\ sr_routes sr = [r] /\ rt_utts r = [q] /\
    forall log sub, log (f64_of_Z 1) = f_zero ->
    let a := sroute (tfidf_encode low words log (tfidf_fit low words log (new_tfidf sub) docs)) same_order sr q in
    an_name a = "" /\ an_score a = f_zero.
Proof.
  exists ["fox"], {| sr_routes := [rt_ "animal" ["fox"]]; sr_threshold := f_zero |}, "fox", (rt_ "animal" ["fox"]).
  split; [reflexivity|]. split; [reflexivity|]. split; [reflexivity|]. intros log sub L.
  assert (X : tfidf_encode low words log (tfidf_fit low words log (new_tfidf sub) ["fox"]) "fox" = [("fox", f_zero)]).
  { assert (F : t_idf (tfidf_fit low words log (new_tfidf sub) ["fox"]) = [("fox", f_zero)]).
    { unfold tfidf_fit. cbn [t_idf]. change (doc_counts (map (tokenize low words) ["fox"])) with [("fox", 1%Z)]. cbn [fold_left fst snd length]. 
      change (f64_div (f64_of_Z (Z.of_nat 1)) (f64_of_Z 1)) with (f64_of_Z 1). rewrite L. reflexivity. }
    unfold tfidf_encode. change (term_freq (tokenize low words "fox")) with [("fox", 1%Z)]. cbn [flat_map fst snd]. rewrite F. cbn [assoc String.eqb Ascii.eqb Bool.eqb].
    change (t_sub (tfidf_fit low words log (new_tfidf sub) ["fox"])) with sub. rewrite L. destruct sub; reflexivity. }
  intros a. assert (A : a = {| an_name := ""; an_score := f_zero; an_matched := false; an_handler := None |}); [|rewrite A; auto].
  unfold a, sroute. cbn [String.eqb Ascii.eqb sr_routes sr_threshold sscan sscan_utts rt_utts rt_ same_order fst snd Bool.eqb]. rewrite X. vm_compute. reflexivity.
Qed.

(** ** TopTerms *)
Theorem top_terms_exact :
  forall ord srt vec k, sort_ok (fun a b : string * float => fgt (snd a) (snd b)) srt -> Permutation vec (ord vec) ->
  (forall t x, In (t, x) vec -> not_nan x) ->
  is_topk (fun a b => fgt (snd a) (snd b)) (if Z.ltb 0 k then Z.to_nat k else length vec) vec (top_terms ord srt vec k).
Proof.
  intros ord srt vec k S P N.
  assert (W : weak_order_on (fun a b : string * float => fgt (snd a) (snd b)) (ord vec)).
  { apply (weak_order_desc (fun x : string * float => snd x)). intros [t x] H. apply (N t). apply (Permutation_in _ (Permutation_sym P)). exact H. }
  assert (G : forall n, is_topk (fun a b : string * float => fgt (snd a) (snd b)) n vec (firstn n (srt (ord vec)))).
  { intros n. destruct (topk_of_sort _ srt n (ord vec) S W) as (rest & A & B & C & D). exists rest. split; [eapply Permutation_trans; [exact P|exact A]|]. split; [|split; assumption].
    rewrite B. f_equal. apply Permutation_length, Permutation_sym. exact P. }
  assert (L : length (srt (ord vec)) = length vec) by (rewrite <- (Permutation_length (proj1 (S (ord vec)))); apply Permutation_length, Permutation_sym; exact P).
  unfold top_terms. destruct vec as [|v0 vec0] eqn:V.
  - exists []. split; [constructor|]. split; [cbn; lia|]. split; [constructor|intros x y []].
  - rewrite <- V in *. destruct (Z.ltb 0 k) eqn:K; cbn [andb].
    + destruct (Z.ltb k (Z.of_nat (length (srt (ord vec))))) eqn:M; [apply G|]. specialize (G (Z.to_nat k)). rewrite firstn_all2 in G; [exact G|]. lia.
    + specialize (G (length vec)). rewrite <- L in G at 2. rewrite firstn_all in G. exact G.
Qed.
Print Assumptions top_terms_exact.
Example top_terms_ex :
  let vec := [("a", f64_of_Z 1); ("b", f64_of_Z 3); ("c", f64_of_Z 2)] in
  map fst (top_terms (@rev _) (isort (fun a b => fgt (snd a) (snd b))) vec 2) = ["b"; "c"] /\
  map fst (top_terms (@rev _) (isort (fun a b => fgt (snd a) (snd b))) vec 0) = ["b"; "c"; "a"].
Proof. vm_compute. auto. Qed.

(** ** HybridRouter *)
(** The decision of a hybrid router from the answers of its two halves. *)
Definition hybrid_answer (alpha thr : float) (d s : answer) (a : hanswer) : Prop :=
  ha_dense a = an_score d /\ ha_sparse a = an_score s /\
  ha_score a = f64_add (f64_mul alpha (an_score d)) (f64_mul (f64_sub (f64_of_Z 1) alpha) (an_score s)) /\
  (ha_matched a = true <-> fge (ha_score a) thr = true) /\
  let named x := ha_name a = an_name x /\ ha_handler a = an_handler x in
  (an_matched d = true -> named d) /\
  (an_matched d = false -> an_matched s = true -> named s) /\
  (an_matched d = false -> an_matched s = false ->
     (ha_matched a = false -> ha_name a = "" /\ ha_handler a = None) /\
     (ha_matched a = true -> (fgt (an_score d) (an_score s) = true /\ an_name d <> "" -> named d) /\
                             (~ (fgt (an_score d) (an_score s) = true /\ an_name d <> "") -> an_name s <> "" -> named s) /\
                             (~ (fgt (an_score d) (an_score s) = true /\ an_name d <> "") -> an_name s = "" -> ha_name a = "" /\ ha_handler a = None))).
(** The hybrid answer follows from the answers the two halves would give alone. *)
Theorem hybrid_route_exact :
  forall I srt noise md sc encode orders em h q, q <> "" ->
  (forall x, snd (route_query I srt noise md sc em (h_dense I h) q) = Err x -> hroute I srt noise md sc encode orders em h q = Err x) /\
  (forall d, snd (route_query I srt noise md sc em (h_dense I h) q) = Ok d ->
     exists a, hroute I srt noise md sc encode orders em h q = Ok a /\
       hybrid_answer (h_alpha I h) (h_threshold I h) d (sroute encode orders (h_sparse I h) q) a).
Proof.
  intros I srt noise md sc encode orders em h q Q. apply eqb_false in Q. unfold hroute. rewrite Q. split; [intros x ->; reflexivity|]. intros d ->. cbn [bind].
  eexists. split; [reflexivity|]. set (s := sroute encode orders (h_sparse I h) q). set (al := h_alpha I h). set (th := h_threshold I h).
  unfold combine_answers. set (c := f64_add _ _). unfold hybrid_answer. fold c.
  destruct (an_matched d) eqn:D; cbn [ha_dense ha_sparse ha_score ha_matched ha_name ha_handler].
  { split; [reflexivity|]. split; [reflexivity|]. split; [reflexivity|]. split; [reflexivity|]. cbv zeta. split; [auto|]. split; intros; discriminate. }
  destruct (an_matched s) eqn:M; cbn [ha_dense ha_sparse ha_score ha_matched ha_name ha_handler].
  { split; [reflexivity|]. split; [reflexivity|]. split; [reflexivity|]. split; [reflexivity|]. cbv zeta. split; [intros; discriminate|]. split; [auto|]. intros; discriminate. }
  destruct (fge c th) eqn:F; cbn [ha_dense ha_sparse ha_score ha_matched ha_name ha_handler].
  2:{ split; [reflexivity|]. split; [reflexivity|]. split; [reflexivity|]. rewrite F. split; [split; discriminate|]. cbv zeta. split; [intros; discriminate|]. split; [intros; discriminate|].
      intros _ _. split; [auto|]. intros; discriminate. }
  destruct (fgt (an_score d) (an_score s)) eqn:G; cbn [andb]; [destruct (String.eqb (an_name d) "") eqn:E1; cbn [negb]|].
  2:{ apply eqb_false in E1. cbn [ha_dense ha_sparse ha_score ha_matched ha_name ha_handler]. rewrite F. split; [reflexivity|]. split; [reflexivity|]. split; [reflexivity|]. split; [tauto|].
      cbv zeta. split; [intros; discriminate|]. split; [intros; discriminate|]. intros _ _. split; [intros; discriminate|]. intros _. tauto. }
  1: apply String.eqb_eq in E1.
  all: destruct (String.eqb (an_name s) "") eqn:E2; cbn [negb ha_dense ha_sparse ha_score ha_matched ha_name ha_handler]; [apply String.eqb_eq in E2|apply eqb_false in E2];
    rewrite F; (split; [reflexivity|]); (split; [reflexivity|]); (split; [reflexivity|]); (split; [tauto|]); cbv zeta; (split; [intros; discriminate|]); (split; [intros; discriminate|]);
    intros _ _; (split; [intros; discriminate|]); intros _.
  all: split; [intros [? ?]; congruence|]; split; [intros _ ?; auto; congruence|intros _ ?; auto; congruence].
Qed.
Print Assumptions hybrid_route_exact.

Definition hybrid (alpha thr dthr sthr : float) (ds ss : list route) : hrouter list_index :=
  {| h_dense := rrun list_index (isort by_score) no_noise Linear cosine_scorer (new_router list_index dthr SimilarityModel.cosine true) (map (fun r => call (CAdd (Some r))) ds);
     h_sparse := {| sr_routes := ss; sr_threshold := sthr |}; h_alpha := alpha; h_threshold := thr |}.
Definition hybrid_query (h : hrouter list_index) (q : string) : outcome hanswer :=
  hroute list_index (isort by_score) no_noise Linear cosine_scorer (bm25_encode low words fitted) same_order steady h q.
Definition f_quarter : float := f64_div (f64_of_Z 1) (f64_of_Z 4).
Example hybrid_route_ex :
  match hybrid_query (hybrid rthreshold rthreshold rthreshold f_quarter [greet; leave] [rt_ "greet" ["hello sea"]; rt_ "leave" ["bye fox"]]) "hello" with
  | Ok a => ha_name a = "greet" /\ ha_matched a = true
  | _ => False
  end.
Proof. vm_compute. auto. Qed.
(** A route is named although nothing matched, and one route is named with the other
    half's score for a different route. *)
Theorem hybrid_unmatched_name_refuted :
  exists h q a, hybrid_query h q = Ok a /\ ha_name a = "greet" /\ ha_matched a = false.
Proof.
  exists (hybrid f_quarter rthreshold rthreshold f_quarter [greet] []), "hello". eexists. split; [vm_compute; reflexivity|]. vm_compute. auto.
Qed.
Theorem hybrid_mixed_scores_refuted :
  exists h q a,
    hybrid_query h q = Ok a /\ ha_matched a = true /\ ha_name a = "leave" /\ fgt (ha_sparse a) f_zero = true /\
    (forall r, In r (sr_routes (h_sparse _ h)) -> rt_name r <> "leave").
Proof.
  exists (hybrid rthreshold rthreshold rthreshold f_quarter [leave] [rt_ "water" ["blue sea"]]), "sea". eexists. split; [vm_compute; reflexivity|].
  split; [vm_compute; reflexivity|]. split; [vm_compute; reflexivity|]. split; [vm_compute; reflexivity|]. intros r [<-|[]]. discriminate.
Qed.
(** Add may fail and leave the dense half registered. *)
Theorem hybrid_add_atomic_refuted :
  exists h d s, snd (hadd list_index steady (fun _ => good_env) h (Some d) (Some s)) = Err EOther /\
    list_routes list_index (h_dense _ h) = [] /\
    list_routes list_index (h_dense _ (fst (hadd list_index steady (fun _ => good_env) h (Some d) (Some s)))) = ["greet"].
Proof. exists (hybrid f_quarter rthreshold rthreshold f_quarter [] []), greet, (rt_ "greet" []). vm_compute. auto. Qed.

(** ** FunctionRouter *)
(** The schema in force for a name: the last one added under it. *)
Definition in_force (adds : list (option fschema)) (n : string) (f : fschema) : Prop :=
  exists before after, adds = before ++ Some f :: after /\ fs_name f = n /\ n <> "" /\
    forall g, In (Some g) after -> fs_name g <> n.
Definition schemas (adds : list (option fschema)) : list (string * fschema) := fold_left (fun m s => fst (fadd m s)) adds [].
Lemma schemas_assoc adds n f : assoc n (schemas adds) = Some f <-> in_force adds n f.
Proof.
  unfold schemas. induction adds as [|s adds IH] using rev_ind.
  - split; [discriminate|]. intros (b & a & E & _). destruct b; discriminate.
  - rewrite fold_left_app. cbn [fold_left]. set (m := fold_left (fun m s => fst (fadd m s)) adds []) in *.
    assert (Keep : (forall g, s = Some g -> fs_name g <> n) -> (in_force (adds ++ [s]) n f <-> in_force adds n f)).
    { intros K. split.
      - intros (b & a & E & A & B & C). destruct a as [|y a] using rev_ind.
        + apply app_inj_tail in E as [_ E]. destruct (K f E A).
        + clear IHa. change (b ++ Some f :: a ++ [y]) with (b ++ (Some f :: a) ++ [y]) in E. rewrite app_assoc in E. apply app_inj_tail in E as [E1 E2]. subst adds y.
          exists b, a. split; [reflexivity|]. split; [exact A|]. split; [exact B|]. intros g G. apply C. apply in_or_app. auto.
      - intros (b & a & -> & A & B & C). exists b, (a ++ [s]). split; [rewrite <- app_assoc; reflexivity|]. split; [exact A|]. split; [exact B|]. intros g G.
        apply in_app_iff in G as [G|[G|[]]]; auto. }
    destruct s as [g|]; cbn [fadd].
    + destruct (String.eqb (fs_name g) "") eqn:Z; cbn [fst].
      * apply String.eqb_eq in Z. split.
        -- intros H. apply IH in H. destruct H as (b & a & E & A & B & C). apply Keep; [|exists b, a; auto]. intros g' [= <-]. congruence.
        -- intros H. apply IH. destruct H as (b & a & E & A & B & C). apply Keep; [|exists b, a; auto]. intros g' [= <-]. congruence.
      * apply eqb_false in Z. cbn [assoc]. destruct (String.eqb n (fs_name g)) eqn:X.
        -- apply String.eqb_eq in X. split.
           ++ intros [= <-]. exists adds, []. split; [reflexivity|]. split; [auto|]. split; [congruence|intros ? []].
           ++ intros (b & a & E & A & B & C). f_equal. destruct a as [|y a] using rev_ind; [apply app_inj_tail in E as [_ E]; congruence|]. clear IHa.
              change (b ++ Some f :: a ++ [y]) with (b ++ (Some f :: a) ++ [y]) in E. rewrite app_assoc in E. apply app_inj_tail in E as [_ E]. subst y.
              exfalso. apply (C g); [apply in_or_app; right; left; reflexivity|congruence].
        -- apply eqb_false in X. rewrite IH. symmetry. apply Keep. intros g' [= <-]. congruence.
    + cbn [fst]. rewrite IH. symmetry. apply Keep. discriminate.
Qed.
(** A call is returned exactly for a matched, named route with a schema in force; a
    matched route without one is an error. *)
Theorem function_route_exact :
  forall V ext adds ans text,
  let r := froute V ext (schemas adds) (Ok ans) text in
  (an_matched ans = false \/ an_name ans = "" -> r = Ok None) /\
  (an_matched ans = true -> an_name ans <> "" ->
     (forall f, in_force adds (an_name ans) f ->
        exists c, r = Ok (Some c) /\ fc_name V c = an_name ans /\ fc_handler V c = fs_handler f /\
          fc_args V c = fst (ext text f) /\ fc_missing V c = snd (ext text f) /\ (fc_complete V c = true <-> snd (ext text f) = [])) /\
     ((forall f, ~ in_force adds (an_name ans) f) -> r = Err EOther)).
Proof.
  intros V ext adds ans text r. unfold r, froute. cbn [bind]. split.
  - intros [->| ->]; [reflexivity|]. rewrite orb_true_r. reflexivity.
  - intros -> N. apply eqb_false in N. rewrite N. cbn [negb orb]. split.
    + intros f F. pose proof F as (b & a & _ & Fn & _). apply schemas_assoc in F. rewrite F. destruct (ext text f) as [args missing]. eexists. split; [reflexivity|]. cbn.
      split; [exact Fn|]. split; [reflexivity|]. split; [reflexivity|]. split; [reflexivity|]. destruct missing; split; congruence.
    + intros H. destruct (assoc (an_name ans) (schemas adds)) as [f|] eqn:E; [|reflexivity]. apply schemas_assoc in E. destruct (H f E).
Qed.
Print Assumptions function_route_exact.

(** What one parameter's value is, when every registered pattern compiles. *)
Definition takes (V : Type) (pats : list (string * pattern V)) (guess : string -> string -> option V) (text n : string) (v : option V) : Prop :=
  (exists f w, assoc n pats = Some (Some f) /\ f text = Some w /\ v = Some w) \/
  ((assoc n pats = None \/ exists f, assoc n pats = Some (Some f) /\ f text = None) /\ v = guess text n).
Theorem function_extract_exact :
  forall V ord pats guess text f,
  Permutation (fs_params f) (ord (fs_params f)) -> (forall n p, assoc n pats = Some p -> p <> None) ->
  let (args, missing) := extract V ord pats guess text f in
  (forall n v, In (n, v) args <-> exists req, In (n, req) (fs_params f) /\ takes V pats guess text n (Some v)) /\
  (forall n, In n missing <-> In (n, true) (fs_params f) /\ takes V pats guess text n None).
Proof.
  intros V ord pats guess text f P W.
  assert (T : forall n req, exists v, takes V pats guess text n v /\ extract_one V pats guess text (n, req) = (v, match v with Some _ => false | None => req end)).
  { intros n req. unfold extract_one, takes, pattern in *. cbn [fst snd]. destruct (assoc n pats) as [[g|]|] eqn:A; [|destruct (W n None A eq_refl)|].
    - destruct (g text) as [w|] eqn:G; [exists (Some w); split; [left; eauto|cbn; rewrite ?G; reflexivity]|]. exists (guess text n). split; [right; split; [right; eauto|reflexivity]|]. cbn; rewrite ?G. destruct (guess text n); reflexivity.
    - exists (guess text n). split; [right; auto|]. destruct (guess text n); reflexivity. }
  assert (U : forall n v w, takes V pats guess text n v -> takes V pats guess text n w -> v = w).
  { intros n v w. unfold takes. intros [(g & x & A & B & ->)|[A ->]] [(g' & x' & A' & B' & ->)|[A' ->]]; auto.
    - congruence.
    - destruct A' as [A'|(g' & A' & B')]; congruence.
    - destruct A as [A|(g & A & B)]; congruence. }
  unfold extract. split.
  - intros n v. rewrite in_flat_map. split.
    + intros ([[m req] r] & H & G). cbn [fst snd] in G. apply in_map_iff in H as ([m' req'] & Ep & H). assert (E1 := f_equal fst Ep). assert (E3 := f_equal snd Ep). cbn [fst snd] in E1, E3. injection E1 as <- <-. subst r. apply (Permutation_in _ (Permutation_sym P)) in H.
      destruct (T m' req') as (w & T1 & T2). rewrite T2 in G. cbn [fst snd] in G. destruct w as [w|]; [|destruct G]. destruct G as [[= <- <-]|[]]. exists req'. auto.
    + intros (req & H & H2). exists ((n, req), extract_one V pats guess text (n, req)). split; [apply in_map_iff; exists (n, req); split; [reflexivity|]; apply (Permutation_in _ P); exact H|].
      destruct (T n req) as (w & T1 & T2). rewrite T2. rewrite (U n w (Some v) T1 H2). left. reflexivity.
  - intros n. rewrite in_flat_map. split.
    + intros ([[m req] r] & H & G). cbn [fst snd] in G. apply in_map_iff in H as ([m' req'] & Ep & H). assert (E1 := f_equal fst Ep). assert (E3 := f_equal snd Ep). cbn [fst snd] in E1, E3. injection E1 as <- <-. subst r. apply (Permutation_in _ (Permutation_sym P)) in H.
      destruct (T m' req') as (w & T1 & T2). rewrite T2 in G. cbn [fst snd] in G. destruct w as [w|]; [destruct G|]. destruct req'; [|destruct G]. destruct G as [<-|[]]. auto.
    + intros (H & H2). exists ((n, true), extract_one V pats guess text (n, true)). split; [apply in_map_iff; exists (n, true); split; [reflexivity|]; apply (Permutation_in _ P); exact H|].
      destruct (T n true) as (w & T1 & T2). rewrite T2. rewrite (U n w None T1 H2). left. reflexivity.
Qed.
Print Assumptions function_extract_exact.
(** Execute runs the handler exactly on complete calls. *)
Theorem function_execute_exact :
  forall V c h args, fexecute V c = Ok (h, args) <-> fc_handler V c = Some h /\ fc_complete V c = true /\ args = fc_args V c.
Proof.
  intros V c h args. unfold fexecute. destruct (fc_handler V c) as [x|]; [|split; [discriminate|intros [? _]; discriminate]]. destruct (fc_complete V c); cbn.
  - split; [intros [= <- <-]; auto|]. intros ([= <-] & _ & ->). reflexivity.
  - split; [discriminate|intros (_ & ? & _); discriminate].
Qed.
Print Assumptions function_execute_exact.
Definition weather : fschema := {| fs_name := "weather"; fs_params := [("city", true); ("days", false)]; fs_handler := Some 3%Z |}.
Definition matched_weather : answer := {| an_name := "weather"; an_score := f64_of_Z 1; an_matched := true; an_handler := None |}.
Definition guesser (text n : string) : option nat := if String.eqb n "days" then None else Some (String.length text).
Example function_route_ex :
  froute nat (extract nat (@rev _) [("days", Some (fun _ => None))] guesser) (schemas [Some weather]) (Ok matched_weather) "in Oslo"
  = Ok (Some {| fc_name := "weather"; fc_args := [("city", 7%nat)]; fc_complete := true; fc_missing := []; fc_handler := Some 3%Z |}).
Proof. reflexivity. Qed.
(** A pattern that does not compile makes a required parameter neither extracted nor
    missing: the call counts as complete and its handler runs without it. *)
Theorem function_invalid_pattern_refuted :
  exists pats text c, froute nat (extract nat (fun l => l) pats guesser) (schemas [Some weather]) (Ok matched_weather) text = Ok (Some c) /\
    In ("city", true) (fs_params weather) /\ fexecute nat c = Ok (3%Z, []).
Proof. exists [("city", None)], "in Oslo". eexists. split; [reflexivity|]. split; [left; reflexivity|reflexivity]. Qed.
