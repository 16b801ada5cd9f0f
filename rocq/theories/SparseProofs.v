(** Proofs about sparse encoders, sparse routing and the caching embedder. *)
From Coq Require Import String List NArith ZArith Bool Lia Permutation.
From Coq Require Import Floats.SpecFloat.
From Verif Require Import Base Floats64 StoreModel StoreProofs MultiVecProofs RouterModel RouterSpec RouterProofs SparseModel SparseSpec.
Import ListNotations.
Open Scope string_scope.
Open Scope list_scope.

(** * Counting *)
Definition value (t : string) (m : list (string * Z)) : Z := match assoc t m with Some n => n | None => 0%Z end.
Lemma count_in_assoc t u m : assoc t (count_in u m) = if String.eqb t u then Some (value u m + 1)%Z else assoc t m.
Proof.
  induction m as [|[k n] m IH]; cbn [count_in].
  - cbn. destruct (String.eqb t u); reflexivity.
  - unfold value in *. cbn [assoc]. rewrite (String.eqb_sym u k). destruct (String.eqb k u) eqn:E.
    + apply String.eqb_eq in E. subst k. cbn [assoc]. destruct (String.eqb t u) eqn:F; auto.
    + cbn [assoc]. rewrite IH. destruct (String.eqb t k) eqn:F; auto. apply String.eqb_eq in F. subst k. rewrite E. reflexivity.
Qed.
Lemma count_in_keys u m : map fst (count_in u m) = if existsb (String.eqb u) (map fst m) then map fst m else map fst m ++ [u].
Proof.
  induction m as [|[k n] m IH]; cbn [count_in map existsb fst]; auto. rewrite (String.eqb_sym k u). destruct (String.eqb u k) eqn:E; cbn [map fst orb]; auto.
  rewrite IH. destruct (existsb _ _); auto.
Qed.
Lemma count_in_nodup u m : NoDup (map fst m) -> NoDup (map fst (count_in u m)).
Proof.
  intros H. rewrite count_in_keys. destruct (existsb (String.eqb u) (map fst m)) eqn:E; auto. apply NoDup_app_intro; auto; [repeat constructor; cbn; tauto|].
  intros x Hx [<-|[]]. assert (X : existsb (String.eqb u) (map fst m) = true) by (apply existsb_exists; exists u; split; [exact Hx|apply String.eqb_refl]). congruence.
Qed.
Definition tally (l : list string) (m : list (string * Z)) : list (string * Z) := fold_left (fun m t => count_in t m) l m.
Lemma tally_nodup l : forall m, NoDup (map fst m) -> NoDup (map fst (tally l m)).
Proof. induction l as [|u l IH]; intros m H; auto. apply IH. apply count_in_nodup. exact H. Qed.
Lemma tally_assoc l t : forall m, assoc t (tally l m) = if in_dec string_dec t l then Some (value t m + Z.of_nat (count_occ string_dec l t))%Z else assoc t m.
Proof.
  induction l as [|u l IH]; intros m; [reflexivity|]. unfold tally in *. cbn [fold_left]. rewrite IH. unfold value. rewrite count_in_assoc. cbn [count_occ].
  destruct (string_dec u t) as [->|N].
  - rewrite String.eqb_refl. destruct (in_dec string_dec t l) as [I|I], (in_dec string_dec t (t :: l)) as [J|J]; cbn in J; try tauto; f_equal; unfold value.
    + destruct (assoc t m); lia.
    + apply (count_occ_not_In string_dec) in I. rewrite I. destruct (assoc t m); lia.
  - assert (E : String.eqb t u = false) by (apply eqb_false; congruence). rewrite E.
    destruct (in_dec string_dec t l) as [I|I], (in_dec string_dec t (u :: l)) as [J|J]; cbn in J; try tauto.
Qed.
Lemma term_freq_assoc ts t n : assoc t (term_freq ts) = Some n <-> In t ts /\ n = Z.of_nat (count_occ string_dec ts t).
Proof.
  unfold term_freq. fold (tally ts []). rewrite tally_assoc. cbn. destruct (in_dec string_dec t ts); split; [intros [= <-]; auto|intros [_ ->]; auto|discriminate|tauto].
Qed.
Lemma term_freq_nodup ts : NoDup (map fst (term_freq ts)).
Proof. apply (tally_nodup ts []). constructor. Qed.
Lemma assoc_iff {V} (m : list (string * V)) t n : NoDup (map fst m) -> (In (t, n) m <-> assoc t m = Some n).
Proof.
  intros N. split; [|apply assoc_in]. induction m as [|[k v] m IH]; [intros []|]. apply NoDup_cons_iff in N as [N1 N2]. intros [[= <- <-]|H].
  - cbn. rewrite String.eqb_refl. reflexivity.
  - cbn. destruct (String.eqb t k) eqn:E; auto. apply String.eqb_eq in E. subst k. destruct N1. apply (in_map fst) in H. exact H.
Qed.

Lemma add_terms_in ts t : forall voc, In t (fold_left add_term ts voc) <-> In t voc \/ In t ts.
Proof.
  induction ts as [|u ts IH]; intros voc; cbn [fold_left]; [cbn; tauto|]. rewrite IH. unfold add_term. destruct (mem u voc) eqn:E.
  - apply mem_In in E. cbn. split; [tauto|]. intros [H|[<-|H]]; auto.
  - rewrite in_app_iff. cbn. tauto.
Qed.
Lemma add_terms_nodup ts : forall voc, NoDup voc -> NoDup (fold_left add_term ts voc).
Proof.
  induction ts as [|u ts IH]; intros voc N; cbn [fold_left]; auto. apply IH. unfold add_term. destruct (mem u voc) eqn:E; auto.
  apply NoDup_app_intro; auto; [repeat constructor; cbn; tauto|]. intros x Hx [<-|[]]. apply mem_In in Hx. congruence.
Qed.
Lemma distinct_in ts t : In t (distinct ts) <-> In t ts.
Proof. unfold distinct. rewrite add_terms_in. cbn. tauto. Qed.
Lemma distinct_nodup ts : NoDup (distinct ts).
Proof. apply add_terms_nodup. constructor. Qed.
Lemma doc_counts_tally docs : doc_counts docs = tally (List.concat (map distinct docs)) [].
Proof.
  unfold doc_counts. generalize (@nil (string * Z)). induction docs as [|d docs IH]; intros m; [reflexivity|]. cbn [fold_left map List.concat]. unfold tally in *. rewrite fold_left_app. apply IH.
Qed.
Lemma doc_counts_nodup docs : NoDup (map fst (doc_counts docs)).
Proof. rewrite doc_counts_tally. apply tally_nodup. constructor. Qed.
Definition holding (t : string) (docs : list (list string)) : nat := length (filter (fun d => mem t d) docs).
Lemma holding_count t docs : count_occ string_dec (List.concat (map distinct docs)) t = holding t docs.
Proof.
  unfold holding. induction docs as [|d docs IH]; [reflexivity|]. cbn [map List.concat filter]. rewrite count_occ_app, IH. destruct (mem t d) eqn:E.
  - apply mem_In in E. apply (proj2 (distinct_in d t)) in E. rewrite (proj1 (NoDup_count_occ' string_dec (distinct d)) (distinct_nodup d) t E). reflexivity.
  - rewrite (proj1 (count_occ_not_In string_dec (distinct d) t)); [reflexivity|]. intros H. rewrite distinct_in in H. apply mem_In in H. congruence.
Qed.
Lemma doc_counts_assoc docs t n : assoc t (doc_counts docs) = Some n <-> (0 < holding t docs)%nat /\ n = Z.of_nat (holding t docs).
Proof.
  rewrite doc_counts_tally, tally_assoc, holding_count. cbn. destruct (in_dec string_dec t (List.concat (map distinct docs))) as [H|H].
  - apply (count_occ_In string_dec) in H. rewrite holding_count in H. split; [intros [= <-]; lia|intros [_ ->]; reflexivity].
  - apply (count_occ_not_In string_dec) in H. rewrite holding_count in H. split; [discriminate|lia].
Qed.

(** * Texts *)
Section Text.
Variables (lower : string -> string) (fields : string -> list string).
Lemma tokenize_in t text : In t (tokenize lower fields text) <-> term_of lower fields t text.
Proof.
  unfold tokenize, term_of. rewrite filter_In, andb_true_iff, negb_true_iff, Nat.ltb_lt. split.
  - intros (A & B & C). split; [exact A|]. split; [|exact C]. intros H. apply mem_In in H. congruence.
  - intros (A & B & C). split; [exact A|]. split; [|exact C]. destruct (mem t stop_words) eqn:E; auto. apply mem_In in E. tauto.
Qed.
Lemma filter_count (f : string -> bool) l t : f t = true -> count_occ string_dec (filter f l) t = count_occ string_dec l t.
Proof.
  intros F. induction l as [|x l IH]; auto. cbn [filter count_occ]. destruct (string_dec x t) as [->|N].
  - rewrite F. cbn [count_occ]. destruct (string_dec t t); [|congruence]. rewrite IH. reflexivity.
  - destruct (f x); cbn [count_occ]; auto. destruct (string_dec x t); [congruence|auto].
Qed.
Lemma tokenize_count t text : term_of lower fields t text -> count_occ string_dec (tokenize lower fields text) t = times lower fields t text.
Proof. intros H. apply tokenize_in in H. unfold tokenize in *. apply filter_In in H as [_ H]. apply filter_count. exact H. Qed.
Lemma filter_split {A} (f : A -> bool) l : Permutation l (filter f l ++ filter (fun x => negb (f x)) l).
Proof.
  induction l as [|x l IH]; [constructor|]. cbn [filter]. destruct (f x); cbn [negb app].
  - constructor. exact IH.
  - eapply Permutation_trans; [apply perm_skip; exact IH|]. apply Permutation_middle.
Qed.
Lemma tokenize_size text n : size lower fields text n <-> n = length (tokenize lower fields text).
Proof.
  set (f := fun w => negb (mem w stop_words) && Nat.ltb 1 (String.length w)).
  assert (F : forall t, In t (fields (lower text)) -> (f t = true <-> term_of lower fields t text)).
  { intros t I. rewrite <- tokenize_in. unfold tokenize. fold f. rewrite filter_In. tauto. }
  split.
  - intros (ws & sk & P & <- & A & B). unfold tokenize. fold f. rewrite (Permutation_length (Permutation_filter f _ _ P)), filter_app.
    rewrite (filter_all f ws), (filter_none f sk), app_nil_r; auto.
    + intros x Hx. destruct (f x) eqn:E; auto. apply F in E; [destruct (B x Hx E)|].
      apply (Permutation_in _ (Permutation_sym P)). apply in_or_app. auto.
    + intros x Hx. apply F; auto. apply (Permutation_in _ (Permutation_sym P)). apply in_or_app. auto.
  - intros ->. exists (tokenize lower fields text), (filter (fun x => negb (f x)) (fields (lower text))). split; [apply filter_split|]. split; [reflexivity|].
    split; [intros t; apply tokenize_in|]. intros t H. apply filter_In in H as [H G]. rewrite <- F by exact H. intros E. rewrite E in G. discriminate.
Qed.
Lemma documents_holding t docs n : documents_with lower fields t docs n <-> n = holding t (map (tokenize lower fields) docs).
Proof.
  set (f := fun d => mem t (tokenize lower fields d)).
  assert (F : forall d, f d = true <-> term_of lower fields t d) by (intros d; unfold f; rewrite mem_In; apply tokenize_in).
  assert (E : holding t (map (tokenize lower fields) docs) = length (filter f docs)).
  { unfold holding, f. clear F. induction docs as [|d docs IH]; [reflexivity|]. cbn [map filter]. destruct (mem t (tokenize lower fields d)); cbn [length]; congruence. }
  rewrite E. split.
  - intros (l & r & P & <- & A & B). rewrite (Permutation_length (Permutation_filter f _ _ P)), filter_app, (filter_all f l), (filter_none f r), app_nil_r; auto.
    + intros x Hx. destruct (f x) eqn:G; auto. apply F in G. destruct (B x Hx G).
    + intros x Hx. apply F; auto.
  - intros ->. exists (filter f docs), (filter (fun x => negb (f x)) docs). split; [apply filter_split|]. split; [reflexivity|].
    split; intros d H; apply filter_In in H as [_ H]; [apply F; exact H|]. rewrite <- F. intros G. rewrite G in H. discriminate.
Qed.
End Text.

(** * Weights *)
Lemma set_weight_assoc w t x u : assoc u (set_weight w t x) = if String.eqb u t then Some x else assoc u w.
Proof.
  unfold set_weight. cbn [assoc]. destruct (String.eqb u t) eqn:E; auto. apply eqb_false in E. induction w as [|[k v] w IH]; auto. cbn [filter fst]. destruct (String.eqb k t) eqn:F; cbn [negb].
  - apply String.eqb_eq in F. subst k. cbn [assoc]. assert (X : String.eqb u t = false) by (apply eqb_false; exact E). rewrite X. exact IH.
  - cbn [assoc]. destruct (String.eqb u k); auto.
Qed.
Lemma set_all_assoc (f : Z -> float) l u : NoDup (map fst l) -> forall w,
  assoc u (fold_left (fun w td => set_weight w (fst td) (f (snd td))) l w) = match assoc u l with Some n => Some (f n) | None => assoc u w end.
Proof.
  induction l as [|[k n] l IH]; intros N w; [reflexivity|]. apply NoDup_cons_iff in N as [N1 N2]. cbn [fold_left fst snd]. rewrite (IH N2), set_weight_assoc. cbn [assoc].
  destruct (String.eqb u k) eqn:E; auto. apply String.eqb_eq in E. subst k. rewrite (proj2 (assoc_none u l)); auto.
Qed.

(** * Similarity *)
Definition nothing (x : float) : Prop := match x with S754_zero _ | S754_nan => True | _ => False end.
Lemma mul_zero x : nothing (f64_mul x f_zero).
Proof. destruct x; exact I. Qed.
Lemma add_nothing x y : nothing x -> nothing y -> nothing (f64_add x y).
Proof. destruct x as [[]| | |], y as [[]| | |]; cbn; tauto. Qed.
Lemma div_nothing x y : nothing x -> nothing (f64_div x y).
Proof. destruct x, y; cbn; tauto. Qed.
Lemma nothing_not_positive x : nothing x -> fgt x f_zero = false.
Proof. destruct x as [[]| | |]; cbn; tauto. Qed.
Lemma sparse_sim_disjoint a b : (forall t, In t (map fst a) -> ~ In t (map fst b)) -> nothing (sparse_sim a b).
Proof.
  intros D. assert (G : forall s, nothing s -> nothing (fold_left (fun s x => f64_add s (f64_mul (snd x) (weight_of (fst x) b))) a s)).
  { induction a as [|[k x] a IH]; intros s H; auto. cbn [fold_left fst snd]. apply IH; [intros t T; apply D; right; exact T|]. apply add_nothing; auto.
    unfold weight_of. rewrite (proj2 (assoc_none k b)); [apply mul_zero|]. apply D. left. reflexivity. }
  unfold sparse_sim. destruct a as [|a1 a]; [exact I|]. destruct b as [|b1 b]; [exact I|]. destruct (_ || _); [exact I|]. apply div_nothing. apply G. exact I.
Qed.

Lemma fold_map {A} (f : A -> float) l : forall s, fold_left (fun s x => f64_add s (f x)) l s = fold_left f64_add (map f l) s.
Proof. induction l as [|x l IH]; intros s; auto. apply IH. Qed.
Lemma sparse_sim_cosine a b x : sparse_cosine a b x <-> x = sparse_sim a b.
Proof.
  unfold sparse_cosine, total. rewrite <- !fold_map. set (na := fold_left _ a f_zero). set (nb := fold_left _ b f_zero).
  assert (E : sparse_sim a b = if feq na f_zero || feq nb f_zero then f_zero else f64_div (fold_left (fun s x => f64_add s (f64_mul (snd x) (weight_of (fst x) b))) a f_zero) (f64_mul (f64_sqrt na) (f64_sqrt nb))).
  { unfold sparse_sim. destruct a as [|a1 a]; [reflexivity|]. destruct b as [|b1 b]; [|reflexivity]. destruct (feq na f_zero); reflexivity. }
  rewrite E. destruct (feq na f_zero), (feq nb f_zero); cbn [orb]; (split; [intros [H1 H2]; auto|intros ->; split; [intros []|]; try discriminate; auto]).
Qed.

(** * Routing *)
Section Route.
Variable encode : string -> weights.
Variable orders : nat -> (weights -> weights) * (weights -> weights).
Hypothesis Ord : forall n w, same_map w (fst (orders n) w) /\ same_map w (snd (orders n) w).
Lemma sscan_utts_table q r us : forall n best, exists xs, Forall2 (score_of encode q) us xs /\
  sscan_utts encode orders (encode q) r n us best = ((n + length us)%nat, best_of (map (fun x => (r, x)) xs) best).
Proof using Ord.
  induction us as [|u us IH]; intros n best.
  - exists []. split; [constructor|]. cbn. f_equal. lia.
  - cbn [sscan_utts]. set (s := sparse_sim _ _). destruct (IH (S n) (if fgt s (snd best) then (Some r, s) else best)) as (xs & F & E). exists (s :: xs). split.
    + constructor; auto. exists (fst (orders n) (encode q)), (snd (orders n) (encode u)). split; [apply Ord|]. split; [apply Ord|]. apply sparse_sim_cosine. reflexivity.
    + rewrite E. cbn [length map best_of]. f_equal. lia.
Qed.
Definition flat (table : list (route * list float)) : list (route * float) := flat_map (fun e => map (fun x => (fst e, x)) (snd e)) table.
Lemma sscan_table q rs : forall n best, exists table, scored_routes encode q rs table /\ sscan encode orders (encode q) n rs best = best_of (flat table) best.
Proof using Ord.
  induction rs as [|r rs IH]; intros n best; [exists []; split; [constructor|reflexivity]|]. cbn [sscan].
  destruct (sscan_utts_table q r (rt_utts r) n best) as (xs & F & E). rewrite E. destruct (IH (n + length (rt_utts r))%nat (best_of (map (fun x => (r, x)) xs) best)) as (tb & G & E2).
  exists ((r, xs) :: tb). split; [constructor; auto|]. rewrite E2. unfold flat. cbn [flat_map fst snd]. rewrite best_of_app. reflexivity.
Qed.
Lemma flat_in tb r x : In (r, x) (flat tb) <-> exists xs, In (r, xs) tb /\ In x xs.
Proof using Type.
  unfold flat. rewrite in_flat_map. split.
  - intros ([r' xs] & H & G). apply in_map_iff in G as (y & [= <- <-] & Y). eauto.
  - intros (xs & H & X). exists (r, xs). split; auto. apply in_map_iff. eauto.
Qed.
Lemma flat_split tb : forall l1 r m l2, flat tb = l1 ++ (r, m) :: l2 ->
  exists t1 xs t2, tb = t1 ++ (r, xs) :: t2 /\ In m xs /\ forall e, In e (flat t1) -> In e l1.
Proof using Type.
  induction tb as [|[r0 xs] tb IH]; intros l1 r m l2 E; [destruct l1; discriminate|]. unfold flat in E. cbn [flat_map fst snd] in E. fold (flat tb) in E.
  assert (C : (exists k, map (fun x => (r0, x)) xs = l1 ++ (r, m) :: k) \/ (exists k, l1 = map (fun x => (r0, x)) xs ++ k /\ flat tb = k ++ (r, m) :: l2)).
  { clear -E. revert l1 E. induction xs as [|x xs IH]; intros l1 E; cbn [map app] in E; [right; exists l1; auto|]. destruct l1 as [|y l1]; cbn [app] in E.
    - left. injection E as <- E. exists (map (fun x => (r0, x)) xs). subst. reflexivity.
    - injection E as <- E. destruct (IH l1 E) as [[k K]|[k [-> K]]]; [left; exists k; cbn; rewrite K; reflexivity|right; exists k; auto]. }
  destruct C as [[k K]|[k [-> K]]].
  - assert (I : In (r, m) (map (fun x => (r0, x)) xs)) by (rewrite K; apply in_or_app; right; left; reflexivity). apply in_map_iff in I as (x & [= <- <-] & X).
    exists [], xs, tb. split; [reflexivity|]. split; [exact X|intros e []].
  - destruct (IH _ _ _ _ K) as (t1 & ys & t2 & -> & Y & P). exists ((r0, xs) :: t1), ys, t2. split; [reflexivity|]. split; [exact Y|].
    intros e H. unfold flat in H. cbn [flat_map fst snd] in H. apply in_app_iff in H as [H|H]; apply in_or_app; auto.
Qed.
Lemma sroute_table sr q : q <> "" -> exists table, scored_routes encode q (sr_routes sr) table /\ best_answer table (sr_threshold sr) (sroute encode orders sr q).
Proof using Ord.
  intros Q. unfold sroute. apply eqb_false in Q. rewrite Q. destruct (sscan_table q (sr_routes sr) 0 (None, f_zero)) as (tb & F & E). exists tb. split; [exact F|]. rewrite E.
  destruct (best_of_spec (flat tb) None f_zero ltac:(discriminate)) as [[B A]|(l1 & r & m & l2 & S & B & G & M1 & M2)]; rewrite B; cbn [fst snd].
  - split; [auto|]. intros (r & xs & x & H & X & G). rewrite (A r x) in G; [discriminate|]. apply flat_in. eauto.
  - destruct (flat_split _ _ _ _ _ S) as (t1 & xs & t2 & T & M & P). split.
    + intros Z. rewrite (Z r xs m) in G; [discriminate| |exact M]. rewrite T. apply in_or_app. right. left. reflexivity.
    + intros _. exists t1, r, xs, t2. split; [exact T|]. split; [reflexivity|]. split; [reflexivity|]. split; [exact M|]. split; [exact G|].
      split; [intros r' ys y H Y; apply (M1 r'); apply flat_in; eauto|]. split; [intros r' ys y H Y; apply (M2 r'); apply P; apply flat_in; eauto|]. reflexivity.
Qed.
End Route.

(** * CachedEmbedder *)
(** An embedder that never lies: an answer is the text's vector. *)
Section Cached.
Variable emb : string -> list N.
Definition cache_ok (c : cache) : Prop := forall t v, assoc t c = Some v -> v = emb t.
Lemma cache_ok_cons c t : cache_ok c -> cache_ok ((t, emb t) :: c).
Proof. intros H u v. cbn. destruct (String.eqb u t) eqn:E; auto. apply String.eqb_eq in E. intros [= <-]. congruence. Qed.
(** Position i is filled with its text's vector or still waits in [u]. *)
Definition filling (ts : list string) (vs : list (option (list N))) (u : list (nat * string)) : Prop :=
  length vs = length ts /\ (forall i t, In (i, t) u -> nth_error ts i = Some t) /\
  forall i t, nth_error ts i = Some t -> nth_error vs i = Some (Some (emb t)) \/ In (i, t) u.
Lemma set_nth_length {A} i (x : A) l : (i < length l)%nat -> length (set_nth i x l) = length l.
Proof using Type. clear emb. intros H. unfold set_nth. rewrite app_length, firstn_length, Nat.min_l by lia. cbn [length]. rewrite skipn_length. lia. Qed.
Lemma nth_error_skipn {A} (l : list A) n i : nth_error (skipn n l) i = nth_error l (n + i).
Proof using Type. clear emb. revert l. induction n as [|n IH]; intros l; [reflexivity|]. destruct l as [|x l]; [destruct i; reflexivity|]. apply IH. Qed.
Lemma nth_error_firstn' {A} (l : list A) n i : (i < n)%nat -> nth_error (firstn n l) i = nth_error l i.
Proof using Type. clear emb. revert l i. induction n as [|n IH]; intros l i H; [lia|]. destruct l as [|x l]; [destruct i; reflexivity|]. destruct i as [|i]; [reflexivity|]. cbn. apply IH. lia. Qed.
Lemma set_nth_nth {A} i (x : A) l j : (i < length l)%nat -> nth_error (set_nth i x l) j = if Nat.eqb j i then Some x else nth_error l j.
Proof using Type. clear emb.
  intros H. unfold set_nth. assert (L : length (firstn i l) = i) by (rewrite firstn_length; lia). destruct (Nat.eqb_spec j i) as [->|N].
  - rewrite nth_error_app2 by lia. rewrite L, Nat.sub_diag. reflexivity.
  - destruct (Nat.lt_ge_cases j i) as [C|C].
    + rewrite nth_error_app1 by lia. apply nth_error_firstn'. exact C.
    + rewrite nth_error_app2 by lia. rewrite L. destruct (j - i)%nat as [|k] eqn:D; [lia|]. cbn [nth_error]. rewrite nth_error_skipn. f_equal. lia.
Qed.
Lemma filling_set ts vs i t u : filling ts vs ((i, t) :: u) -> filling ts (set_nth i (Some (emb t)) vs) u.
Proof.
  intros (L & A & B). assert (T : nth_error ts i = Some t) by (apply A; left; reflexivity).
  assert (Li : (i < length vs)%nat) by (rewrite L; apply nth_error_Some; congruence).
  split; [rewrite set_nth_length by exact Li; exact L|]. split; [intros j x H; apply A; right; exact H|]. intros j x H. rewrite set_nth_nth by exact Li. destruct (Nat.eqb_spec j i) as [->|N].
  - left. congruence.
  - destruct (B j x H) as [C|[[= -> ->]|C]]; auto. congruence.
Qed.
Lemma filling_done ts vs : filling ts vs [] -> vs = map (fun t => Some (emb t)) ts.
Proof.
  intros (L & _ & B). revert vs L B. induction ts as [|t ts IH]; intros [|v vs] L B; try discriminate; [reflexivity|]. cbn [map]. destruct (B 0%nat t eq_refl) as [E|[]]. injection E as ->. f_equal.
  apply IH; [cbn in L; lia|]. intros i x H. destruct (B (S i) x H) as [E|[]]. left. exact E.
Qed.
Lemma combine_seq_in (ts : list string) i t : forall n, In (i, t) (List.combine (seq n (length ts)) ts) <-> (n <= i)%nat /\ nth_error ts (i - n) = Some t.
Proof using Type. clear emb.
  induction ts as [|x ts IH]; intros n; cbn [length seq List.combine].
  - split; [intros []|]. intros [_ H]. destruct (i - n)%nat; discriminate.
  - split.
    + intros [[= <- <-]|H]; [rewrite Nat.sub_diag; auto|]. apply IH in H as [H E]. split; [lia|]. replace (i - n)%nat with (S (i - S n)) by lia. exact E.
    + intros [H E]. destruct (i - n)%nat as [|k] eqn:D; [left; injection E as ->; f_equal; lia|]. right. apply IH. split; [lia|]. cbn in E. replace (i - S n)%nat with k by lia. exact E.
Qed.
Lemma uncached_in c ts i t : In (i, t) (uncached c ts) <-> nth_error ts i = Some t /\ assoc t c = None.
Proof using Type. clear emb.
  unfold uncached. rewrite filter_In, (combine_seq_in ts i t 0), Nat.sub_0_r. cbn [snd]. split; intros [A B]; [split; [apply A|destruct (assoc t c); congruence]|].
  split; [split; [lia|exact A]|rewrite B; reflexivity].
Qed.
Lemma filling_start c ts u : cache_ok c -> Permutation (uncached c ts) u -> filling ts (from_cache c ts) u.
Proof.
  intros C P. split; [apply map_length|]. split.
  - intros i t H. apply (Permutation_in _ (Permutation_sym P)) in H. apply uncached_in in H. apply H.
  - intros i t H. destruct (assoc t c) as [v|] eqn:E.
    + left. unfold from_cache. rewrite nth_error_map, H. cbn. rewrite E, (C t v E). reflexivity.
    + right. apply (Permutation_in _ P). apply uncached_in. auto.
Qed.
Definition honest (em : embedder) : Prop :=
  (forall t v, em_one em t = Some v -> v = emb t) /\ (forall ts vs, em_batch em ts = Some vs -> vs = map emb ts).
Lemma missing_ok em ts u : honest em -> forall c vs, cache_ok c -> filling ts vs u ->
  cache_ok (fst (embed_missing em c vs u)) /\
  ((snd (embed_missing em c vs u) = Ok (map (fun t => Some (emb t)) ts) /\ forall i t, In (i, t) u -> em_one em t <> None) \/
   (snd (embed_missing em c vs u) = Err EOther /\ exists i t, In (i, t) u /\ em_one em t = None)).
Proof.
  intros [H1 _]. induction u as [|[i t] u IH]; intros c vs C F; cbn [embed_missing].
  - split; [exact C|]. left. split; [cbn; rewrite (filling_done _ _ F); reflexivity|intros i t []].
  - destruct (em_one em t) as [v|] eqn:E.
    + rewrite (H1 t v E). destruct (IH ((t, emb t) :: c) (set_nth i (Some (emb t)) vs) (cache_ok_cons c t C) (filling_set _ _ _ _ _ F)) as [A [[B D]|[B (j & x & J & X)]]].
      * split; [exact A|]. left. split; [exact B|]. intros j x [[= <- <-]|J]; [congruence|exact (D j x J)].
      * split; [exact A|]. right. split; [exact B|]. exists j, x. split; [right; exact J|exact X].
    + split; [exact C|]. right. split; [reflexivity|]. exists i, t. split; [left; reflexivity|exact E].
Qed.
Lemma take_ok ts u : forall c vs, cache_ok c -> filling ts vs u ->
  cache_ok (fst (take_batch c vs u (map emb (map snd u)))) /\ snd (take_batch c vs u (map emb (map snd u))) = Ok (map (fun t => Some (emb t)) ts).
Proof.
  induction u as [|[i t] u IH]; intros c vs C F; cbn [map take_batch snd].
  - split; [exact C|]. cbn. rewrite (filling_done _ _ F). reflexivity.
  - apply IH; [apply cache_ok_cons; exact C|apply filling_set; exact F].
Qed.
End Cached.
