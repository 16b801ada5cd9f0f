(** Theorems about memories (cortexdb's SaveMemory, UpdateMemory, GetMemory,
    DeleteMemory and SearchMemory). *)
From Coq Require Import String Ascii List NArith ZArith Bool Lia Permutation Sorted.
From Coq Require Import Floats.SpecFloat.
From Verif Require Import Base Floats64 TopK EncodingModel EncodingSpec EncodingProofs StoreModel SearchProps SimilarityModel MemModel MemSpec MemProofs MemSearchProofs SparseProofs.
Import ListNotations.
Open Scope string_scope.
Open Scope list_scope.

(** * Reading back *)
(** After every history, GetMemory shows each memory as the calls that succeeded left it. *)
Theorem memory_get_exact : forall trim lower h,
  exists st, leads trim lower h (snd (mrun trim lower empty_mem h)) st /\
  forall id, id <> "" ->
    match st id with
    | None => get (fst (mrun trim lower empty_mem h)) id = Err ENotFound
    | Some i => exists r, get (fst (mrun trim lower empty_mem h)) id = Ok r /\ mr_id r = id /\ shows i r
    end.
Proof.
  intros trim lower h. destruct (run_agrees trim lower h) as (st & L & A). exists st. split; [exact L|]. intros id I. unfold get. destruct (st id) as [i|] eqn:S.
  - destruct A as (N & G & C). destruct (C id i S) as (w & W & E). destruct (load_ok h _ st id w (conj N (conj G C)) I W E) as (u & ->). cbn [bind snd]. eexists. split; [reflexivity|]. split; [exact E|].
    destruct (G w W) as [(j & J1 & J2 & _) _]. rewrite E, S in J1. injection J1 as <-. apply J2.
  - rewrite (load_none h _ st id A I S). reflexivity.
Qed.

(** A save is accepted, and answers what GetMemory then shows. *)
Theorem memory_save_accepts : forall trim lower h ev q p,
  (forall n, mv_ok ev n = true) -> sv_id q <> "" -> trim (sv_content q) <> "" -> addressed trim lower (sv_scope q) (sv_user q) (sv_session q) (sv_ns q) p ->
  not_nan (sv_importance q) -> (forall s, sv_importance q <> S754_infinity s) ->
  (forall f, mv_embed ev = Some f -> exists v, f (sv_content q) = Some v /\ (N.of_nat (length v) < 2 ^ 31)%N) ->
  exists r, snd (save trim lower ev (fst (mrun trim lower empty_mem h)) q) = Ok r /\
            get (fst (save trim lower ev (fst (mrun trim lower empty_mem h)) q)) (sv_id q) = Ok r.
Proof.
  intros trim lower h ev q p Hok I Bc P Nn Ni Em. destruct (run_agrees trim lower h) as (st & L & A). set (db := fst (mrun trim lower empty_mem h)) in *.
  pose proof (save_step trim lower h db st ev q A) as St. cbn [mstep] in St.
  assert (R : exists sc b, resolve trim lower (sv_scope q) (sv_user q) (sv_session q) (sv_ns q) = Some (sc, b)).
  { destruct P as [_ P]. unfold resolve, blank. destruct p as [n|u n|s n].
    - destruct P as [P|(P1 & P2 & P3)]; [rewrite P; cbn; eauto|]. rewrite P1, P2, P3. cbn. eauto.
    - destruct P as (-> & P1 & [P2|[P2 P3]]); apply String.eqb_neq in P1; [rewrite P2; cbn; rewrite P1; eauto|]. rewrite P2, P3, P1. cbn. eauto.
    - destruct P as (-> & P1 & [P2|P2]); apply String.eqb_neq in P1; rewrite P2, P1; cbn; eauto. }
  destruct R as (sc & b & R). unfold save in St |- *. apply String.eqb_neq in I. rewrite I in St |- *. assert (Bb : blank trim (sv_content q) = false) by (apply String.eqb_neq; exact Bc). rewrite Bb in St |- *. rewrite R in St |- *.
  assert (En : exists d, ensure_bucket ev db b (sv_user q) = Some d) by (unfold ensure_bucket; rewrite Hok; destruct (assoc b (md_sessions db)); eauto). destruct En as (d & En). rewrite En in St |- *.
  assert (Ec : exists bl, embed_content ev (sv_content q) = Ok bl).
  { unfold embed_content. destruct (mv_embed ev) as [f|]; [|eauto]. destruct (Em f eq_refl) as (v & -> & Lv). unfold encode_vector, max_int32. change (2 ^ 31)%N with 2147483648%N in Lv. destruct (N.ltb_spec 2147483647 (N.of_nat (length v))); [lia|]. cbn. eauto. }
  destruct Ec as (bl & Ec). rewrite Ec in St |- *. assert (Fn : finite_number (sv_importance q) && mv_ok ev 1 = true). { rewrite Hok, andb_true_r. destruct (sv_importance q); cbn; try reflexivity; exfalso; [eapply Ni; reflexivity|apply Nn; reflexivity]. }
  rewrite Fn in St |- *. set (db2 := {| md_sessions := md_sessions d; md_rows := _ |}) in *. cbn [fst snd]. unfold get. destruct St as (st' & C & A2).
  destruct (load db2 (sv_id q)) as [[w r]|e|] eqn:Ld; cbn [bind snd] in *.
  - eauto.
  - exfalso. apply String.eqb_neq in I. unfold load in Ld. apply String.eqb_neq in I. rewrite I in Ld. destruct (find_row db2 (sv_id q)) as [w|] eqn:F.
    + destruct (assoc (me_bucket w) (md_sessions db2)) eqn:As; [discriminate|]. destruct A2 as (N2 & G2 & _). apply (row_find db2 _ w N2) in F as [F _]. destruct (G2 w F) as [_ X]. destruct (X As).
    + unfold find_row in F. assert (X : In (sv_id q) (map me_id (md_rows db2))).
      { cbn [md_rows db2]. rewrite put_ids. match goal with |- In _ (if ?c then _ else _) => destruct c eqn:E end; [|apply in_or_app; right; left; reflexivity].
        apply existsb_exists in E as (y & Y & E). apply String.eqb_eq in E. cbn [me_id] in E. rewrite <- E. apply in_map. exact Y. }
      apply in_map_iff in X as (y & E & Y). eapply find_none in F; [|exact Y]. rewrite E, String.eqb_refl in F. discriminate.
  - exfalso. unfold load in Ld. rewrite I in Ld. destruct (find_row db2 (sv_id q)) as [w|]; [|discriminate]. destruct (assoc (me_bucket w) (md_sessions db2)); discriminate.
Qed.

(** * Search *)
Section Searching.
Variables (trim lower : string -> string) (fts : string -> list string -> option (list (nat * float))) (plan : string -> list string -> list string -> list string).
Variables (sim : list N -> list N -> float) (ord srt : list mhit -> list mhit).
Hypothesis Hord : forall l, Permutation (ord l) l.
Hypothesis Hsrt : sort_ok higher srt.
Lemma srt_by_hit : sort_ok by_hit srt.
Proof using Hsrt.
  intros l. destruct (Hsrt l) as [P S]. split; [exact P|]. intros W. assert (E : forall a b, higher a b = by_hit a b) by (intros; symmetry; apply higher_by_hit). unfold sorted_by, weak_order_on in *.
  assert (S' : StronglySorted (fun a b => higher b a = false) (srt l)). { apply S. destruct W as [W1 W2]. split; intros; rewrite E in *; [apply W1; auto|]. apply (W2 x y z); auto. }
  clear -S' E. induction S' as [|x l' S' IH F]; constructor; auto. eapply Forall_impl; [|exact F]. intros a H. cbn in H. rewrite <- E. exact H.
Qed.
Lemma hit_rows h db st ev r res : agrees h db st ->
  search_memory trim lower fts plan sim ord srt ev db r = Ok res ->
  exists p, addressed trim lower (mq_scope r) (mq_user r) (mq_session r) (mq_ns r) p /\
    length res <= (if Z.leb (mq_topk r) 0 then 5 else Z.to_nat (mq_topk r)) /\ NoDup (map (fun x => mr_id (fst x)) res) /\
    forall rec s, In (rec, s) res -> exists w u, In w (md_rows db) /\ me_bucket w = bucket_of p /\ rec = to_record u w /\ expired (mv_now ev) rec = false.
Proof using Hord Hsrt.
  intros A H. unfold search_memory in H. destruct (blank trim (mq_query r)); [discriminate|].
  destruct (resolve trim lower (mq_scope r) (mq_user r) (mq_session r) (mq_ns r)) as [[sc b]|] eqn:R; [|discriminate].
  destruct (resolve_some _ _ _ _ _ _ _ _ R) as (p & P & _ & -> & _). exists p. split; [exact P|].
  set (k := if Z.leb (mq_topk r) 0 then 5%Z else mq_topk r) in *. assert (Ek : (if Z.leb (mq_topk r) 0 then 5 else Z.to_nat (mq_topk r)) = Z.to_nat k) by (unfold k; destruct (Z.leb (mq_topk r) 0); reflexivity). rewrite Ek.
  set (sem := match mv_embed ev with Some f => _ | None => _ end) in H.
  assert (Sem : sem = [] \/ exists qv, sem = semantic_hits (mv_now ev) (nearest sim db qv (bucket_of p) (Z.to_nat k))).
  { unfold sem. destruct (mv_embed ev) as [f|]; [|auto]. destruct (mq_lexical r); [auto|]. destruct (f (mq_query r)) as [qv|]; [|auto]. right. exists qv. reflexivity. }
  assert (SemOk : forall qv, sem = semantic_hits (mv_now ev) (nearest sim db qv (bucket_of p) (Z.to_nat k)) -> length sem <= Z.to_nat k /\ NoDup (map (fun x => mr_id (fst x)) sem) /\
      forall rec s, In (rec, s) sem -> exists w u, In w (md_rows db) /\ me_bucket w = bucket_of p /\ rec = to_record u w /\ expired (mv_now ev) rec = false).
  { intros qv ->. set (ms := nearest sim db qv (bucket_of p) (Z.to_nat k)). split; [|split].
    - unfold semantic_hits. assert (Fl : forall (t : mhit -> bool) l, length (filter t l) <= length l) by (clear; induction l as [|x l IH]; cbn; [lia|]; destruct (t x); cbn; lia).
      etransitivity; [apply Fl|]. rewrite map_length, combine_length, seq_length, Nat.min_id. apply nearest_len.
    - unfold semantic_hits. apply NoDup_map_filter. rewrite map_map. cbn [fst to_record mr_id].
      assert (E : map (fun x : nat * mem => me_id (snd x)) (List.combine (seq 0 (length ms)) ms) = map me_id ms).
      { generalize (seq_length (length ms) 0). generalize (seq 0 (length ms)). intros sq. revert sq. clear. induction ms as [|w ms IH]; intros [|x sq] L; try discriminate; [reflexivity|]. cbn. f_equal. apply IH. injection L. auto. }
      change (NoDup (map (fun x : nat * mem => me_id (snd x)) (List.combine (seq 0 (length ms)) ms))). rewrite E. eapply nearest_nodup. exact A.
    - intros rec s Hi. apply filter_In in Hi as [Hi X]. apply in_map_iff in Hi as ([i w] & E & Hi). injection E as <- <-. apply in_combine_r in Hi. apply nearest_incl, cand_in in Hi as (W & B & _). exists w, "". cbn [fst snd] in *. apply negb_true_iff in X. auto. }
  destruct sem as [|x l] eqn:Es.
  - unfold search_lexical in H. destruct (plan (mq_query r) (mq_keywords r) (mq_alternates r)) as [|q0 qs]; [discriminate|]. set (ql := q0 :: qs) in *.
    destruct (merge_queries fts (mv_now ev) db (bucket_of p) k 0 ql [] false) as [m failed] eqn:M. destruct ((match m with [] => true | _ => false end) && failed); [discriminate|]. injection H as <-.
    split; [rewrite firstn_length; lia|].
    assert (Pm : Permutation m (srt (ord m))). { eapply Permutation_trans; [apply Permutation_sym, Hord|]. apply (Hsrt (ord m)). }
    destruct (assoc (bucket_of p) (md_sessions db)) as [u|] eqn:As.
    + assert (O : of_rows db u (fun _ _ => False)) by (intros ? ? []). assert (B0 : bests (fun _ _ => False) []) by (split; [constructor|]; split; [intros ? ? []|intros ? ? []]).
      destruct (merge_queries_bests h db st A fts (mv_now ev) (bucket_of p) u k As ql 0 _ [] false O B0) as [(N & B & _) _]. rewrite M in N, B. cbn [fst] in N, B. split.
      * assert (N' : NoDup (map (fun x => mr_id (fst x)) (srt (ord m)))) by (eapply Permutation_NoDup; [apply Permutation_map; exact Pm|exact N]).
        rewrite <- (firstn_skipn (Z.to_nat k) (srt (ord m))), map_app in N'. eapply NoDup_app_l. exact N'.
      * intros rec s Hi. apply in_firstn in Hi. eapply Permutation_in in Hi; [|apply Permutation_sym; exact Pm]. destruct (B rec s Hi) as [[]|(i & q & ans & w & rank & _ & _ & Hw & -> & X & _)].
        apply in_firstn in Hw. apply listed_in in Hw as [W Bk]. exists w, u. auto.
    + assert (m = []) by (pose proof (merge_queries_nosession db fts (mv_now ev) (bucket_of p) k As ql 0 false) as X; rewrite M in X; exact X). subst m.
      assert (E : srt (ord []) = []) by (apply Permutation_nil; exact Pm). rewrite E, firstn_nil. split; [constructor|]. intros rec s [].
  - injection H as <-. destruct Sem as [Sem|(qv & Sem)]; [discriminate|]. exact (SemOk qv Sem).
Qed.

(** SearchMemory answers at most TopK memories (5 by default), each once, and none whose
    time is over. If no chat session is named like a memory bucket, each hit is a memory of
    the place the request addresses, provided owners contain no colon. *)
Theorem memory_search_sound : forall h ev r res,
  search_memory trim lower fts plan sim ord srt ev (fst (mrun trim lower empty_mem h)) r = Ok res ->
  exists st p, leads trim lower h (snd (mrun trim lower empty_mem h)) st /\ addressed trim lower (mq_scope r) (mq_user r) (mq_session r) (mq_ns r) p /\
    length res <= (if Z.leb (mq_topk r) 0 then 5 else Z.to_nat (mq_topk r)) /\ NoDup (map (fun x => mr_id (fst x)) res) /\
    forall rec s, In (rec, s) res -> exists i, st (mr_id rec) = Some i /\ shows i rec /\ ~ over (mv_now ev) i /\
      (chats_apart h -> plain_owners st -> no_colon (owner p) -> it_place i = Some p).
Proof using Hord Hsrt.
  intros h ev r res H. destruct (run_agrees trim lower h) as (st & L & A). destruct (hit_rows h _ st ev r res A H) as (p & P & Len & N & X). exists st, p.
  split; [exact L|]. split; [exact P|]. split; [exact Len|]. split; [exact N|]. intros rec s Hi. destruct (X rec s Hi) as (w & u & W & B & -> & E).
  pose proof A as (_ & G & _). destruct (G w W) as [(i & G1 & G2 & _) _]. exists i. split; [exact G1|]. split; [apply G2|]. split; [eapply not_over; [apply (G2 u)|exact E]|].
  intros Ap Pl Nc. destruct (row_item_plain h _ st A p w Ap Pl Nc W B) as (j & J1 & _ & J3 & _). congruence.
Qed.

(** With an embedder the hits are the unexpired ones among the TopK memories of the place
    nearest to the query. *)
Theorem memory_semantic_exact : forall h ev r f qv,
  chats_apart h -> mv_embed ev = Some f -> mq_lexical r = false -> f (mq_query r) = Some qv -> trim (mq_query r) <> "" ->
  forall p, addressed trim lower (mq_scope r) (mq_user r) (mq_session r) (mq_ns r) p -> no_colon (owner p) ->
  exists st, leads trim lower h (snd (mrun trim lower empty_mem h)) st /\
    (plain_owners st -> float_vectors st ->
     (forall id i, st id = Some i -> it_place i = Some p -> it_vec i <> None -> not_nan (f32_of_f64 (sim qv (vec_of i)))) ->
     exists all top hits, embedded_at st p all /\ is_topk (nearer sim qv) (if Z.leb (mq_topk r) 0 then 5 else Z.to_nat (mq_topk r)) all top /\ ranked (mv_now ev) top hits /\
       (hits <> [] -> search_memory trim lower fts plan sim ord srt ev (fst (mrun trim lower empty_mem h)) r = Ok hits)).
Proof using Type.
  intros h ev r f qv Ap Em Lx Ev Bq p P Nc. destruct (run_agrees trim lower h) as (st & L & A). exists st. split; [exact L|]. intros Pl Fv Nn. set (db := fst (mrun trim lower empty_mem h)) in *.
  set (k := if Z.leb (mq_topk r) 0 then 5%Z else mq_topk r). assert (Ek : (if Z.leb (mq_topk r) 0 then 5 else Z.to_nat (mq_topk r)) = Z.to_nat k) by (unfold k; destruct (Z.leb (mq_topk r) 0); reflexivity). rewrite Ek.
  destruct (nearest_topk h db st A sim qv p (Z.to_nat k) Ap Pl Nc Fv Nn) as [E T]. exists (map (lift st) (cand_rows db (bucket_of p))), (map (lift st) (nearest sim db qv (bucket_of p) (Z.to_nat k))), (semantic_hits (mv_now ev) (nearest sim db qv (bucket_of p) (Z.to_nat k))).
  split; [exact E|]. split; [exact T|]. split; [apply (semantic_ranked h db st A (mv_now ev) p); auto; intros w Hw; eapply nearest_incl; exact Hw|].
  intros Ne. unfold search_memory. assert (Bb : blank trim (mq_query r) = false) by (apply String.eqb_neq; exact Bq). rewrite Bb.
  assert (R : exists sc, resolve trim lower (mq_scope r) (mq_user r) (mq_session r) (mq_ns r) = Some (sc, bucket_of p)).
  { assert (R : exists sc b, resolve trim lower (mq_scope r) (mq_user r) (mq_session r) (mq_ns r) = Some (sc, b)).
    { pose proof P as [_ P']. unfold resolve, blank. destruct p as [n|u n|s n].
      - destruct P' as [P'|(P1 & P2 & P3)]; [rewrite P'; cbn; eauto|]. rewrite P1, P2, P3. cbn. eauto.
      - destruct P' as (-> & P1 & [P2|[P2 P3]]); apply String.eqb_neq in P1; [rewrite P2; cbn; rewrite P1; eauto|]. rewrite P2, P3, P1. cbn. eauto.
      - destruct P' as (-> & P1 & [P2|P2]); apply String.eqb_neq in P1; rewrite P2, P1; cbn; eauto. }
    destruct R as (sc & b & R). destruct (resolve_some _ _ _ _ _ _ _ _ R) as (p' & P' & _ & -> & _). assert (p' = p) by (eapply addressed_unique; eauto). subst p'. eauto. }
  destruct R as (sc & ->). rewrite Em, Lx, Ev. fold k. destruct (semantic_hits (mv_now ev) (nearest sim db qv (bucket_of p) (Z.to_nat k))); [congruence|reflexivity].
Qed.

(** Without an embedder, or asked to, the search is lexical: the hits are the TopK best of the
    unexpired rows each of the planned queries finds among its first 4·TopK, each row with the
    best of its scores. *)
Theorem memory_lexical_exact : forall h ev r res,
  mq_lexical r = true \/ mv_embed ev = None ->
  let db := fst (mrun trim lower empty_mem h) in let k := if Z.leb (mq_topk r) 0 then 5 else Z.to_nat (mq_topk r) in
  let qs := plan (mq_query r) (mq_keywords r) (mq_alternates r) in
  search_memory trim lower fts plan sim ord srt ev db r = Ok res ->
  exists p, addressed trim lower (mq_scope r) (mq_user r) (mq_session r) (mq_ns r) p /\ forall b, b = bucket_of p ->
  (forall w s, text_match fts db b k qs w s -> not_nan s) ->
  exists all, NoDup (map (fun x => mr_id (fst x)) all) /\ is_topk higher k all res /\
    (forall rec s, In (rec, s) all -> ~ lapsed (mv_now ev) rec /\ exists w u, rec = to_record u w /\ text_match fts db b k qs w s) /\
    (forall w s u, text_match fts db b k qs w s -> ~ lapsed (mv_now ev) (to_record u w) -> exists rec s', In (rec, s') all /\ mr_id rec = me_id w /\ fgt s s' = false).
Proof using Hord Hsrt.
  intros h ev r res Lx db k qs H. destruct (run_agrees trim lower h) as (st & L & A). fold db in A. unfold search_memory in H. destruct (blank trim (mq_query r)); [discriminate|].
  destruct (resolve trim lower (mq_scope r) (mq_user r) (mq_session r) (mq_ns r)) as [[sc b0]|] eqn:R; [|discriminate].
  destruct (resolve_some _ _ _ _ _ _ _ _ R) as (p & P & _ & -> & _). exists p. split; [exact P|]. intros b -> Nn.
  set (kz := if Z.leb (mq_topk r) 0 then 5%Z else mq_topk r) in *. assert (Ek : k = Z.to_nat kz) by (unfold k, kz; destruct (Z.leb (mq_topk r) 0); reflexivity).
  assert (Kp : (0 < kz)%Z) by (unfold kz; destruct (Z.leb_spec (mq_topk r) 0); lia).
  match type of H with context [match ?s with [] => _ | _ :: _ => _ end] => assert (Es : s = []) by (destruct Lx as [-> | ->]; [destruct (mv_embed ev)|]; reflexivity); rewrite Es in H end.
  unfold search_lexical in H. fold qs in H. destruct qs as [|q0 qs'] eqn:Eq; [discriminate|]. rewrite <- Eq in *.
  destruct (merge_queries fts (mv_now ev) db (bucket_of p) kz 0 qs [] false) as [m failed] eqn:M. destruct ((match m with [] => true | _ => false end) && failed); [discriminate|]. injection H as <-. exists m.
  destruct (assoc (bucket_of p) (md_sessions db)) as [u|] eqn:As.
  - assert (O : of_rows db u (fun _ _ => False)) by (intros ? ? []). assert (B0 : bests (fun _ _ => False) []) by (split; [constructor|]; split; [intros ? ? []|intros ? ? []]).
    destruct (merge_queries_bests h db st A fts (mv_now ev) (bucket_of p) u kz As qs 0 _ [] false O B0) as [(N & B & C) _]. rewrite M in N, B, C. cbn [fst] in N, B, C.
    assert (Tm : forall rec s, matched db fts (mv_now ev) (bucket_of p) u kz 0 qs rec s <-> exists w, rec = to_record u w /\ expired (mv_now ev) rec = false /\ text_match fts db (bucket_of p) k qs w s).
    { intros rec s. split.
      - intros (i & q & ans & w & rank & H1 & H2 & H3 & -> & H5 & ->). exists w. split; [reflexivity|]. split; [exact H5|]. apply In_nth_error in H3 as (j & H3). exists i, q, ans, j, rank. split; [exact H1|]. split; [exact H2|].
        assert (J : j < k * 4). { assert (j < length (firstn (Z.to_nat (kz * 4)) (listed db (bucket_of p) ans))) by (apply nth_error_Some; congruence). rewrite firstn_length in H. rewrite Ek. lia. }
        split; [exact J|]. split; [|reflexivity]. rewrite <- H3. symmetry. apply nth_error_firstn'. rewrite Ek in J. lia.
      - intros (w & -> & X & (i & q & ans & j & rank & H1 & H2 & J & H3 & ->)). exists i, q, ans, w, rank. split; [exact H1|]. split; [exact H2|]. split; [|auto]. eapply nth_error_In with (n := j). rewrite <- H3. apply nth_error_firstn'. rewrite Ek in J. lia. }
    assert (Ex : forall rec, expired (mv_now ev) rec = false <-> ~ lapsed (mv_now ev) rec). { intros rec. rewrite <- expired_lapsed. destruct (expired (mv_now ev) rec); split; congruence. }
    split; [exact N|]. split; [|split].
    + rewrite Ek. apply (is_topk_perm _ _ _ (ord m)); [apply Permutation_sym, Hord|]. apply (topk_of_sort higher); [exact Hsrt|].
      assert (W : weak_order_on by_hit (ord m)). { apply higher_weak. intros [rec s] Hi. eapply Permutation_in in Hi; [|apply Hord]. destruct (B rec s Hi) as [[]|X]. apply Tm in X as (w & _ & _ & X). cbn. eapply Nn. exact X. }
      destruct W as [W1 W2]. split; intros; rewrite <- higher_by_hit in *; [apply W1; auto|]. apply (W2 x y z); auto.
    + intros rec s Hi. destruct (B rec s Hi) as [[]|X]. apply Tm in X as (w & -> & X & T). split; [apply Ex; exact X|]. exists w, u. auto.
    + intros w s u' T X. assert (Y : matched db fts (mv_now ev) (bucket_of p) u kz 0 qs (to_record u w) s). { apply Tm. exists w. split; [reflexivity|]. split; [|exact T]. apply Ex. exact X. }
      destruct (C _ _ (or_intror Y)) as (s' & I1 & I2). exists (to_record u w), s'. auto.
  - assert (m = []) by (pose proof (merge_queries_nosession db fts (mv_now ev) (bucket_of p) kz As qs 0 false) as X; rewrite M in X; exact X). subst m.
    assert (E : srt (ord []) = []). { apply Permutation_nil. eapply Permutation_trans; [apply Permutation_sym, Hord|]. apply (Hsrt (ord [])). }
    rewrite E, firstn_nil. split; [constructor|]. split; [exists []; split; [constructor|]; split; [rewrite Nat.min_0_r; reflexivity|]; split; [constructor|intros x y []]|]. split; [intros rec s []|].
    intros w s u' (i & q & ans & j & rank & _ & _ & _ & T & _) _. apply nth_error_In in T. apply listed_in in T as [W Bk]. destruct A as (_ & G & _). destruct (G w W) as [_ X]. rewrite Bk in X. congruence.
Qed.
End Searching.

(** * Examples and findings *)
(** The texts below have no surrounding white space and no capitals. *)
Definition same (s : string) : string := s.
Definition steady (f : option (string -> option (list N))) (now : Z) : menv := {| mv_ok := fun _ => true; mv_now := now; mv_embed := f |}.
(** An embedder: texts starting with "x" point one way, all others the other way. *)
Definition two_ways (t : string) : option (list N) := Some (if String.prefix "x" t then v10 else v01).
Definition put (id user ns content : string) (ttl : Z) : mcall :=
  MSave {| sv_id := id; sv_user := user; sv_session := ""; sv_scope := ""; sv_ns := ns; sv_role := ""; sv_content := content; sv_meta := [("kind", "fake"); ("k", "v")]; sv_importance := f_zero; sv_ttl := ttl |}.
Definition ask (user ns query : string) (k : Z) : search_req :=
  {| mq_query := query; mq_user := user; mq_session := ""; mq_scope := ""; mq_ns := ns; mq_topk := k; mq_lexical := false; mq_keywords := []; mq_alternates := [] |}.
Definition no_fts (q : string) (cs : list string) : option (list (nat * float)) := Some [].
Definition one_plan (q : string) (ks alts : list string) : list string := [q].
Definition find_all (f : option (string -> option (list N))) (h : list (menv * mcall)) (now : Z) (r : search_req) : outcome (list (string * string)) :=
  bind (search_memory same same no_fts one_plan cosine (fun l => l) (ex_sort higher) (steady f now) (fst (mrun same same empty_mem h)) r)
       (fun l => Ok (map (fun x => (mr_id (fst x), mr_content (fst x))) l)).
Definition sec (n : Z) : Z := (n * 1000000000)%Z.

Example memory_history :
  let h := [(steady (Some two_ways) (sec 10), put "m1" "bob" "" "xylophone" 60); (steady (Some two_ways) (sec 20), put "m2" "bob" "" "drum" 0); (steady None (sec 30), put "m3" "amy" "" "x-ray" 0);
            (steady (Some two_ways) (sec 40), MUpdate {| up_id := "m2"; up_content := Some "xenon"; up_meta := [("k", "w")]; up_importance := None; up_ttl := None |});
            (steady None (sec 41), MDelete "m3"); (steady None (sec 42), MDelete "m3")] in
  map (fun o => match o with Ok _ => true | _ => false end) (snd (mrun same same empty_mem h)) = [true; true; true; true; true; false] /\
  bind (get (fst (mrun same same empty_mem h)) "m2") (fun r => Ok (mr_user r, mr_scope r, mr_ns r, mr_role r, mr_content r, mr_time r, mr_extra r)) = Ok ("bob", "user", "default", "user", "xenon", sec 20, [("k", "w")]) /\
  find_all (Some two_ways) h (sec 50) (ask "bob" "default" "x" 5) = Ok [("m1", "xylophone"); ("m2", "xenon")] /\
  find_all (Some two_ways) h (sec 71) (ask "bob" "default" "x" 5) = Ok [("m2", "xenon")].
Proof. vm_compute. auto. Qed.

Lemma no_colon_ok s : forallb (fun c => negb (Ascii.eqb c ":"%char)) (list_ascii_of_string s) = true -> no_colon s.
Proof.
  intros H a b ->. induction a as [|c a IH]; cbn in H; [discriminate|]. apply andb_true_iff in H as [_ H]. auto.
Qed.
Lemma bob_place : addressed same same "" "bob" "" "" (PUser "bob" "default").
Proof. split; [left; split; reflexivity|]. split; [reflexivity|]. split; [discriminate|]. right. split; reflexivity. Qed.
(** The hypotheses of the search theorems hold of that history's first calls. *)
Example memory_search_case :
  let h := [(steady (Some two_ways) (sec 10), put "m1" "bob" "" "xylophone" 60)] in
  chats_apart h /\ addressed same same "" "bob" "" "" (PUser "bob" "default") /\ no_colon (owner (PUser "bob" "default")) /\
  (forall st, leads same same h (snd (mrun same same empty_mem h)) st -> plain_owners st /\ float_vectors st) /\
  find_all (Some two_ways) h (sec 50) (ask "bob" "" "x" 5) = Ok [("m1", "xylophone")].
Proof.
  split; [intros ev w [H|[]]; discriminate H|]. split; [exact bob_place|]. split; [apply no_colon_ok; reflexivity|]. split; [|vm_compute; reflexivity].
  intros st L. change (snd (mrun same same empty_mem [(steady (Some two_ways) (sec 10), put "m1" "bob" "" "xylophone" 60)])) with [@Ok unit tt] in L. remember [(steady (Some two_ways) (sec 10), put "m1" "bob" "" "xylophone" 60)] as h1 eqn:Eh. remember [@Ok unit tt] as o1 eqn:Eo.
  destruct L as [|h os st0 ev c o st' L0 C]; [discriminate|]. apply (app_inj_tail h []) in Eh as [-> Eh]. apply (app_inj_tail os []) in Eo as [-> ->]. injection Eh as -> ->.
  remember (@nil (menv * mcall)) as h0 eqn:Z. destruct L0 as [|h2 os2 st2 ev2 c2 o2 st3 L2 C2]; [|destruct h2; discriminate]. cbn in C. destruct C as (p & P & C).
  assert (p = PUser "bob" "default").
  { eapply (addressed_unique same same); [exact P|exact bob_place]. }
  subst p. split.
  - intros id i q S Q. rewrite C in S. unfold with_item in S. destruct (string_dec id "m1"); [|discriminate]. injection S as <-. cbn in Q. injection Q as <-. apply no_colon_ok. reflexivity.
  - intros id i v S V. rewrite C in S. unfold with_item in S. destruct (string_dec id "m1"); [|discriminate]. injection S as <-. cbn in V. injection V as <-. repeat constructor.
Qed.

(** Finding: bucket names join owner and namespace with colons, so user "a:b" in namespace
    "c" and user "a" in namespace "b:c" share their memories. *)
Theorem memory_isolation_refuted :
  exists h q, snd (mrun same same empty_mem h) = [Ok tt] /\
    (forall ev c, In (ev, c) h -> exists r, c = MSave r /\ sv_user r = "a:b" /\ sv_scope r = "user") /\
    mq_user q = "a" /\ mq_scope q = "user" /\ find_all (Some two_ways) h (sec 50) q = Ok [("m1", "xylophone")].
Proof.
  exists [(steady (Some two_ways) (sec 10), MSave {| sv_id := "m1"; sv_user := "a:b"; sv_session := ""; sv_scope := "user"; sv_ns := "c"; sv_role := ""; sv_content := "xylophone"; sv_meta := []; sv_importance := f_zero; sv_ttl := 0 |})].
  exists {| mq_query := "x"; mq_user := "a"; mq_session := ""; mq_scope := "user"; mq_ns := "b:c"; mq_topk := 5; mq_lexical := false; mq_keywords := []; mq_alternates := [] |}.
  split; [vm_compute; reflexivity|]. split; [intros ev c [H|[]]; injection H as <- <-; eexists; split; [reflexivity|]; split; reflexivity|]. split; [reflexivity|]. split; [reflexivity|]. vm_compute. reflexivity.
Qed.
(** Finding: saving under an id another user's memory has takes that memory away. *)
Theorem memory_id_theft_refuted :
  exists h0 c, let h := h0 ++ [c] in
    find_all (Some two_ways) h0 (sec 50) (ask "bob" "" "x" 5) = Ok [("m1", "xylophone")] /\
    (exists r, snd c = MSave r /\ sv_user r = "eve") /\ find_all (Some two_ways) h (sec 50) (ask "bob" "" "x" 5) = Ok [].
Proof.
  exists [(steady (Some two_ways) (sec 10), put "m1" "bob" "" "xylophone" 0)], (steady (Some two_ways) (sec 20), put "m1" "eve" "" "mine" 0).
  cbn zeta. split; [vm_compute; reflexivity|]. split; [eexists; split; reflexivity|]. vm_compute. reflexivity.
Qed.
(** Finding: a shared bucket reports its first writer as the user of every memory. *)
Theorem memory_user_refuted :
  exists h r, snd (mrun same same empty_mem h) = [Ok tt; Ok tt] /\ nth_error (map snd h) 1 = Some (MSave r) /\ sv_user r = "bob" /\
    bind (get (fst (mrun same same empty_mem h)) (sv_id r)) (fun x => Ok (mr_user x)) = Ok "amy".
Proof.
  pose (q := fun id user => {| sv_id := id; sv_user := user; sv_session := ""; sv_scope := "global"; sv_ns := ""; sv_role := ""; sv_content := "c"; sv_meta := []; sv_importance := f_zero; sv_ttl := 0 |}).
  exists [(steady None 0, MSave (q "m1" "amy")); (steady None 0, MSave (q "m2" "bob"))], (q "m2" "bob"). split; [vm_compute; reflexivity|]. split; [reflexivity|]. split; [reflexivity|]. vm_compute. reflexivity.
Qed.
(** Finding: a memory can be treated as expired almost a second before its time, and one
    with a time to live beyond 292 years at once. *)
Theorem memory_lifetime_refuted :
  (exists written now, let h := [(steady (Some two_ways) written, put "m1" "bob" "" "xylophone" 1)] in
     (now < written + sec 1)%Z /\ find_all (Some two_ways) h written (ask "bob" "" "x" 5) = Ok [("m1", "xylophone")] /\ find_all (Some two_ways) h now (ask "bob" "" "x" 5) = Ok []) /\
  (exists written ttl, let h := [(steady (Some two_ways) written, put "m1" "bob" "" "xylophone" ttl)] in
     (292 * 365 * 86400 < ttl)%Z /\ snd (mrun same same empty_mem h) = [Ok tt] /\ find_all (Some two_ways) h written (ask "bob" "" "x" 5) = Ok []).
Proof.
  split.
  - exists (sec 2 + 100000000)%Z, (sec 3 + 1)%Z. cbn zeta. split; [|split]; vm_compute; reflexivity.
  - exists (sec 1), 9223372037%Z. cbn zeta. split; [|split]; vm_compute; reflexivity.
Qed.
(** Finding: expired memories use up the TopK places. *)
Theorem memory_search_full_refuted :
  exists h, find_all (Some two_ways) h (sec 50) (ask "bob" "" "x" 1) = Ok [] /\ find_all (Some two_ways) h (sec 50) (ask "bob" "" "x" 2) = Ok [("m2", "drum")].
Proof.
  exists [(steady (Some two_ways) (sec 10), put "m1" "bob" "" "xylophone" 1); (steady (Some two_ways) (sec 10), put "m2" "bob" "" "drum" 0)]. split; vm_compute; reflexivity.
Qed.

Example memory_lexical_case :
  let fts := fun q cs => Some [(1, f64_of_Z (-1)); (0, f64_of_Z (-3)); (2, f64_of_Z (-2))] in
  let h := [(steady None (sec 10), put "m1" "bob" "" "a" 0); (steady None (sec 10), put "m2" "bob" "" "b" 0); (steady None (sec 10), put "m3" "amy" "" "c" 0)] in
  bind (search_memory same same fts one_plan cosine (fun l => l) (ex_sort higher) (steady None (sec 50)) (fst (mrun same same empty_mem h)) (ask "bob" "" "x" 5))
       (fun l => Ok (map (fun x => (mr_id (fst x), snd x)) l)) = Ok [("m2", f64_div (f64_of_Z 1) (f64_of_Z 2)); ("m1", f64_div (f64_of_Z 1) (f64_of_Z 4))] /\
  (forall w s, text_match fts (fst (mrun same same empty_mem h)) "memory:user:bob:default" 5 ["x"] w s -> not_nan s).
Proof.
  cbn zeta. split; [vm_compute; reflexivity|]. intros w s (idx & q & ans & j & rank & Q & F & _ & T & ->). destruct idx as [|[|]]; try discriminate Q. injection F as <-.
  apply nth_error_In in T. vm_compute in T. destruct T as [T|[T|[]]]; injection T as _ <-; vm_compute; discriminate.
Qed.
Print Assumptions memory_get_exact.
Print Assumptions memory_save_accepts.
Print Assumptions memory_search_sound.
Print Assumptions memory_semantic_exact.
Print Assumptions memory_lexical_exact.
