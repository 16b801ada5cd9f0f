(** Proofs about the semantic router. *)
From Coq Require Import String List NArith ZArith Bool Lia.
From Verif Require Import Base Floats64 EncodingModel DimensionModel StoreModel StoreSpec SearchModel RouterModel RouterSpec.
Import ListNotations.
Open Scope string_scope.
Open Scope list_scope.

Lemma eqb_false a b : String.eqb a b = false <-> a <> b.
Proof. apply String.eqb_neq. Qed.

Definition routes_of {I} (rt : router I) : list route := map en_route (ro_entries I rt).

Lemma has_route_iff n es : has_route n es = true <-> exists r, In r (map en_route es) /\ rt_name r = n.
Proof.
  unfold has_route. rewrite existsb_exists. split.
  - intros [e [H E]]. apply String.eqb_eq in E. exists (en_route e). split; auto. apply in_map. exact H.
  - intros [r [H E]]. apply in_map_iff in H as [e [<- H]]. exists e. split; auto. apply String.eqb_eq. exact E.
Qed.
Lemma acceptable_iff es r : acceptable_route es r = true <-> may_add (map en_route es) r.
Proof.
  unfold acceptable_route, may_add. rewrite !andb_true_iff, !negb_true_iff, eqb_false. split.
  - intros [[A B] C]. split; [exact A|]. split; [destruct (rt_utts r); [discriminate|discriminate]|].
    intros r' H E. assert (X : has_route (rt_name r) es = true) by (apply has_route_iff; eauto). congruence.
  - intros [A [B C]]. split; [split; [exact A|destruct (rt_utts r); congruence]|].
    destruct (has_route (rt_name r) es) eqn:E; auto. apply has_route_iff in E as [r' [H E]]. destruct (C r' H E).
Qed.
Lemma check_batch_ok es l rs : check_batch es l = Ok rs <-> may_add_all (map en_route es) l rs.
Proof.
  revert rs. unfold may_add_all. induction l as [|[r|] l IH]; intros rs; cbn [check_batch].
  - split; [intros [= <-]; auto|]. intros [E _]. destruct rs; [reflexivity|discriminate].
  - destruct (acceptable_route es r) eqn:A.
    + split.
      * destruct (check_batch es l) as [rs'| |]; cbn [bind]; try discriminate. intros [= <-]. destruct (proj1 (IH rs') eq_refl) as [-> F].
        split; auto. constructor; auto. apply acceptable_iff; auto.
      * intros [E F]. destruct rs as [|r' rs']; [discriminate|]. injection E as -> E. inversion F; subst. rewrite (proj2 (IH rs')); auto.
    + split; [discriminate|]. intros [E F]. destruct rs as [|r' rs']; [discriminate|]. injection E as -> E. inversion F; subst.
      apply acceptable_iff in H1. congruence.
  - split; [discriminate|]. intros [E _]. destruct rs; discriminate.
Qed.
Lemma drop_some n es l : drop_route n es = Some l -> exists a r b, first_named n (map en_route es) a r b /\ map en_route l = a ++ b.
Proof.
  revert l. induction es as [|e es IH]; cbn [drop_route]; intros l H; [discriminate|].
  destruct (String.eqb (rt_name (en_route e)) n) eqn:E.
  - injection H as <-. apply String.eqb_eq in E. exists [], (en_route e), (map en_route es). split; [|reflexivity].
    split; [reflexivity|]. split; [exact E|intros x []].
  - apply eqb_false in E. destruct (drop_route n es) as [l'|]; [|discriminate]. injection H as <-.
    destruct (IH l' eq_refl) as (a & r & b & (A & B & C) & D). exists (en_route e :: a), r, b. split.
    + split; [cbn; rewrite A; reflexivity|]. split; [exact B|]. intros x [<-|H]; auto.
    + cbn. rewrite D. reflexivity.
Qed.
Lemma drop_none n es : drop_route n es = None -> forall r, In r (map en_route es) -> rt_name r <> n.
Proof.
  induction es as [|e es IH]; cbn [drop_route]; intros H r [].
  - subst r. destruct (String.eqb (rt_name (en_route e)) n) eqn:E; [discriminate|]. apply eqb_false; auto.
  - destruct (String.eqb (rt_name (en_route e)) n); [discriminate|]. destruct (drop_route n es); [discriminate|]. auto.
Qed.

Section R.
Variable I : index_ops.
Variable srt : list (embedding * float) -> list (embedding * float).
Variable noise : nat -> float.
Variable md : mode.
Variable sc : scorer.
Notation rstep := (rstep I srt noise md sc).
Notation rrun := (rrun I srt noise md sc).
Notation route_query := (route_query I srt noise md sc).
Notation route_batch := (route_batch I srt noise md sc).
Notation scan_routes := (scan_routes I srt noise md sc).
Notation route_vectors := (route_vectors I srt noise md sc).
Notation cached_vectors := (cached_vectors I).

Lemma cached_route em rt e : en_route (fst (cached_vectors em rt e)) = en_route e.
Proof. unfold cached_vectors. destruct (ro_caching I rt); auto. destruct (en_cache e); auto. destruct (embed_vectors _ _); auto. Qed.
Lemma vectors_route em rt e : en_route (fst (route_vectors em rt e)) = en_route e.
Proof.
  unfold RouterModel.route_vectors. destruct (ro_store I rt) as [s|]; [|apply cached_route].
  destruct (stored_vectors I srt noise md sc em s (rt_name (en_route e))) as [[|x l]| |]; auto using cached_route.
Qed.
Lemma scan_routes_same em rt q es : forall best, map en_route (fst (scan_routes em rt q es best)) = map en_route es.
Proof.
  induction es as [|e es IH]; intros best; [reflexivity|]. cbn [RouterModel.scan_routes].
  pose proof (vectors_route em rt e) as V. destruct (route_vectors em rt e) as [e' res]. cbn [fst] in V.
  destruct res as [vs| |].
  - specialize (IH (scan_vectors (ro_sim I rt) q (en_route e) vs best)). destruct (scan_routes em rt q es _). cbn in *. congruence.
  - specialize (IH best). destruct (scan_routes em rt q es _). cbn in *. congruence.
  - cbn. congruence.
Qed.
Lemma query_same em rt q : routes_of (fst (route_query em rt q)) = routes_of rt /\ ro_store I (fst (route_query em rt q)) = ro_store I rt.
Proof.
  unfold RouterModel.route_query. destruct (String.eqb q ""); auto. destruct (em_one em q) as [v|]; auto.
  pose proof (scan_routes_same em rt v (ro_entries I rt) (None, f_zero)) as S0. destruct (scan_routes em rt v _ _) as [es out].
  cbn in *. split; auto.
Qed.
Lemma batch_same em qs : forall rt, routes_of (fst (route_batch em rt qs)) = routes_of rt /\ ro_store I (fst (route_batch em rt qs)) = ro_store I rt.
Proof.
  induction qs as [|q qs IH]; intros rt; [split; reflexivity|]. cbn [RouterModel.route_batch].
  pose proof (query_same em rt q) as [Q1 Q2]. destruct (route_query em rt q) as [rt1 res]. cbn [fst] in Q1, Q2. destruct res as [a| |]; cbn [fst]; auto.
  destruct (IH rt1) as [J1 J2]. destruct (route_batch em rt1 qs) as [rt2 out]. cbn [fst] in *. split; congruence.
Qed.

(** Every call changes the registered routes as specified, whatever the store does. *)
Lemma step_changes rt o : changes (routes_of rt) (op_call o) (routes_of (fst (rstep rt o))).
Proof.
  unfold RouterModel.rstep. destruct (op_call o) as [r|l|n|q|qs]; cbn [changes].
  - unfold add. destruct r as [r|]; [|reflexivity].
    destruct (acceptable_route (ro_entries I rt) r) eqn:A; cbn [negb].
    + left. split; [apply acceptable_iff; exact A|]. destruct (ro_store I rt) as [s|].
      * destruct (persist I _ _ _ s r). cbn. unfold routes_of. cbn. rewrite map_app. reflexivity.
      * unfold routes_of. cbn. rewrite map_app. reflexivity.
    + right. split; [|reflexivity]. intros M. apply acceptable_iff in M. congruence.
  - unfold add_batch. destruct (check_batch (ro_entries I rt) l) as [rs| |] eqn:C.
    + left. exists rs. split; [apply check_batch_ok; exact C|].
      assert (M : map en_route (map new_entry rs) = rs) by (rewrite map_map, <- map_id; reflexivity).
      destruct (ro_store I rt) as [s|].
      * destruct (persist_all I _ _ _ s rs). unfold routes_of. cbn. rewrite map_app, M. reflexivity.
      * unfold routes_of. cbn. rewrite map_app, M. reflexivity.
    + right. split; [|reflexivity]. intros [rs M]. apply check_batch_ok in M. congruence.
    + right. split; [|reflexivity]. intros [rs M]. apply check_batch_ok in M. congruence.
  - unfold remove. destruct (drop_route n (ro_entries I rt)) as [es|] eqn:D.
    + left. destruct (drop_some _ _ _ D) as (a & r & b & F & E). exists a, r, b. split; [exact F|]. rewrite <- E.
      destruct (ro_store I rt) as [s|]; [|reflexivity]. destruct (stored_vectors I srt noise md sc _ s n); reflexivity.
    + right. split; [|reflexivity]. exact (drop_none _ _ D).
  - pose proof (query_same (op_emb o) rt q) as [Q _]. destruct (route_query (op_emb o) rt q). exact Q.
  - pose proof (batch_same (op_emb o) qs rt) as [Q _]. destruct (route_batch (op_emb o) rt qs). exact Q.
Qed.
Lemma rrun_snoc rt ops o : rrun rt (ops ++ [o]) = fst (rstep (rrun rt ops) o).
Proof. unfold RouterModel.rrun. rewrite fold_left_app. reflexivity. Qed.
Lemma run_registered rt ops : registered (routes_of rt) ops (routes_of (rrun rt ops)).
Proof.
  induction ops as [|o ops IH] using rev_ind; [constructor|]. rewrite rrun_snoc. econstructor; [exact IH|apply step_changes].
Qed.
Lemma get_iff rt n r : get_route I rt n = Some r <-> exists a b, first_named n (routes_of rt) a r b.
Proof.
  unfold get_route, routes_of. induction (ro_entries I rt) as [|e es IH]; cbn [find option_map].
  - split; [discriminate|]. intros (a & b & E & _). destruct a; discriminate.
  - destruct (String.eqb (rt_name (en_route e)) n) eqn:E.
    + apply String.eqb_eq in E. cbn. split.
      * intros [= <-]. exists [], (map en_route es). split; [reflexivity|]. split; [exact E|intros x []].
      * intros (a & b & A & B & C). destruct a as [|y a]; cbn in A; [congruence|]. injection A as <- A. destruct (C (en_route e)); [left; reflexivity|exact E].
    + apply eqb_false in E. rewrite IH. split; intros (a & b & A & B & C).
      * exists (en_route e :: a), b. split; [cbn; rewrite A; reflexivity|]. split; [exact B|]. intros x [<-|H]; auto.
      * destruct a as [|y a]; cbn in A; injection A as A1 A2; [congruence|]. exists a, b. split; [exact A2|]. split; [exact B|]. intros x H. apply C. right. exact H.
Qed.
(** Without a store every accepted call succeeds. *)
Lemma step_store rt o : ro_store I rt = None -> ro_store I (fst (rstep rt o)) = None.
Proof.
  intros N. unfold RouterModel.rstep. destruct (op_call o) as [r|l|n|q|qs].
  - unfold add. destruct r; auto. destruct (negb _); auto. rewrite N. exact N.
  - unfold add_batch. destruct (check_batch _ l); auto. rewrite N. exact N.
  - unfold remove. destruct (drop_route _ _); auto. rewrite N. exact N.
  - pose proof (query_same (op_emb o) rt q) as [_ Q]. destruct (route_query _ rt q). cbn in *. congruence.
  - pose proof (batch_same (op_emb o) qs rt) as [_ Q]. destruct (route_batch _ rt qs). cbn in *. congruence.
Qed.
Lemma run_store rt ops : ro_store I rt = None -> ro_store I (rrun rt ops) = None.
Proof. intros N. induction ops as [|o ops IH] using rev_ind; auto. rewrite rrun_snoc. apply step_store. exact IH. Qed.
Lemma step_succeeds rt o : ro_store I rt = None -> (match op_call o with CRoute _ | CRouteBatch _ => False | _ => True end) ->
  (snd (rstep rt o) = Ok tt <-> succeeds (routes_of rt) (op_call o)).
Proof.
  intros N Q. unfold RouterModel.rstep. destruct (op_call o) as [r|l|n|q|qs]; cbn [succeeds]; try contradiction.
  - unfold add. destruct r as [r|]; cbn [snd]; [|split; [discriminate|intros (r & E & _); discriminate]].
    destruct (acceptable_route (ro_entries I rt) r) eqn:A; cbn [negb].
    + rewrite N. cbn. split; auto. intros _. exists r. split; [reflexivity|]. apply acceptable_iff; exact A.
    + cbn. split; [discriminate|]. intros (r' & [= <-] & M). apply acceptable_iff in M. congruence.
  - unfold add_batch. destruct (check_batch (ro_entries I rt) l) as [rs| |] eqn:C.
    + rewrite N. cbn. split; auto. intros _. exists rs. apply check_batch_ok. exact C.
    + cbn. split; [discriminate|]. intros (rs & M). apply check_batch_ok in M. congruence.
    + cbn. split; [discriminate|]. intros (rs & M). apply check_batch_ok in M. congruence.
  - unfold remove. destruct (drop_route n (ro_entries I rt)) as [es|] eqn:D.
    + rewrite N. cbn. split; auto. intros _. destruct (drop_some _ _ _ D) as (a & r & b & (E1 & E2 & _) & _). exists r. split; [|exact E2].
      unfold routes_of. rewrite E1. apply in_or_app. right. left. reflexivity.
    + cbn. split; [discriminate|]. intros (r & H & E). destruct (drop_none _ _ D r H E).
Qed.

(** ** The best utterance *)
(** The loop over all scores at once. *)
Fixpoint best_of (l : list (route * float)) (best : option route * float) : option route * float :=
  match l with
  | [] => best
  | (r, x) :: l' => best_of l' (if fgt x (snd best) then (Some r, x) else best)
  end.
Lemma best_of_app l l' b : best_of (l ++ l') b = best_of l' (best_of l b).
Proof using Type. revert b. induction l as [|[r x] l IH]; intros b; auto. apply IH. Qed.
Lemma scan_vectors_best sim q r vs : forall b, scan_vectors sim q r vs b = best_of (map (fun v => (r, sim q v)) vs) b.
Proof using Type. induction vs as [|v vs IH]; intros b; auto. apply IH. Qed.

Lemma flt_le_lt a b c : flt a b = true -> fle b c = true -> flt a c = true.
Proof using Type.
  intros A B. destruct (flt_not_nan _ _ A) as [Na Nb]. destruct (fle_not_nan _ _ B) as [_ Nc].
  destruct (flt a c) eqn:E; auto. rewrite fle_flt in B by auto. apply negb_true_iff in B.
  pose proof (flt_ntrans b c a Nb Nc Na B E). congruence.
Qed.
Lemma best_of_spec l : forall b0 m0, not_nan m0 ->
  (best_of l (b0, m0) = (b0, m0) /\ forall r x, In (r, x) l -> fgt x m0 = false) \/
  (exists l1 r m l2, l = l1 ++ (r, m) :: l2 /\ best_of l (b0, m0) = (Some r, m) /\ fgt m m0 = true /\
     (forall r' x, In (r', x) l -> fgt x m = false) /\ (forall r' x, In (r', x) l1 -> fge x m = false)).
Proof using Type.
  induction l as [|[r x] l IH]; intros b0 m0 N0; cbn [best_of snd].
  - left. split; auto. intros r x [].
  - destruct (fgt x m0) eqn:G.
    + assert (Nx : not_nan x) by (unfold fgt in G; exact (proj2 (flt_not_nan _ _ G))).
      destruct (IH (Some r) x Nx) as [[E A]|(l1 & r' & m & l2 & -> & E & Gm & A & B)].
      * right. exists [], r, x, l. split; [reflexivity|]. split; [exact E|]. split; [exact G|]. split.
        -- intros r' y [[= <- <-]|H]; [apply flt_irrefl|exact (A _ _ H)].
        -- intros r' y [].
      * right. exists ((r, x) :: l1), r', m, l2. split; [reflexivity|]. split; [exact E|]. split; [exact (flt_trans _ _ _ G Gm)|]. split.
        -- intros r'' y [[= <- <-]|H]; [apply flt_asym; exact Gm|exact (A _ _ H)].
        -- intros r'' y [[= <- <-]|H]; [|exact (B _ _ H)]. destruct (fge x m) eqn:F; auto.
           pose proof (flt_le_lt x m x Gm F) as X. rewrite flt_irrefl in X. discriminate.
    + destruct (IH b0 m0 N0) as [[E A]|(l1 & r' & m & l2 & -> & E & Gm & A & B)].
      * left. split; [exact E|]. intros r' y [[= <- <-]|H]; [exact G|exact (A _ _ H)].
      * right. exists ((r, x) :: l1), r', m, l2. split; [reflexivity|]. split; [exact E|]. split; [exact Gm|]. split.
        -- intros r'' y [[= <- <-]|H]; [|exact (A _ _ H)]. destruct (fgt x m) eqn:F; auto.
           pose proof (flt_trans _ _ _ Gm F) as X. unfold fgt in G. unfold flt in X. congruence.
        -- intros r'' y [[= <- <-]|H]; [|exact (B _ _ H)]. destruct (fge x m) eqn:F; auto.
           pose proof (flt_le_lt m0 m x Gm F) as X. unfold fgt in G. unfold flt in X. congruence.
Qed.

(** ** With a faithful embedder *)
Variable emb : string -> list N.
Lemma embed_each_ok em us : answers emb em -> embed_each em us = Ok (map emb us).
Proof using Type. intros [A _]. induction us as [|u us IH]; auto. cbn [embed_each]. rewrite A, IH. reflexivity. Qed.
Lemma embed_vectors_ok em us : answers emb em -> embed_vectors em us = Ok (map emb us).
Proof using Type.
  intros A. unfold embed_vectors. destruct us as [|u us]; auto. destruct (proj2 A (u :: us)) as [E|E]; rewrite E; auto. apply embed_each_ok. exact A.
Qed.
Definition fresh_cache (e : entry) : Prop := en_cache e = None \/ en_cache e = Some (map emb (rt_utts (en_route e))).
Lemma cached_ok em rt e : answers emb em -> fresh_cache e ->
  snd (cached_vectors em rt e) = Ok (map emb (rt_utts (en_route e))) /\ fresh_cache (fst (cached_vectors em rt e)).
Proof using Type.
  intros A F. unfold cached_vectors. rewrite (embed_vectors_ok _ _ A). destruct (ro_caching I rt); [|auto].
  destruct F as [F|F]; rewrite F; cbn; split; auto; unfold fresh_cache; cbn; auto.
Qed.
Definition all_scores (sim : list N -> list N -> float) (q : string) (rs : list route) : list (route * float) :=
  flat_map (fun r => map (fun u => (r, sim (emb q) (emb u))) (rt_utts r)) rs.
Lemma scan_ok em rt q es : answers emb em -> ro_store I rt = None -> Forall fresh_cache es -> forall best,
  snd (scan_routes em rt (emb q) es best) = Ok (best_of (all_scores (ro_sim I rt) q (map en_route es)) best) /\
  Forall fresh_cache (fst (scan_routes em rt (emb q) es best)).
Proof using Type.
  intros A N F. induction F as [|e es Fe F IH]; intros best; [split; constructor|]. cbn [RouterModel.scan_routes map all_scores flat_map].
  unfold RouterModel.route_vectors. rewrite N. destruct (cached_ok em rt e A Fe) as [C1 C2].
  destruct (cached_vectors em rt e) as [e' res]. cbn [fst snd] in C1, C2. subst res. rewrite scan_vectors_best, map_map, best_of_app.
  destruct (IH (best_of (map (fun x => (en_route e, ro_sim I rt (emb q) (emb x))) (rt_utts (en_route e))) best)) as [I1 I2].
  destruct (scan_routes em rt (emb q) es _) as [l out]. cbn [fst snd] in *. split; [exact I1|constructor; auto].
Qed.
Lemma all_scores_in sim q rs r x : In (r, x) (all_scores sim q rs) <-> In r rs /\ exists u, In u (rt_utts r) /\ x = sim (emb q) (emb u).
Proof using Type.
  unfold all_scores. rewrite in_flat_map. split.
  - intros (r' & H & G). apply in_map_iff in G as (u & [= <- <-] & U). split; auto. exists u. auto.
  - intros (H & u & U & ->). exists r. split; auto. apply in_map_iff. exists u. auto.
Qed.
Lemma scores_in sim q rs x : scores sim emb q rs x <-> exists r, In (r, x) (all_scores sim q rs).
Proof using Type.
  unfold scores. split.
  - intros (r & u & H & U & ->). exists r. apply all_scores_in. eauto.
  - intros (r & H). apply all_scores_in in H as (H & u & U & ->). eauto 6.
Qed.
(** The position of a score gives the position of its route. *)
Lemma all_scores_split sim q rs : forall l1 r m l2, all_scores sim q rs = l1 ++ (r, m) :: l2 ->
  exists a b, rs = a ++ r :: b /\ (exists u, In u (rt_utts r) /\ m = sim (emb q) (emb u)) /\ forall p, In p (all_scores sim q a) -> In p l1.
Proof using Type.
  induction rs as [|r0 rs IH]; intros l1 r m l2 E; [destruct l1; discriminate|].
  cbn [all_scores flat_map] in E. fold (all_scores sim q rs) in E. set (h := map (fun u => (r0, sim (emb q) (emb u))) (rt_utts r0)) in *.
  destruct (Nat.ltb (length l1) (length h)) eqn:L.
  - apply Nat.ltb_lt in L. assert (H : In (r, m) h).
    { assert (G : nth_error (h ++ all_scores sim q rs) (length l1) = Some (r, m)) by (rewrite E, nth_error_app2, Nat.sub_diag by lia; reflexivity).
      rewrite nth_error_app1 in G by exact L. exact (nth_error_In _ _ G). }
    unfold h in H. apply in_map_iff in H as (u & [= <- <-] & U). exists [], rs. split; [reflexivity|]. split; [eauto|]. intros p [].
  - apply Nat.ltb_ge in L. assert (E1 : l1 = h ++ skipn (length h) l1).
    { pose proof (f_equal (firstn (length h)) E) as G. rewrite firstn_app, Nat.sub_diag, firstn_all, firstn_O, app_nil_r in G.
      rewrite firstn_app in G. replace (length h - length l1) with 0 in G by lia. rewrite firstn_O, app_nil_r in G. rewrite G at 1. symmetry. apply firstn_skipn. }
    rewrite E1, <- app_assoc in E. apply app_inv_head in E. destruct (IH _ _ _ _ E) as (a & b & -> & U & P). exists (r0 :: a), b. split; [reflexivity|]. split; [exact U|].
    intros p Hp. rewrite E1. cbn [all_scores flat_map] in Hp. apply in_app_or in Hp as [Hp|Hp]; apply in_or_app; auto.
Qed.
Lemma query_ok em rt q : answers emb em -> ro_store I rt = None -> Forall fresh_cache (ro_entries I rt) -> q <> "" ->
  exists a, snd (route_query em rt q) = Ok a /\ right_answer (ro_sim I rt) emb (ro_threshold I rt) (routes_of rt) q a.
Proof using Type.
  intros A N F Q. unfold RouterModel.route_query. rewrite (proj2 (String.eqb_neq q "") Q), (proj1 A q).
  destruct (scan_ok em rt q _ A N F (None, f_zero)) as [S1 _]. destruct (scan_routes em rt (emb q) (ro_entries I rt) _) as [es out].
  cbn [snd] in S1. subst out. cbn [snd bind]. fold (routes_of rt). set (sim := ro_sim I rt).
  destruct (best_of_spec (all_scores sim q (routes_of rt)) None f_zero ltac:(discriminate)) as [[E B]|(l1 & r & m & l2 & E & B & G & M1 & M2)].
  - rewrite E. cbn [fst snd]. eexists. split; [reflexivity|]. split; [auto|]. intros (x & H & X). apply scores_in in H as [r H]. rewrite (B _ _ H) in X. discriminate.
  - rewrite B. cbn [fst snd]. eexists. split; [reflexivity|]. destruct (all_scores_split _ _ _ _ _ _ _ E) as (a & b & Er & (u & U & Em) & P). split.
    + intros Z. rewrite Z in G; [discriminate|]. apply scores_in. exists r. rewrite E. apply in_or_app. right. left. reflexivity.
    + intros _. exists a, r, b. split; [exact Er|]. split; [reflexivity|]. split; [reflexivity|]. split; [exists r, u; cbn; auto|].
      split; [exact G|]. split; [intros x H; apply scores_in in H as [r' H]; exact (M1 _ _ H)|].
      split; [intros x H; apply scores_in in H as [r' H]; exact (M2 _ _ (P _ H))|]. reflexivity.
Qed.
Lemma query_cache em rt q : answers emb em -> ro_store I rt = None -> Forall fresh_cache (ro_entries I rt) ->
  Forall fresh_cache (ro_entries I (fst (route_query em rt q))).
Proof using Type.
  intros A N F. unfold RouterModel.route_query. destruct (String.eqb q ""); auto. rewrite (proj1 A q).
  destruct (scan_ok em rt q _ A N F (None, f_zero)) as [_ S2]. destruct (scan_routes em rt (emb q) (ro_entries I rt) _) as [es out]. exact S2.
Qed.
Lemma batch_cache em qs : forall rt, answers emb em -> ro_store I rt = None -> Forall fresh_cache (ro_entries I rt) ->
  Forall fresh_cache (ro_entries I (fst (route_batch em rt qs))).
Proof using Type.
  induction qs as [|q qs IH]; intros rt A N F; auto. cbn [RouterModel.route_batch].
  pose proof (query_cache em rt q A N F) as C. pose proof (query_same em rt q) as [_ S0]. destruct (route_query em rt q) as [rt1 res]. cbn [fst] in *.
  destruct res as [a| |]; auto. specialize (IH rt1 A ltac:(congruence) C). destruct (route_batch em rt1 qs). exact IH.
Qed.
Lemma step_cache rt o : answers emb (op_emb o) -> ro_store I rt = None -> Forall fresh_cache (ro_entries I rt) ->
  Forall fresh_cache (ro_entries I (fst (rstep rt o))).
Proof using Type.
  intros A N F. unfold RouterModel.rstep. destruct (op_call o) as [r|l|n|q|qs].
  - unfold add. destruct r as [r|]; auto. destruct (negb _); auto. rewrite N. cbn. apply Forall_app. split; auto. repeat constructor.
  - unfold add_batch. destruct (check_batch _ l) as [rs| |]; auto. rewrite N. cbn. apply Forall_app. split; auto.
    apply Forall_forall. intros e H. apply in_map_iff in H as (r & <- & _). left. reflexivity.
  - unfold remove. destruct (drop_route n (ro_entries I rt)) as [es|] eqn:D; auto. rewrite N. cbn.
    assert (S0 : forall e, In e es -> In e (ro_entries I rt)).
    { clear -D. revert es D. induction (ro_entries I rt) as [|e0 l IH]; cbn [drop_route]; intros es D; [discriminate|].
      destruct (String.eqb _ n); [injection D as <-; intros e H; right; exact H|]. destruct (drop_route n l) as [l'|]; [|discriminate].
      injection D as <-. intros e [->|H]; [left; reflexivity|right; eapply IH; eauto]. }
    rewrite Forall_forall in *. auto.
  - pose proof (query_cache (op_emb o) rt q A N F) as C. destruct (route_query _ rt q). exact C.
  - pose proof (batch_cache (op_emb o) qs rt A N F) as C. destruct (route_batch _ rt qs). exact C.
Qed.
Lemma run_cache rt ops : Forall (fun o => answers emb (op_emb o)) ops -> ro_store I rt = None -> Forall fresh_cache (ro_entries I rt) ->
  Forall fresh_cache (ro_entries I (rrun rt ops)).
Proof using Type.
  intros A N F. induction ops as [|o ops IH] using rev_ind; auto. rewrite rrun_snoc. apply Forall_app in A as [A B]. inversion B; subst.
  apply step_cache; auto. apply run_store. exact N.
Qed.
Lemma step_config rt o : ro_sim I (fst (rstep rt o)) = ro_sim I rt /\ ro_threshold I (fst (rstep rt o)) = ro_threshold I rt.
Proof using Type.
  assert (Q : forall em rt q, ro_sim I (fst (route_query em rt q)) = ro_sim I rt /\ ro_threshold I (fst (route_query em rt q)) = ro_threshold I rt).
  { intros em rt0 q. unfold RouterModel.route_query. destruct (String.eqb q ""); auto. destruct (em_one em q); auto. destruct (scan_routes em rt0 _ _ _). auto. }
  unfold RouterModel.rstep. destruct (op_call o) as [r|l|n|q|qs].
  - unfold add. destruct r; auto. destruct (negb _); auto. destruct (ro_store I rt); auto. destruct (persist I _ _ _ _ _); auto.
  - unfold add_batch. destruct (check_batch _ l); auto. destruct (ro_store I rt); auto. destruct (persist_all I _ _ _ _ _); auto.
  - unfold remove. destruct (drop_route _ _); auto. destruct (ro_store I rt); auto. destruct (stored_vectors I srt noise md sc _ _ _); auto.
  - specialize (Q (op_emb o) rt q). destruct (route_query _ rt q). exact Q.
  - assert (B : forall qs rt, ro_sim I (fst (route_batch (op_emb o) rt qs)) = ro_sim I rt /\ ro_threshold I (fst (route_batch (op_emb o) rt qs)) = ro_threshold I rt).
    { clear rt qs. induction qs as [|q qs IH]; intros rt; auto. cbn [RouterModel.route_batch]. specialize (Q (op_emb o) rt q).
      destruct (route_query (op_emb o) rt q) as [rt1 res]. cbn [fst] in Q. destruct res; cbn [fst]; auto. specialize (IH rt1). destruct (route_batch _ rt1 qs). cbn [fst] in *. destruct Q, IH. split; congruence. }
    specialize (B qs rt). destruct (route_batch _ rt qs). exact B.
Qed.
Lemma run_config rt ops : ro_sim I (rrun rt ops) = ro_sim I rt /\ ro_threshold I (rrun rt ops) = ro_threshold I rt.
Proof using Type.
  induction ops as [|o ops [A B]] using rev_ind; auto. rewrite rrun_snoc. destruct (step_config (rrun rt ops) o). split; congruence.
Qed.
End R.
