(** Proofs about LexRagModel.v. *)
From Coq Require Import String Ascii List NArith ZArith Bool Arith Lia ZifyBool ZifyNat Permutation Sorted.
From Coq Require Import Floats.SpecFloat.
From Verif Require Import Base Floats64 TopK StoreModel SearchModel DiversityModel DiversitySpec DiversityProofs AdvSearchProofs AggProofs RagModel RagSpec RagProofs RagSearchProofs LexRagModel LexRagSpec.
Import ListNotations.
Open Scope list_scope.
Open Scope nat_scope.

Lemma lex_raise_raised s : lex_raise s = raised s.
Proof. unfold lex_raise, raised. change (dec 3 4) with (f64_div (f64_of_Z 3) (f64_of_Z 4)). destruct (flt _ _); [reflexivity|]. destruct s; reflexivity. Qed.
Lemma lex_met_met ns : lex_met ns = map met_chunk (filter is_chunk ns).
Proof. induction ns as [|n ns IH]; [reflexivity|]. cbn [lex_met flat_map filter]. unfold is_chunk at 1. destruct (String.eqb (n_type n) "chunk"); cbn [app map]; [f_equal|]; exact IH. Qed.
Lemma lex_ents_in ns e : In e (lex_ents ns) <-> exists n, In n ns /\ n_type n = "entity"%string /\ n_content n = e.
Proof.
  unfold lex_ents. rewrite in_flat_map. split; intros (n & H1 & H2); exists n.
  - destruct (String.eqb (n_type n) "entity") eqn:E; [|destruct H2]. apply String.eqb_eq in E. destruct H2 as [H2|[]]. auto.
  - destruct H2 as [H2 H3]. split; auto. rewrite H2, String.eqb_refl. left. auto.
Qed.
Lemma raised_not_nan s : not_nan (s_score s) -> not_nan (s_score (raised s)).
Proof. unfold raised. cbn. destruct (flt _ _); auto. intros _. vm_compute. discriminate. Qed.
Lemma met_not_nan n : not_nan (s_score (met_chunk n)).
Proof. vm_compute. discriminate. Qed.

(** *** the map of chunks *)
Record linv (os : list seed) (m : list rchunk) : Prop := {
  l_nd : NoDup (map c_id m);
  l_ids : forall id, In id (map c_id m) <-> In id (map s_id os);
  l_ok : forall c, In c m -> offered os c /\ c_ents c = [] }.
Lemma linv_nil : linv [] [].
Proof. constructor; cbn; [constructor|tauto|intros c []]. Qed.
Lemma offered_more os s c : offered os c -> (s_id s = c_id c -> flt (c_score c) (s_score s) = false) -> offered (os ++ [s]) c.
Proof.
  intros ((b & x & a & E & N & H) & (y & Hy & Hy2) & C & D) Hs. split; [|split; [|split]]; auto.
  - exists b, x, (a ++ [s]). split; [rewrite E, <- app_assoc; reflexivity|auto].
  - exists y. rewrite in_app_iff. auto.
  - intros z Hz. apply in_app_or in Hz as [Hz|[<-|[]]]; auto.
Qed.
Lemma linv_add os m s : (forall x, In x (os ++ [s]) -> not_nan (s_score x)) -> linv os m -> linv (os ++ [s]) (lex_add m s).
Proof.
  intros Hn [I1 I2 I3]. unfold lex_add.
  assert (Hid : forall id, In id (map s_id (os ++ [s])) <-> id = s_id s \/ In id (map s_id os)).
  { intros id. rewrite map_app, in_app_iff. cbn. intuition. }
  destruct (find_chunk (s_id s) m) as [r|] eqn:F.
  - apply find_chunk_in in F as [Hr Er]. destruct (I3 r Hr) as [(A & (y & Hy1 & Hy2 & Hy3) & C & D) Z].
    assert (Hex : In (s_id s) (map s_id os)) by (apply I2; rewrite <- Er; apply in_map; auto).
    assert (Hother : forall c, In c m -> c_id c <> s_id s -> offered (os ++ [s]) c /\ c_ents c = []).
    { intros c Hc Hne. destruct (I3 c Hc) as [Q1 Q2]. split; auto. apply offered_more; auto. intros Q. congruence. }
    change (fgt (s_score s) (c_score r)) with (flt (c_score r) (s_score s)). destruct (flt (c_score r) (s_score s)) eqn:E.
    + set (r' := set_base (set_score r (s_score s))). assert (Er' : c_id r' = s_id s) by exact Er. constructor.
      * apply put_nodup; auto.
      * intros id. rewrite put_ids, Er', Hid, I2. tauto.
      * intros c Hc. rewrite put_in in Hc by auto. destruct Hc as [->|[Hc Hne]]; [|apply Hother; auto; rewrite <- Er'; auto].
        split; [|exact Z]. split; [|split; [|split]].
        { destruct A as (b & x & a & A1 & A2 & A3). exists b, x, (a ++ [s]). rewrite Er'. rewrite Er in A2, A3. split; [rewrite A1, <- app_assoc; reflexivity|]. split; auto. }
        { exists s. rewrite in_app_iff, Er'. cbn. auto. }
        { intros z Hz Hz2. rewrite Er' in Hz2. cbn [c_score r' set_base set_score]. apply in_app_or in Hz as [Hz|[<-|[]]]; [|apply flt_irrefl].
          destruct (flt (s_score s) (s_score z)) eqn:G; auto. specialize (C z Hz). rewrite Er in C. specialize (C Hz2). rewrite (flt_trans _ _ _ E G) in C. discriminate. }
        reflexivity.
    + constructor; auto.
      * intros id. rewrite Hid, I2. split; [auto|]. intros [->|H]; auto.
      * intros c Hc. destruct (string_dec (c_id c) (s_id s)) as [Q|Q]; [|apply Hother; auto].
        assert (c = r) as ->. { pose proof (find_chunk_nodup c m I1 Hc) as Q1. pose proof (find_chunk_nodup r m I1 Hr) as Q2. rewrite Q, <- Er, Q2 in Q1. congruence. }
        destruct (I3 r Hr) as [Q1 Q2]. split; auto. apply offered_more; auto.
  - apply find_chunk_none in F. constructor.
    + apply put_nodup; auto.
    + intros id. rewrite put_ids, Hid, I2. cbn. tauto.
    + intros c Hc. rewrite put_in in Hc by auto. destruct Hc as [->|[Hc Hne]].
      * split; [|reflexivity]. rewrite I2 in F. split; [|split; [|split]].
        { exists os, s, []. cbn. auto 8. }
        { exists s. rewrite in_app_iff. cbn. auto. }
        { intros z Hz Hz2. cbn in *. apply in_app_or in Hz as [Hz|[<-|[]]]; [|apply flt_irrefl]. exfalso. apply F. rewrite <- Hz2. apply in_map. auto. }
        reflexivity.
      * destruct (I3 c Hc) as [Q1 Q2]. split; auto. apply offered_more; auto. intros Q. cbn in Hne. congruence.
Qed.
Lemma linv_adds ss : forall os m, (forall x, In x (os ++ ss) -> not_nan (s_score x)) -> linv os m -> linv (os ++ ss) (fold_left lex_add ss m).
Proof.
  induction ss as [|s ss IH]; intros os m Hn Hi; [rewrite app_nil_r; auto|]. cbn [fold_left].
  replace (os ++ s :: ss) with ((os ++ [s]) ++ ss) in * by (rewrite <- app_assoc; reflexivity). apply IH; auto.
  apply linv_add; auto. intros x Hx. apply Hn. apply in_or_app. auto.
Qed.

(** *** the order of the seeds *)
Lemma seen_snoc l x : fold_left lex_seen (l ++ [x]) [] = lex_seen (fold_left lex_seen l []) x.
Proof. apply fold_left_app. Qed.
Lemma seen_spec l : NoDup (fold_left lex_seen l []) /\ first_order l (fold_left lex_seen l []).
Proof.
  induction l as [|x l IH] using rev_ind.
  - cbn. split; [constructor|]. split; [tauto|]. intros [|i] id H; discriminate.
  - rewrite seen_snoc. destruct IH as (N & H1 & H2). unfold lex_seen at 1 3. destruct (in_dec string_dec x (fold_left lex_seen l [])) as [Hx|Hx].
    + split; auto. split.
      * intros id. rewrite in_app_iff, H1. cbn. split; [intros [H|[<-|[]]]; auto|auto].
      * intros i id Hi. destruct (H2 i id Hi) as (b & a & E & Q). exists b, (a ++ [x]). split; [rewrite E at 1; rewrite <- app_assoc; reflexivity|exact Q].
    + split.
      * apply (Permutation_NoDup (l := x :: fold_left lex_seen l [])); [apply Permutation_cons_append|constructor; auto].
      * split.
        { intros id. rewrite !in_app_iff, H1. tauto. }
        intros i id Hi. destruct (Nat.lt_ge_cases i (length (fold_left lex_seen l []))) as [L|L].
        { rewrite nth_error_app1 in Hi by auto. destruct (H2 i id Hi) as (b & a & E & Q1 & Q2). exists b, (a ++ [x]). split; [rewrite E, <- app_assoc; reflexivity|]. split; auto.
          intros y. rewrite Q2, firstn_app. replace (i - length (fold_left lex_seen l [])) with 0 by lia. rewrite firstn_O, app_nil_r. tauto. }
        rewrite nth_error_app2 in Hi by auto. destruct (i - length (fold_left lex_seen l [])) as [|j] eqn:Ei; [|destruct j; discriminate]. injection Hi as <-.
        exists l, []. split; auto. split; [rewrite H1; auto|]. intros y. rewrite H1, firstn_app, Ei. rewrite firstn_O, app_nil_r. rewrite firstn_all2 by lia. tauto.
Qed.
Lemma seen_nil l : fold_left lex_seen l [] = [] -> l = [].
Proof. intros E. destruct (seen_spec l) as (_ & H & _). rewrite E in H. destruct l as [|x l]; auto. exfalso. apply (H x). left. auto. Qed.

(** *** expansion *)
Lemma lex_expand_spec nb o ids : forall os m es m' es', (forall x, In x os -> not_nan (s_score x)) -> linv os m -> lex_expand nb o ids m es = Some (m', es') ->
  exists nss, Forall2 (fun id ns => nb id (q_hops o) (q_topk o * 12)%Z = Some ns) ids nss /\
    linv (os ++ map met_chunk (filter is_chunk (concat nss))) m' /\
    forall e, In e es' <-> In e es \/ exists n, In n (concat nss) /\ n_type n = "entity"%string /\ n_content n = e.
Proof.
  induction ids as [|id ids IH]; intros os m es m' es' Hn Hi E; cbn [lex_expand] in E.
  - injection E as <- <-. exists []. split; [constructor|]. cbn. rewrite app_nil_r. split; auto. intros e. split; auto. intros [H|(n & [] & _)]; auto.
  - destruct (nb id (q_hops o) (q_topk o * 12)%Z) as [ns|] eqn:En; [|discriminate]. rewrite lex_met_met in E.
    assert (Hn' : forall x, In x (os ++ map met_chunk (filter is_chunk ns)) -> not_nan (s_score x)).
    { intros x Hx. apply in_app_or in Hx as [Hx|Hx]; auto. apply in_map_iff in Hx as (n & <- & _). apply met_not_nan. }
    destruct (IH (os ++ map met_chunk (filter is_chunk ns)) _ _ _ _ Hn' (linv_adds _ _ _ Hn' Hi) E) as (nss & F & I & G).
    exists (ns :: nss). split; [constructor; auto|]. cbn [concat]. split.
    + rewrite filter_app, map_app, app_assoc. exact I.
    + intros e. rewrite G, in_app_iff, lex_ents_in. split.
      * intros [[H|(n & H1 & H2)]|(n & H1 & H2)]; auto; right; exists n; rewrite in_app_iff; auto.
      * intros [H|(n & H1 & H2)]; auto. apply in_app_or in H1 as [H1|H1]; eauto.
Qed.
Lemma lex_expand_some nb o ids : forall m es, (forall id, In id ids -> nb id (q_hops o) (q_topk o * 12)%Z <> None) <-> lex_expand nb o ids m es <> None.
Proof.
  induction ids as [|id ids IH]; intros m es; cbn [lex_expand].
  - split; [discriminate|intros _ id []].
  - destruct (nb id (q_hops o) (q_topk o * 12)%Z) as [ns|] eqn:E.
    + rewrite <- IH. split; [intros H id' H'; apply H; right; auto|]. intros H id' [<-|H']; [rewrite E; discriminate|auto].
    + split; [intros H; exfalso; apply (H id); [left; auto|exact E]|congruence].
Qed.
Lemma load_some ent ssort m : forall es, (forall c, In c m -> ent (c_id c) <> None) <-> load_entities ent ssort m es <> None.
Proof.
  induction m as [|c m IH]; intros es; cbn [load_entities].
  - split; [discriminate|intros _ c []].
  - destruct (ent (c_id c)) as [ns|] eqn:E.
    + specialize (IH (es ++ ns)). destruct (load_entities ent ssort m (es ++ ns)) as [[m1 e1]|] eqn:El.
      * split; [discriminate|]. intros _ c' [<-|H]; [rewrite E; discriminate|]. apply (proj2 IH); [discriminate|auto].
      * split; [intros H|congruence]. exfalso. apply (proj1 IH); [|auto]. intros c' H'. apply H. right. auto.
    + split; [intros H; exfalso; apply (H c); [left; auto|exact E]|congruence].
Qed.

(** *** candidates *)
Lemma firsts_spec (P : rchunk -> Prop) ids m : NoDup (map c_id m) -> (forall id, In id ids -> In id (map c_id m)) -> (forall c, In c m -> P c) ->
  Forall2 (fun id c => c_id c = id /\ P c) ids (lex_firsts ids m).
Proof.
  intros N H HP. induction ids as [|id ids IH]; [constructor|]. cbn [lex_firsts flat_map].
  assert (Hi : In id (map c_id m)) by (apply H; left; auto). apply in_map_iff in Hi as (c & E & Hc). rewrite <- E, (find_chunk_nodup c m) by auto.
  cbn [app]. constructor; [auto|]. apply IH. intros id' H'. apply H. right. auto.
Qed.
Lemma lex_use_spec names o q given : use_graph names o q given = true <-> graph_wanted names o q given.
Proof.
  unfold use_graph, graph_wanted. destruct (q_nograph o); [split; [discriminate|intros [H _]; discriminate]|]. destruct (q_mode o).
  - destruct given as [|g given]; destruct (names q) as [|x l]; cbn; split; auto; try discriminate.
    + intros [_ [H|[_ [H|H]]]]; congruence.
    + intros _. split; auto. right. split; auto. right. discriminate.
    + intros _. split; auto. right. split; auto. left. discriminate.
    + intros _. split; auto. right. split; auto. left. discriminate.
  - split; [discriminate|]. intros [_ [H|[H _]]]; discriminate.
  - split; auto.
Qed.
Lemma lex_finish_spec tokens names o q cs : from_candidates tokens names o q cs (lex_finish tokens names (query_defaults o) q cs).
Proof. exists (rerank tokens names (query_defaults o) q cs). split; [apply rerank_reranked|]. apply pack_packed. Qed.
Lemma def_topk o : q_topk (query_defaults o) = topk_limit o.
Proof. reflexivity. Qed.
Lemma def_hops o : q_hops (query_defaults o) = hops_limit o.
Proof. reflexivity. Qed.
Lemma from_nil tokens names o q z : from_candidates tokens names o q [] z <-> z = [].
Proof.
  split.
  - intros (rk & (sc & ix & F1 & (_ & F2) & F3 & _) & (k & K1 & K2 & _)). cbn in F3. rewrite Nat.min_0_r in F3. destruct rk; [|discriminate]. destruct k; [exact K2|discriminate].
  - intros ->. exists []. split; [exists [], []; split; [constructor|]; split; [split; constructor|]; split; [cbn; lia|]; intros [|k] i j ci cj H; discriminate|].
    exists []. split; auto. split; auto. intros [|i] c H; discriminate.
Qed.
