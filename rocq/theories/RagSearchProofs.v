(** Proofs about the search part of RagModel.v. *)
From Coq Require Import String Ascii List NArith ZArith Bool Arith Lia ZifyBool ZifyNat Permutation Sorted.
From Coq Require Import Floats.SpecFloat.
From Verif Require Import Base Floats64 TopK StoreModel SearchModel DiversityModel DiversitySpec DiversityProofs AdvSearchProofs AggProofs RagModel RagSpec RagProofs.
Import ListNotations.
Open Scope list_scope.
Open Scope nat_scope.

Lemma round_aux_not_nan prec emax s m e l : (0 <= m)%Z -> SpecFloat.binary_round_aux prec emax s m e l <> S754_nan.
Proof.
  intros Hm. unfold SpecFloat.binary_round_aux.
  pose proof (shr_fexp_pos prec emax m e l Hm) as A. destruct (shr_fexp _ _ _ _ _) as [r1 e1]. cbn [fst] in A.
  assert (B : (0 <= round_nearest_even (shr_m r1) (loc_of_shr_record r1))%Z).
  { unfold round_nearest_even. destruct (loc_of_shr_record r1) as [|[]]; try lia. destruct (Z.even _); lia. }
  pose proof (shr_fexp_pos prec emax _ e1 loc_Exact B) as D. destruct (shr_fexp _ _ _ _ _) as [r2 e2]. cbn [fst] in D.
  destruct (shr_m r2); [discriminate| |lia]. destruct (Z.leb _ _); discriminate.
Qed.
Lemma half_not_nan x : not_nan x -> not_nan (half x).
Proof.
  intros H. unfold half. change (f64_div (f64_of_Z 1) (f64_of_Z 2)) with (S754_finite false 4503599627370496 (-53)).
  destruct x as [s|s| |s m e]; [discriminate|discriminate|congruence|].
  unfold f64_mul, SFmul. apply round_aux_not_nan. lia.
Qed.

(** *** the map of chunks *)
Lemma find_chunk_in id m c : find_chunk id m = Some c -> In c m /\ c_id c = id.
Proof. intros H. apply find_some in H as [H1 H2]. apply String.eqb_eq in H2. auto. Qed.
Lemma find_chunk_none id m : find_chunk id m = None <-> ~ In id (map c_id m).
Proof.
  unfold find_chunk. induction m as [|c m IH]; cbn; [split; auto|]. destruct (String.eqb (c_id c) id) eqn:E.
  - apply String.eqb_eq in E. split; [discriminate|]. intros H. exfalso. auto.
  - apply String.eqb_neq in E. rewrite IH. tauto.
Qed.
Lemma find_chunk_nodup c m : NoDup (map c_id m) -> In c m -> find_chunk (c_id c) m = Some c.
Proof.
  unfold find_chunk. induction m as [|d m IH]; intros N H; [destruct H|]. cbn in N. apply NoDup_cons_iff in N as [N1 N2]. cbn.
  destruct H as [<-|H]; [rewrite String.eqb_refl; auto|]. destruct (String.eqb (c_id d) (c_id c)) eqn:E; [|auto].
  apply String.eqb_eq in E. exfalso. apply N1. rewrite E. apply in_map. auto.
Qed.
Lemma put_ids c m : forall id, In id (map c_id (put_chunk c m)) <-> id = c_id c \/ In id (map c_id m).
Proof.
  induction m as [|d m IH]; intros id; cbn; [intuition|]. destruct (String.eqb (c_id d) (c_id c)) eqn:E; cbn.
  - apply String.eqb_eq in E. rewrite E. intuition.
  - rewrite IH. intuition.
Qed.
Lemma put_nodup c m : NoDup (map c_id m) -> NoDup (map c_id (put_chunk c m)).
Proof.
  induction m as [|d m IH]; intros N; cbn; [constructor; [intros []|constructor]|]. cbn in N. apply NoDup_cons_iff in N as [N1 N2].
  destruct (String.eqb (c_id d) (c_id c)) eqn:E; cbn.
  - apply String.eqb_eq in E. constructor; [rewrite <- E; auto|auto].
  - apply String.eqb_neq in E. constructor; [rewrite put_ids; intros [H|H]; auto|auto].
Qed.
Lemma put_in c m : NoDup (map c_id m) -> forall x, In x (put_chunk c m) <-> x = c \/ (In x m /\ c_id x <> c_id c).
Proof.
  induction m as [|d m IH]; intros N x; cbn; [intuition|]. cbn in N. apply NoDup_cons_iff in N as [N1 N2].
  destruct (String.eqb (c_id d) (c_id c)) eqn:E; cbn.
  - apply String.eqb_eq in E. split; [intros [<-|H]; auto|].
    + right. split; auto. intros Q. apply N1. rewrite E, <- Q. apply in_map. auto.
    + intros [->|[[<-|H] H2]]; auto. congruence.
  - apply String.eqb_neq in E. rewrite IH by auto. split; [intros [<-|[->|[H H2]]]; auto|]. intros [->|[[<-|H] H2]]; auto.
Qed.

(** *** what has been met *)
(** A pair of a seed and a node met from it. *)
Definition hit : Type := seed * gnode.
Definition chunk_hit (h : hit) (id : string) : Prop := n_type (snd h) = "chunk"%string /\ n_id (snd h) = id.
Definition doc_of (n : gnode) : string := match n_doc n with Some d => d | None => EmptyString end.
Definition entry_ok (hits : list hit) (c : rchunk) : Prop :=
  (exists h, In h hits /\ chunk_hit h (c_id c) /\ c_content c = n_content (snd h) /\ c_doc c = doc_of (snd h)) /\
  (exists h, In h hits /\ chunk_hit h (c_id c) /\ c_score c = half (s_score (fst h))) /\
  (forall h, In h hits -> chunk_hit h (c_id c) -> flt (c_score c) (half (s_score (fst h))) = false) /\
  c_base c = f_zero /\ c_rerank c = f_zero /\ c_ents c = [].
Definition seed_fresh (s : seed) : rchunk := fresh_chunk (s_id s) (s_doc s) (s_content s) (s_score s).
Record inv (seen : list seed) (hits : list hit) (m : list rchunk) (es : list string) : Prop := {
  i_nd : NoDup (map c_id m);
  i_ids : forall id, In id (map c_id m) <-> In id (map s_id seen) \/ exists h, In h hits /\ chunk_hit h id;
  i_seed : forall s, In s seen -> In (seed_fresh s) m;
  i_rel : forall c, In c m -> ~ In (c_id c) (map s_id seen) -> entry_ok hits c;
  i_ents : forall e, In e es <-> exists h, In h hits /\ n_type (snd h) = "entity"%string /\ n_content (snd h) = e }.

Lemma inv_seed seen hits m es s : NoDup (map s_id (seen ++ [s])) -> inv seen hits m es -> inv (seen ++ [s]) hits (put_chunk (seed_fresh s) m) es.
Proof.
  intros N [I1 I2 I3 I4 I5]. rewrite map_app in N. constructor; auto.
  - apply put_nodup; auto.
  - intros id. rewrite put_ids, I2, map_app, in_app_iff. cbn. intuition.
  - intros s' H. rewrite put_in by auto. apply in_app_or in H as [H|[<-|[]]]; auto. right. split; auto. cbn.
    intros E. cbn in N. pose proof (NoDup_remove_2 _ _ _ N) as Q. rewrite app_nil_r in Q. apply Q. rewrite <- E. apply in_map. auto.
  - intros c H Hn. rewrite put_in in H by auto. rewrite map_app, in_app_iff in Hn. destruct H as [->|[H H2]]; [exfalso; apply Hn; right; left; auto|].
    apply I4; auto.
Qed.
Lemma entry_ok_mono hits h c : entry_ok hits c -> (chunk_hit h (c_id c) -> flt (c_score c) (half (s_score (fst h))) = false) -> entry_ok (hits ++ [h]) c.
Proof.
  intros ((h1 & A & B) & (h2 & A' & B') & C & D) H. split; [exists h1; rewrite in_app_iff; auto|]. split; [exists h2; rewrite in_app_iff; auto|]. split; [|exact D].
  intros h' H1 H2. apply in_app_or in H1 as [H1|[<-|[]]]; auto.
Qed.
Lemma inv_visit seen hits m es s n : In s seen -> (forall s, In s seen -> not_nan (s_score s)) -> (forall h, In h hits -> In (fst h) seen) -> inv seen hits m es ->
  inv seen (hits ++ [(s, n)]) (fst (visit (map s_id seen) (s_score s) (m, es) n)) (snd (visit (map s_id seen) (s_score s) (m, es) n)).
Proof.
  intros Hs Hnn Hhits [I1 I2 I3 I4 I5]. unfold visit.
  assert (Hsame : (n_type n <> "chunk"%string \/ In (n_id n) (map s_id seen)) -> forall id, (exists h, In h (hits ++ [(s, n)]) /\ chunk_hit h id) /\ ~ In id (map s_id seen) <-> (exists h, In h hits /\ chunk_hit h id) /\ ~ In id (map s_id seen)).
  { intros Hx id. split; intros [(h & H1 & H2) H3]; split; auto; [|exists h; rewrite in_app_iff; auto].
    apply in_app_or in H1 as [H1|[<-|[]]]; [eauto|]. destruct H2 as [H2 <-]. exfalso. destruct Hx; auto. }
  assert (Hkeep : (n_type n <> "chunk"%string \/ In (n_id n) (map s_id seen)) ->
     (forall id, In id (map c_id m) <-> In id (map s_id seen) \/ exists h, In h (hits ++ [(s, n)]) /\ chunk_hit h id) /\
     (forall c, In c m -> ~ In (c_id c) (map s_id seen) -> entry_ok (hits ++ [(s, n)]) c)).
  { intros Hx. split.
    - intros id. rewrite I2. specialize (Hsame Hx id). destruct (in_dec string_dec id (map s_id seen)); tauto.
    - intros c Hc Hn. apply entry_ok_mono; auto. intros [H1 H2]. cbn in *. exfalso. destruct Hx as [Hx|Hx]; [auto|]. rewrite H2 in Hx. auto. }
  destruct (String.eqb (n_type n) "entity") eqn:Et.
  { apply String.eqb_eq in Et. assert (Hx : n_type n <> "chunk"%string) by (rewrite Et; discriminate). destruct (Hkeep (or_introl Hx)) as [K1 K2]. cbn [fst snd].
    constructor; auto. intros e. rewrite in_app_iff, I5. cbn. split.
    - intros [(h & H)|[<-|[]]]; [exists h|exists (s, n)]; rewrite in_app_iff; cbn; intuition.
    - intros (h & H1 & H2 & H3). apply in_app_or in H1 as [H1|[<-|[]]]; [left; eauto|right; left; auto]. }
  apply String.eqb_neq in Et.
  assert (Hents : forall e, In e es <-> exists h, In h (hits ++ [(s, n)]) /\ n_type (snd h) = "entity"%string /\ n_content (snd h) = e).
  { intros e. rewrite I5. split; intros (h & H1 & H2); [exists h; rewrite in_app_iff; auto|]. apply in_app_or in H1 as [H1|[<-|[]]]; [eauto|]. cbn in H2. tauto. }
  destruct (String.eqb (n_type n) "chunk") eqn:Ec.
  2:{ apply String.eqb_neq in Ec. destruct (Hkeep (or_introl Ec)) as [K1 K2]. cbn [fst snd]. constructor; auto. }
  apply String.eqb_eq in Ec. destruct (in_dec string_dec (n_id n) (map s_id seen)) as [Hin|Hin].
  { destruct (Hkeep (or_intror Hin)) as [K1 K2]. cbn [fst snd]. constructor; auto. }
  change (f64_mul (s_score s) (dec 1 2)) with (half (s_score s)).
  assert (Hids : forall id, (id = n_id n \/ In id (map c_id m)) <-> In id (map s_id seen) \/ exists h, In h (hits ++ [(s, n)]) /\ chunk_hit h id).
  { intros id. rewrite I2. split.
    - intros [->|[H|(h & H1 & H2)]]; auto; right; [exists (s, n)|exists h]; rewrite in_app_iff; cbn; auto. split; [right; left; auto|split; auto].
    - intros [H|(h & H1 & H2)]; auto. apply in_app_or in H1 as [H1|[<-|[]]]; [right; right; eauto|left; symmetry; apply H2]. }
  assert (Hnh : not_nan (half (s_score s))) by (apply half_not_nan; auto).
  assert (Hother : forall c, In c m -> c_id c <> n_id n -> ~ In (c_id c) (map s_id seen) -> entry_ok (hits ++ [(s, n)]) c).
  { intros c Hc Hne Hn. apply entry_ok_mono; auto. intros [_ H]. cbn in H. congruence. }
  destruct (find_chunk (n_id n) m) as [r|] eqn:Ef.
  - apply find_chunk_in in Ef as [Hr Er]. pose proof (I4 r Hr) as E4. rewrite Er in E4. specialize (E4 Hin). destruct E4 as (A & B & C & D1 & D2 & D3). rewrite Er in *.
    change (fgt (half (s_score s)) (c_score r)) with (flt (c_score r) (half (s_score s))). destruct (flt (c_score r) (half (s_score s))) eqn:F; cbn [fst snd].
    + set (r' := set_score r (half (s_score s))). assert (Er' : c_id r' = n_id n) by exact Er. constructor; auto.
      * apply put_nodup; auto.
      * intros id. rewrite put_ids, Er'. auto.
      * intros s' Hs'. rewrite put_in by auto. right. split; auto. cbn. rewrite Er. intros Q. apply Hin. rewrite <- Q. apply in_map. auto.
      * intros c Hc Hn. rewrite put_in in Hc by auto. destruct Hc as [->|[Hc Hne]]; [|apply Hother; auto; rewrite <- Er'; auto].
        split; [|split; [|split]].
        { destruct A as (h & A1 & A2). exists h. rewrite in_app_iff. rewrite Er'. cbn. auto. }
        { exists (s, n). rewrite in_app_iff, Er'. cbn. split; [auto|]. split; [split; auto|auto]. }
        { intros h H1 H2. rewrite Er' in H2. cbn [c_score r' set_score]. apply in_app_or in H1 as [H1|[<-|[]]]; [|apply flt_irrefl].
          specialize (C h H1 H2). pose proof (flt_not_nan _ _ F) as [Nr _].
          destruct (flt (half (s_score s)) (half (s_score (fst h)))) eqn:G; auto. rewrite (flt_trans _ _ _ F G) in C. discriminate. }
        cbn. auto.
    + constructor; auto.
      * intros id. rewrite <- Hids. split; auto. intros [->|H]; auto. rewrite <- Er. apply in_map. auto.
      * intros c Hc Hn. destruct (string_dec (c_id c) (n_id n)) as [E|E]; [|apply Hother; auto].
        assert (c = r) as ->. { pose proof (find_chunk_nodup c m I1 Hc) as Q1. pose proof (find_chunk_nodup r m I1 Hr) as Q2. rewrite E, <- Er, Q2 in Q1. congruence. }
        apply entry_ok_mono; auto.
  - apply find_chunk_none in Ef. cbn [fst snd]. set (r' := fresh_chunk _ _ _ _). constructor; auto.
    + apply put_nodup; auto.
    + intros id. rewrite put_ids. apply Hids.
    + intros s' Hs'. rewrite put_in by auto. right. split; auto. cbn. intros Q. apply Hin. rewrite <- Q. apply in_map. auto.
    + intros c Hc Hn. rewrite put_in in Hc by auto. destruct Hc as [->|[Hc Hne]]; [|apply Hother; auto].
      split; [|split; [|split]].
      * exists (s, n). rewrite in_app_iff. cbn. split; [auto|]. split; [split; auto|auto].
      * exists (s, n). rewrite in_app_iff. cbn. split; [auto|]. split; [split; auto|auto].
      * intros h H1 H2. cbn [c_score r' fresh_chunk c_id] in *. apply in_app_or in H1 as [H1|[<-|[]]]; [|apply flt_irrefl].
        exfalso. apply Ef. apply I2. right. eauto.
      * cbn. auto.
Qed.

Lemma inv_visits seen s ns : In s seen -> (forall s, In s seen -> not_nan (s_score s)) -> forall hits m es, (forall h, In h hits -> In (fst h) seen) -> inv seen hits m es ->
  let st := fold_left (visit (map s_id seen) (s_score s)) ns (m, es) in inv seen (hits ++ map (pair s) ns) (fst st) (snd st).
Proof.
  intros Hs Hnn. induction ns as [|n ns IH]; intros hits m es Hh Hi; cbn [fold_left map].
  - cbn. rewrite app_nil_r. auto.
  - cbv zeta. pose proof (inv_visit seen hits m es s n Hs Hnn Hh Hi) as V. destruct (visit (map s_id seen) (s_score s) (m, es) n) as [m' es'] eqn:E. cbn [fst snd] in V.
    replace (hits ++ (s, n) :: map (pair s) ns) with ((hits ++ [(s, n)]) ++ map (pair s) ns) by (rewrite <- app_assoc; reflexivity).
    apply IH; auto. intros h H. apply in_app_or in H as [H|[<-|[]]]; auto.
Qed.

Lemma expand_inv nb seeds : forall seen hits m es m' es', NoDup (map s_id (seen ++ seeds)) -> (forall s, In s (seen ++ seeds) -> not_nan (s_score s)) ->
  (forall h, In h hits -> In (fst h) seen) -> inv seen hits m es -> expand nb true seeds (map s_id seen) (m, es) = Some (m', es') ->
  exists more, inv (seen ++ seeds) (hits ++ more) m' es' /\ (forall s, In s seeds -> nb (s_id s) <> None) /\
    forall s n, In (s, n) more <-> In s seeds /\ meets nb s n.
Proof.
  induction seeds as [|s seeds IH]; intros seen hits m es m' es' N Hnn Hh Hi E; cbn [expand] in E.
  - injection E as <- <-. exists []. rewrite !app_nil_r. split; auto. split; [intros ? []|]. intros s n. split; [intros []|intros [[] _]].
  - cbn [fst snd] in E. change (fresh_chunk (s_id s) (s_doc s) (s_content s) (s_score s)) with (seed_fresh s) in E.
    assert (Es : seen ++ s :: seeds = (seen ++ [s]) ++ seeds) by (rewrite <- app_assoc; reflexivity). rewrite Es in *.
    destruct (nb (s_id s)) as [ns|] eqn:En; [|discriminate].
    assert (N1 : NoDup (map s_id (seen ++ [s]))) by (rewrite map_app in N; apply NoDup_app_l in N; exact N).
    pose proof (inv_seed seen hits m es s N1 Hi) as I1.
    assert (Hh1 : forall h, In h hits -> In (fst h) (seen ++ [s])) by (intros h H; rewrite in_app_iff; auto).
    assert (Hnn1 : forall s', In s' (seen ++ [s]) -> not_nan (s_score s')) by (intros s' H; apply Hnn; rewrite in_app_iff; auto).
    pose proof (inv_visits (seen ++ [s]) s ns ltac:(apply in_or_app; right; left; auto) Hnn1 hits _ _ Hh1 I1) as I2. cbv zeta in I2.
    replace (map s_id seen ++ [s_id s]) with (map s_id (seen ++ [s])) in E by (rewrite map_app; reflexivity).
    destruct (fold_left (visit (map s_id (seen ++ [s])) (s_score s)) ns (put_chunk (seed_fresh s) m, es)) as [m1 es1] eqn:Ef. cbn [fst snd] in I2.
    destruct (IH (seen ++ [s]) (hits ++ map (pair s) ns) m1 es1 m' es' N Hnn) as (more & J1 & J2 & J3); auto.
    { intros h H. apply in_app_or in H as [H|H]; auto. apply in_map_iff in H as (n & <- & _). cbn. apply in_or_app. right. left. auto. }
    exists (map (pair s) ns ++ more). rewrite app_assoc. split; auto. split.
    { intros s' [<-|H]; [rewrite En; discriminate|auto]. }
    intros s' n. rewrite in_app_iff, J3, in_map_iff. split.
    + intros [(n' & [= <- <-] & H)|[H1 H2]]; [split; [left; auto|exists ns; auto]|split; [right; auto|auto]].
    + intros [[<-|H] Hm]; [left|right; auto]. destruct Hm as (ns' & E1 & E2). rewrite En in E1. injection E1 as <-. exists n. auto.
Qed.
Lemma inv_start : inv [] [] [] [].
Proof. constructor; cbn; try (intros; tauto); [constructor|intros id; split; [tauto|intros [H|(h & H & _)]; tauto]|intros e; split; [tauto|intros (h & H & _); tauto]]. Qed.
Lemma expand_plain nb seeds : forall seen m es, NoDup (map s_id (seen ++ seeds)) -> inv seen [] m es ->
  exists m', expand nb false seeds (map s_id seen) (m, es) = Some (m', es) /\ inv (seen ++ seeds) [] m' es.
Proof.
  induction seeds as [|s seeds IH]; intros seen m es N Hi; cbn [expand fst snd].
  - exists m. rewrite app_nil_r. auto.
  - change (fresh_chunk (s_id s) (s_doc s) (s_content s) (s_score s)) with (seed_fresh s).
    assert (Es : seen ++ s :: seeds = (seen ++ [s]) ++ seeds) by (rewrite <- app_assoc; reflexivity). rewrite Es in *.
    assert (N1 : NoDup (map s_id (seen ++ [s]))) by (rewrite map_app in N; apply NoDup_app_l in N; exact N).
    replace (map s_id seen ++ [s_id s]) with (map s_id (seen ++ [s])) by (rewrite map_app; reflexivity).
    apply IH; auto. apply inv_seed; auto.
Qed.
Lemma expand_total nb seeds : (forall s, In s seeds -> nb (s_id s) <> None) -> forall seen st, exists st', expand nb true seeds seen st = Some st'.
Proof.
  induction seeds as [|s seeds IH]; intros H seen st; cbn [expand]; [eauto|]. destruct (nb (s_id s)) as [ns|] eqn:E; [|exfalso; apply (H s); [left|]; auto].
  apply IH. intros s' Hs'. apply H. right. auto.
Qed.

(** *** entities *)
Lemma load_spec ent ssort m : forall es m' es', load_entities ent ssort m es = Some (m', es') ->
  Forall2 (fun c c' => exists l, ent (c_id c) = Some l /\ c' = set_ents c (ssort l)) m m' /\
  forall e, In e es' <-> In e es \/ exists c l, In c m /\ ent (c_id c) = Some l /\ In e l.
Proof.
  induction m as [|c m IH]; intros es m' es' E; cbn [load_entities] in E.
  - injection E as <- <-. split; [constructor|]. intros e. split; [auto|intros [H|(c & l & [] & _)]; auto].
  - destruct (ent (c_id c)) as [ns|] eqn:En; [|discriminate]. destruct (load_entities ent ssort m (es ++ ns)) as [[m1 es1]|] eqn:El; [|discriminate].
    injection E as <- <-. destruct (IH _ _ _ El) as [F G]. split; [constructor; eauto|]. intros e. rewrite G, in_app_iff. split.
    + intros [[H|H]|(c' & l & H1 & H2 & H3)]; auto; right; [exists c, ns|exists c', l]; cbn; auto.
    + intros [H|(c' & l & [<-|H1] & H2 & H3)]; auto; [rewrite En in H2; injection H2 as <-; auto|right; eauto].
Qed.
Lemma load_total ent ssort m : (forall c, In c m -> ent (c_id c) <> None) -> forall es, exists r, load_entities ent ssort m es = Some r.
Proof.
  induction m as [|c m IH]; intros H es; cbn [load_entities]; [eauto|]. destruct (ent (c_id c)) as [ns|] eqn:E; [|exfalso; apply (H c); [left|]; auto].
  destruct (IH (fun x Hx => H x (or_intror Hx)) (es ++ ns)) as [[m1 es1] ->]. eauto.
Qed.
Lemma string_weak l : weak_order_on String.ltb l.
Proof. split; intros; [apply string_ltb_asym; auto|eapply string_ltb_ntrans; eauto]. Qed.
Lemma ssort_alpha ssort l : sort_ok String.ltb ssort -> Permutation l (ssort l) /\ alphabetical (ssort l).
Proof. intros H. destruct (H l) as [P Q]. split; auto. apply Q. apply string_weak. Qed.

(** *** candidates *)
Lemma seed_chunks_spec seeds : forall m (P : seed -> rchunk -> Prop), NoDup (map c_id m) ->
  (forall s, In s seeds -> exists c, In c m /\ c_id c = s_id s /\ P s c) -> Forall2 (fun s c' => exists c, P s c /\ c' = set_base c) seeds (seed_chunks seeds m).
Proof.
  induction seeds as [|s seeds IH]; intros m P N H; [constructor|]. cbn [seed_chunks flat_map].
  destruct (H s (or_introl eq_refl)) as (c & Hc & Ec & Hp). rewrite <- Ec. rewrite (find_chunk_nodup c m) by auto.
  cbn [app]. constructor; [eauto|]. apply IH; auto. intros s' Hs'. apply H. right; auto.
Qed.

Section Search.
Variable tokens names : string -> list string.
Lemma use_graph_spec o q : use_graph names (query_defaults o) q [] = true <-> graph_used names o q.
Proof.
  unfold use_graph, graph_used. cbn. destruct (q_nograph o); [split; [discriminate|intros [H _]; discriminate]|]. destruct (q_mode o).
  - destruct (names q) as [|x l]; cbn; split; auto; try discriminate.
    + intros [_ [H|[_ H]]]; [discriminate|congruence].
    + intros _. split; auto. right. split; auto. discriminate.
  - split; [discriminate|]. intros [_ [H|[H _]]]; discriminate.
  - split; auto.
Qed.
Lemma finish_spec srt o q cs : from_candidates tokens names o q cs (finish tokens names srt (query_defaults o) q cs).
Proof. exists (rerank tokens names (query_defaults o) q cs). split; [apply rerank_reranked|]. unfold finish. cbn [q_rerank query_defaults]. apply pack_packed. Qed.
End Search.
Lemma pool_spec nb ent ssort ord seeds more m es m' es' : sort_ok String.ltb ssort -> (forall l : list rchunk, Permutation l (ord l)) ->
  inv seeds more m es -> (forall s n, In (s, n) more <-> In s seeds /\ meets nb s n) ->
  load_entities ent ssort m es = Some (m', es') ->
  let pool := map set_base (filter (fun c => if in_dec string_dec (c_id c) (map s_id seeds) then false else true) (ord m')) in
  related_entries nb ent seeds pool /\ Forall2 (seed_entry (entities_next ent)) seeds (seed_chunks seeds m') /\
  (forall e, In e es' <-> (exists s n, In s seeds /\ meets nb s n /\ n_type n = "entity"%string /\ n_content n = e) \/
     (exists id l, (In id (map s_id seeds) \/ In id (map c_id pool)) /\ ent id = Some l /\ In e l)) /\
  (forall c, In c pool -> exists s, In s seeds /\ c_score c = half (s_score s)).
Proof.
  intros Hss Hord [I1 I2 I3 I4 I5] Hm E pool. destruct (load_spec ent ssort m es m' es' E) as [F G].
  assert (Hfwd : forall c, In c m -> exists c' l, In c' m' /\ ent (c_id c) = Some l /\ c' = set_ents c (ssort l)).
  { intros c Hc. clear -F Hc. induction F as [|a b l l' (x & R1 & R2) F IH]; [destruct Hc|]. destruct Hc as [<-|Hc]; [exists b, x; cbn; auto|].
    destruct (IH Hc) as (c' & y & H1 & H2). exists c', y. cbn. auto. }
  assert (Hbwd : forall c', In c' m' -> exists c l, In c m /\ ent (c_id c) = Some l /\ c' = set_ents c (ssort l)).
  { intros c' Hc. clear -F Hc. induction F as [|a b l l' (x & R1 & R2) F IH]; [destruct Hc|]. destruct Hc as [<-|Hc]; [exists a, x; cbn; auto|].
    destruct (IH Hc) as (c & y & H1 & H2). exists c, y. cbn. auto. }
  assert (Hid : map c_id m' = map c_id m).
  { clear -F. induction F as [|a b l l' (x & R1 & ->) F IH]; [reflexivity|]. cbn. f_equal. auto. }
  assert (N' : NoDup (map c_id m')) by (rewrite Hid; auto).
  assert (Hpool : forall p, In p pool <-> exists c l, In c m /\ ~ In (c_id c) (map s_id seeds) /\ ent (c_id c) = Some l /\ p = set_base (set_ents c (ssort l))).
  { intros p. unfold pool. rewrite in_map_iff. split.
    - intros (c' & <- & H). apply filter_In in H as [H1 H2]. apply (Permutation_in _ (Permutation_sym (Hord m'))) in H1.
      destruct (Hbwd c' H1) as (c & l & H3 & H4 & ->). exists c, l. cbn in H2. destruct (in_dec string_dec (c_id c) (map s_id seeds)); [discriminate|]. auto.
    - intros (c & l & H1 & H2 & H3 & ->). exists (set_ents c (ssort l)). split; auto. apply filter_In. split.
      + apply (Permutation_in _ (Hord m')). destruct (Hfwd c H1) as (c' & l' & Q1 & Q2 & ->). rewrite H3 in Q2. injection Q2 as <-. exact Q1.
      + cbn. destruct (in_dec string_dec (c_id c) (map s_id seeds)); [contradiction|auto]. }
  assert (Hpid : forall id, In id (map c_id pool) <-> In id (map c_id m) /\ ~ In id (map s_id seeds)).
  { intros id. rewrite in_map_iff. split.
    - intros (p & <- & H). apply Hpool in H as (c & l & H1 & H2 & H3 & ->). cbn. split; auto. apply in_map. auto.
    - intros [H1 H2]. apply in_map_iff in H1 as (c & <- & H1). destruct (Hfwd c H1) as (c' & l & Q1 & Q2 & ->). exists (set_base (set_ents c (ssort l))). split; auto.
      apply Hpool. exists c, l. auto. }
  assert (Hch : forall id, (exists h, In h more /\ chunk_hit h id) <-> exists s n, In s seeds /\ meets nb s n /\ n_type n = "chunk"%string /\ n_id n = id).
  { intros id. split.
    - intros ([s n] & H1 & H2 & H3). apply Hm in H1 as [H1 H4]. exists s, n. auto.
    - intros (s & n & H1 & H2 & H3 & H4). exists (s, n). split; [apply Hm; auto|split; auto]. }
  split; [split; [|split]|split; [|split]].
  - unfold pool. rewrite map_map. cbn. rewrite (map_ext _ c_id) by reflexivity. apply NoDup_map_filter.
    apply (Permutation_NoDup (l := map c_id m')); auto. apply Permutation_map. auto.
  - intros id. rewrite Hpid, I2, Hch. tauto.
  - intros p Hp. apply Hpool in Hp as (c & l & H1 & H2 & H3 & ->). destruct (I4 c H1 H2) as ((h & A1 & (A2 & A3) & A4 & A5) & (h' & B1 & (B2 & B3) & B4) & C & _). cbn.
    destruct h as [s n], h' as [s' n']. apply Hm in A1 as [A1 A1']. apply Hm in B1 as [B1 B1']. cbn in *.
    split; [exists s, n; auto 8|]. split; [exists s', n'; auto 8|]. split.
    { intros s1 n1 X1 X2 X3 X4. apply (C (s1, n1)); [apply Hm; auto|split; auto]. }
    split; auto. exists l. destruct (ssort_alpha ssort l Hss). auto.
  - pose proof (seed_chunks_spec seeds m' (fun s c => exists l, ent (s_id s) = Some l /\ c = set_ents (seed_fresh s) (ssort l)) N') as S.
    assert (S' : Forall2 (fun s c' => exists c, (exists l, ent (s_id s) = Some l /\ c = set_ents (seed_fresh s) (ssort l)) /\ c' = set_base c) seeds (seed_chunks seeds m')).
    { apply S. intros s Hs. destruct (Hfwd (seed_fresh s) (I3 s Hs)) as (c' & l & H1 & H2 & H3). exists c'. split; auto. split; [rewrite H3; reflexivity|]. exists l. auto. }
    clear -S' Hss. induction S' as [|s c' l l' (c & (x & H1 & ->) & ->) _ IH]; constructor; auto. cbn. repeat (split; [reflexivity|]).
    exists x. destruct (ssort_alpha ssort x Hss). auto.
  - intros e. rewrite G, I5. split.
    + intros [([s n] & H1 & H2 & H3)|(c & l & H1 & H2 & H3)].
      * apply Hm in H1 as [H1 H4]. left. exists s, n. auto.
      * right. exists (c_id c), l. split; auto. destruct (in_dec string_dec (c_id c) (map s_id seeds)); auto. right. apply Hpid. split; auto. apply in_map. auto.
    + intros [(s & n & H1 & H2 & H3 & H4)|(id & l & H1 & H2 & H3)].
      * left. exists (s, n). split; [apply Hm; auto|auto].
      * right. assert (Hin : In id (map c_id m)) by (destruct H1 as [H1|H1]; [apply I2; auto|apply Hpid in H1; tauto]).
        apply in_map_iff in Hin as (c & <- & Hc). exists c, l. auto.
  - intros p Hp. apply Hpool in Hp as (c & l & H1 & H2 & H3 & ->). destruct (I4 c H1 H2) as (_ & ([s n] & B1 & _ & B4) & _). exists s. split; [apply Hm in B1; tauto|auto].
Qed.
