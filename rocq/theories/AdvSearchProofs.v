From Coq Require Import String Ascii List NArith ZArith Bool Lia Permutation.
From Coq Require Import Floats.SpecFloat.
From Verif Require Import Base Floats64 TopK EncodingModel DimensionModel StoreModel StoreSpec StoreProofs StoreInv StoreProofs2 StoreProofs3
  SearchModel SearchSpec SearchProofs SqlModel FilterModel FilterSpec FilterProofs FilterProofs2 AdvSearchModel AdvSearchSpec.
Import ListNotations.
Open Scope string_scope.
Open Scope list_scope.

Section P.
Variable I : index_ops.
Notation store := (store I).

(** *** access lists *)
(** The rows the clause selects: as written, the collection only restricts the
    principals' alternative. *)
Definition acl_chosen (acl : list string) (o : sopts) (e : embedding) : Prop :=
  match acl with
  | [] => public e /\ in_collection o e
  | _ => public e \/ ((exists p, In p acl /\ In p (e_acl e)) /\ in_collection o e)
  end.
Lemma shares_spec acl (a : list string) : existsb (fun x => mem x acl) a = true <-> exists p, In p acl /\ In p a.
Proof.
  rewrite existsb_exists. split; intros (p & A & B); exists p; [apply mem_In in B|rewrite mem_In]; auto.
Qed.
Lemma acl_fetch N (s : store) envs acl o : reachable I envs s -> exists p,
  fetch_sql N (st_db I s) (acl_text acl) o = Ok (oks (map (scan_search (st_db I s)) (filter p (t_rows (st_db I s))))) /\
  forall r e0, In r (t_rows (st_db I s)) -> scan_get true (st_db I s) r = Ok e0 -> (p r = true <-> acl_chosen acl o e0).
Proof.
  intros R. unfold fetch_sql. set (w := with_collection o (acl_text acl)).
  assert (Hw : reads_metadata w = false /\ w <> []).
  { unfold w, with_collection, acl_text. destruct acl, (String.eqb (o_coll o) ""); split; (reflexivity || discriminate). }
  destruct Hw as [-> Hne]. exists (selects (clause_of N (st_db I s) w)). split; [destruct w; [congruence|reflexivity]|].
  intros r e0 Hr S. destruct (reachable_decodes I envs s R r Hr) as [_ Ha].
  unfold scan_get in S. destruct (decode_vector _); try discriminate. cbn [bind] in S. injection S as <-.
  unfold acl_chosen, public, in_collection. cbn [e_acl e_coll].
  unfold w, with_collection.
  assert (Hpub : of_bool (match r_acl r with None => true | Some _ => false end) = TTrue <-> (match r_acl r with Some a => a | None => [] end) = []).
  { destruct (r_acl r) as [[|x l]|]; cbn [of_bool]; [congruence|split; discriminate|split; auto]. }
  assert (Hsh : forall acl0, (match r_acl r with None => TFalse | Some a => of_bool (existsb (fun x => mem x acl0) a) end) = TTrue <->
    exists p, In p acl0 /\ In p (match r_acl r with Some a => a | None => [] end)).
  { intros acl0. destruct (r_acl r) as [l|]; [|split; [discriminate|intros (p & _ & [])]]. rewrite <- shares_spec. destruct (existsb _ l); cbn; split; auto; discriminate. }
  assert (Hnoe : forall acl0, (match r_acl r with None => TFalse | Some a => of_bool (existsb (fun x => mem x acl0) a) end) <> TError).
  { intros acl0. destruct (r_acl r) as [l|]; [destruct (existsb _ l); discriminate|discriminate]. }
  assert (Hcl : of_bool (String.eqb (coll_name (st_db I s) (r_coll r)) (o_coll o)) = TTrue <-> coll_name (st_db I s) (r_coll r) = o_coll o).
  { rewrite of_bool_T. apply String.eqb_eq. }
  assert (Hsel : forall t, selects (clause_of N (st_db I s) t) r = true <-> eval_text N (coll_name (st_db I s) (r_coll r)) r t = TTrue).
  { intros t. unfold selects, clause_of. destruct (eval_text _ _ _ t); split; (reflexivity || discriminate). }
  destruct acl as [|a0 acl]; cbn [acl_text].
  - destruct (String.eqb_spec (o_coll o) "") as [E|E].
    + rewrite Hsel. cbn [eval_text eval_conj eval_atom eval_leaf]. rewrite Hpub. tauto.
    + rewrite Hsel. cbn [join_and app eval_text eval_conj eval_atom eval_leaf]. rewrite tv_and_T, Hpub, Hcl. tauto.
  - destruct (String.eqb_spec (o_coll o) "") as [E|E].
    + rewrite Hsel. cbn [join_or app eval_text eval_conj eval_atom eval_leaf]. rewrite tv_or_T, Hpub, Hsh by (auto using of_bool_E). tauto.
    + rewrite Hsel. cbn [join_or join_and app eval_text eval_conj eval_atom eval_leaf]. rewrite tv_or_T, tv_and_T, Hpub, Hsh, Hcl by (auto using of_bool_E, tv_and_E). tauto.
Qed.

Lemma acl_search_spec N srt sc (s : store) envs q acl o : reachable I envs s -> st_closed I s = false ->
  exists all, search_with_acl I srt N sc s q acl o = Ok (limit o (srt all)) /\
    lists_where I s (acl_chosen acl o) (fun e => sc_sim sc q (vec_of e)) all.
Proof.
  intros R C. destruct (acl_fetch N s envs acl o R) as (p & E & Hp). unfold search_with_acl. rewrite C, E. cbn [bind].
  eexists. split; [reflexivity|]. apply scanned_where; auto. exact (reachable_uniq I envs s R).
Qed.

Lemma limit_in {A} (o : sopts) (x : A) l : In x (limit o l) -> In x l.
Proof. unfold limit. destruct (Z.ltb 0 (o_topk o)); auto. apply in_firstn. Qed.

Lemma acl_chosen_visible acl o e : acl_chosen acl o e -> visible acl e.
Proof. unfold acl_chosen, visible. destruct acl; tauto. Qed.
Lemma acl_visible_chosen acl o e : visible acl e -> in_collection o e -> acl_chosen acl o e.
Proof. unfold acl_chosen, visible. destruct acl; [|tauto]. intros [H|(p & [] & _)] Hc; auto. Qed.

(** *** hybrid *)
Lemma vector_part_ids k l : forall n, map (fun x => e_id (fst x)) (vector_part k n l) = map (fun x => e_id (fst x)) l.
Proof. induction l as [|[e x] l IH]; intros n; [reflexivity|]. cbn [vector_part map fst]. rewrite IH. reflexivity. Qed.
Lemma vector_part_in k l : forall n e x, In (e, x) (vector_part k n l) <-> exists i y, nth_error l i = Some (e, y) /\ x = recip k (n + i).
Proof.
  induction l as [|[e0 x0] l IH]; intros n e x; cbn [vector_part].
  - split; [intros []|]. intros (i & y & H & _). destruct i; discriminate.
  - cbn [In]. rewrite IH. split.
    + intros [[= -> <-]|(i & y & A & B)]; [exists 0, x0; split; [reflexivity|f_equal; lia]|]. exists (S i), y. split; [exact A|]. rewrite B. f_equal. lia.
    + intros (i & y & A & ->). destruct i as [|i]; cbn [nth_error] in A.
      * injection A as -> ->. left. f_equal. f_equal. lia.
      * right. exists i, y. split; auto. f_equal. lia.
Qed.
Definition ids (l : list scored) : list string := map (fun x : scored => e_id (fst x)) l.

Lemma add_hit_ids e x l : ids (add_hit e x l) = if existsb (String.eqb (e_id e)) (ids l) then ids l else ids l ++ [e_id e].
Proof.
  induction l as [|[e' y] l IH]; [reflexivity|]. cbn [add_hit ids map fst existsb]. rewrite (String.eqb_sym (e_id e) (e_id e')).
  destruct (String.eqb (e_id e') (e_id e)) eqn:E; cbn [orb map fst]; [reflexivity|]. fold (ids l). unfold ids in IH at 1. rewrite IH.
  destruct (existsb _ (ids l)); reflexivity.
Qed.
Lemma existsb_ids id l : existsb (String.eqb id) (ids l) = true <-> In id (ids l).
Proof. rewrite existsb_exists. split; [intros (y & A & B); apply String.eqb_eq in B; subst; auto|]. intros H. exists id. split; auto. apply String.eqb_refl. Qed.
Lemma add_hit_NoDup e x l : NoDup (ids l) -> NoDup (ids (add_hit e x l)).
Proof.
  intros H. rewrite add_hit_ids. destruct (existsb _ (ids l)) eqn:E; auto.
  assert (~ In (e_id e) (ids l)). { intros C. apply existsb_ids in C. congruence. }
  eapply Permutation_NoDup; [apply Permutation_cons_append|]. constructor; auto.
Qed.
Lemma ids_in e x l : In (e, x) l -> In (e_id e) (ids l).
Proof. intros H. apply (in_map (fun x : scored => e_id (fst x))) in H. exact H. Qed.
Lemma add_hit_in e x l : NoDup (ids l) -> forall e' y',
  In (e', y') (add_hit e x l) <->
  (In (e', y') l /\ e_id e' <> e_id e) \/ (exists y, In (e', y) l /\ e_id e' = e_id e /\ y' = f64_add y x) \/
  (~ In (e_id e) (ids l) /\ e' = e /\ y' = f64_add f_zero x).
Proof.
  induction l as [|[e1 y1] l IH]; intros Hn e' y'; cbn [add_hit].
  - cbn. split; [intros [[= <- <-]|[]]; auto|]. intros [[[] _]|[(y & [] & _)|(_ & -> & ->)]]; auto.
  - cbn [ids map fst] in Hn. inversion Hn as [|? ? H1 H2]; subst. destruct (String.eqb_spec (e_id e1) (e_id e)) as [E|E].
    + cbn [In]. split.
      * intros [[= <- <-]|H]; [right; left; exists y1; auto|]. left. split; auto. intros E2. apply H1. rewrite E, <- E2. eapply ids_in; eauto.
      * intros [[[H|H] Hne]|[(y & [[= -> ->]|H] & Ey & ->)|(Hni & _)]].
        -- injection H as -> ->. congruence.
        -- auto.
        -- auto.
        -- exfalso. apply H1. rewrite E, <- Ey. eapply ids_in; eauto.
        -- exfalso. apply Hni. left. exact E.
    + cbn [In]. rewrite (IH H2). split.
      * intros [[= <- <-]|[[A B]|[(y & A & B & C)|(A & B & C)]]]; [left; auto|left; auto|right; left; exists y; auto|].
        right. right. split; auto. cbn [ids map fst In]. intros [D|D]; [congruence|exact (A D)].
      * intros [[[A|A] B]|[(y & [A|A] & B & C)|(A & B & C)]].
        -- left. exact A.
        -- right. left. auto.
        -- injection A as -> ->. congruence.
        -- right. right. left. exists y. auto.
        -- right. right. right. split; auto. intros D. apply A. right. exact D.
Qed.

Section Fuse.
Variables (k : float) (d : db) (hits : list (option string)).
Definition rank (r : row) : option nat := rank_of hits (r_id r) 1.
Definition step_hit (acc : list scored) (r : row) : list scored :=
  match rank r with Some n => add_hit (scan_fts d r) (recip k n) acc | None => acc end.
Lemma scan_fts_id r : e_id (scan_fts d r) = r_id r. Proof. reflexivity. Qed.
Lemma fuse_spec rows : NoDup (map r_id rows) -> forall acc, NoDup (ids acc) ->
  NoDup (ids (fold_left step_hit rows acc)) /\
  forall e y, In (e, y) (fold_left step_hit rows acc) <->
    (In (e, y) acc /\ forall r n, In r rows -> r_id r = e_id e -> rank r <> Some n) \/
    (exists r n y0, In r rows /\ r_id r = e_id e /\ rank r = Some n /\ In (e, y0) acc /\ y = f64_add y0 (recip k n)) \/
    (exists r n, In r rows /\ rank r = Some n /\ ~ In (r_id r) (ids acc) /\ e = scan_fts d r /\ y = f64_add f_zero (recip k n)).
Proof.
  induction rows as [|r rows IH]; cbn [map fold_left]; intros Hn acc Ha.
  - split; auto. intros e y. split; [intros H; left; split; auto; intros r n []|]. intros [[H _]|[(r & n & y0 & [] & _)|(r & n & [] & _)]]; auto.
  - inversion Hn as [|? ? H1 H2]; subst.
    assert (Ha' : NoDup (ids (step_hit acc r))) by (unfold step_hit; destruct (rank r); [apply add_hit_NoDup|]; auto).
    destruct (IH H2 _ Ha') as [N1 M1]. split; auto. intros e y. rewrite M1.
    assert (Hin : forall r', In r' rows -> r_id r' <> r_id r). { intros r' H E. apply H1. rewrite <- E. apply in_map; auto. }
    unfold step_hit. destruct (rank r) as [n0|] eqn:Er.
    + assert (M2 := add_hit_in (scan_fts d r) (recip k n0) acc Ha). rewrite scan_fts_id in M2.
      assert (I2 : forall id, id <> r_id r -> (In id (ids (add_hit (scan_fts d r) (recip k n0) acc)) <-> In id (ids acc))).
      { intros id Hne. rewrite add_hit_ids, scan_fts_id. destruct (existsb _ _); [tauto|]. rewrite in_app_iff. cbn [In]. intuition congruence. }
      split.
      * intros [[A B]|[(r' & n & y0 & A & B & C & D & ->)|(r' & n & A & B & C & -> & ->)]].
        -- apply M2 in A as [[A Ne]|[(y0 & A & Ee & ->)|(A & -> & ->)]].
           ++ left. split; auto. intros r' n [<-|Hr] E; [congruence|]. apply B; auto.
           ++ right. left. exists r, n0, y0. split; [left; auto|]. auto.
           ++ right. right. exists r, n0. split; [left; auto|]. auto.
        -- assert (Hne : e_id e <> r_id r) by (rewrite <- B; apply Hin; auto).
           apply M2 in D as [[D _]|[(y1 & D & Ee & _)|(D & -> & _)]]; [|congruence|cbn in Hne; congruence].
           right. left. exists r', n, y0. split; [right; auto|]. auto.
        -- right. right. exists r', n. split; [right; auto|]. split; auto. split; auto. rewrite <- (I2 (r_id r')); auto.
      * intros [[A B]|[(r' & n & y0 & [<-|A] & B & C & D & ->)|(r' & n & [<-|A] & B & C & -> & ->)]].
        -- left. split; [|intros r' n Hr; apply B; right; auto]. apply M2. left. split; auto. intros E. apply (B r n0); auto. left; auto.
        -- rewrite Er in C. injection C as <-. left. split; [apply M2; right; left; exists y0; auto|]. intros r' n Hr E. exfalso. apply (Hin r' Hr). congruence.
        -- right. left. exists r', n, y0. split; auto. split; auto. split; auto. split; auto. apply M2. left. split; auto. rewrite <- B. apply Hin; auto.
        -- rewrite Er in B. injection B as <-. left. split; [apply M2; right; right; auto|]. intros r' n Hr E. exfalso. apply (Hin r' Hr). exact E.
        -- right. right. exists r', n. split; auto. split; auto. split; auto. rewrite I2; auto.
    + split.
      * intros [[A B]|[(r' & n & y0 & A & B & C)|(r' & n & A & B & C)]].
        -- left. split; auto. intros r' n [<-|Hr] E; [congruence|]. apply B; auto.
        -- right. left. exists r', n, y0. split; [right; auto|]. auto.
        -- right. right. exists r', n. split; [right; auto|]. auto.
      * intros [[A B]|[(r' & n & y0 & [<-|A] & B & C & D)|(r' & n & [<-|A] & B & C)]]; try congruence.
        -- left. split; auto. intros r' n Hr. apply B. right; auto.
        -- right. left. exists r', n, y0. auto.
        -- right. right. exists r', n. auto.
Qed.
End Fuse.

Lemma rank_of_spec hits id : forall n m, rank_of hits id n = Some m -> exists j, m = n + j /\ nth_error hits j = Some (Some id).
Proof.
  induction hits as [|h hits IH]; intros n m; cbn [rank_of]; [discriminate|]. destruct h as [x|].
  - destruct (String.eqb_spec x id) as [->|].
    + intros [= <-]. exists 0. split; [lia|reflexivity].
    + intros H. apply IH in H as (j & -> & H). exists (S j). split; [lia|exact H].
  - intros H. apply IH in H as (j & -> & H). exists (S j). split; [lia|exact H].
Qed.
Lemma rank_of_none hits id : forall n, rank_of hits id n = None <-> ~ In (Some id) hits.
Proof.
  induction hits as [|h hits IH]; intros n; cbn [rank_of In]; [tauto|]. destruct h as [x|].
  - destruct (String.eqb_spec x id) as [->|Hne]; [split; [discriminate|tauto]|]. rewrite IH. split; [intros H [[= E]|E]; auto|tauto].
  - rewrite IH. split; [intros H [E|E]; [discriminate|auto]|tauto].
Qed.
Lemma recip_reciprocal k j : recip k (1 + j) = reciprocal k j.
Proof. reflexivity. Qed.

Lemma scan_fts_get (s : store) envs r : reachable I envs s -> st_closed I s = false -> In r (t_rows (st_db I s)) ->
  exists e0, get_by_id I s (r_id r) = Ok e0 /\ scan_fts (st_db I s) r = without_acl e0.
Proof.
  intros R C H. unfold get_by_id. rewrite C, (find_uniq _ r (reachable_uniq I envs s R) H).
  destruct (reachable_decodes I envs s R r H) as [[w W] _]. unfold scan_get, scan_fts. rewrite W. cbn [bind]. eexists. split; reflexivity.
Qed.

Lemma fuse_meaning (s : store) envs k hits vres : reachable I envs s -> st_closed I s = false -> hits_distinct hits ->
  NoDup (ids vres) -> (forall e x, In (e, x) vres -> exists e0, get_by_id I s (e_id e) = Ok e0 /\ e = without_acl e0) ->
  NoDup (ids (fuse k (st_db I s) hits vres)) /\
  forall e x, In (e, x) (fuse k (st_db I s) hits vres) <->
    exists e0, get_by_id I s (e_id e) = Ok e0 /\ e = without_acl e0 /\ fused k (ids vres) hits (e_id e) x.
Proof.
  intros R C Hd Hn Hv. pose proof (reachable_uniq I envs s R) as Hu.
  assert (Hn' : NoDup (ids (vector_part k 1 vres))) by (unfold ids; rewrite vector_part_ids; exact Hn).
  destruct (fuse_spec k (st_db I s) hits (t_rows (st_db I s)) Hu _ Hn') as [N1 M1].
  unfold fuse. change (fun acc r => match rank_of hits (r_id r) 1 with Some n => add_hit (scan_fts (st_db I s) r) (recip k n) acc | None => acc end)
    with (step_hit k (st_db I s) hits). split; auto. intros e x. rewrite M1. clear M1 N1.
  assert (Eids : ids (vector_part k 1 vres) = ids vres) by (unfold ids; apply vector_part_ids). rewrite Eids.
  assert (V : forall e y, In (e, y) (vector_part k 1 vres) <-> exists i z, nth_error vres i = Some (e, z) /\ y = reciprocal k i).
  { intros e1 y. rewrite vector_part_in. split; intros (i & z & A & ->); exists i, z; auto. }
  assert (Nth : forall i e z, nth_error vres i = Some (e, z) -> nth_error (ids vres) i = Some (e_id e)).
  { intros i e1 z H. unfold ids. rewrite nth_error_map, H. reflexivity. }
  assert (Nid : forall i id, nth_error (ids vres) i = Some id -> exists e z, nth_error vres i = Some (e, z) /\ e_id e = id).
  { intros i id H. unfold ids in H. rewrite nth_error_map in H. destruct (nth_error vres i) as [[e1 z]|]; [|discriminate]. injection H as <-. eauto. }
  assert (Uniq : forall e1 z1 e2 z2, In (e1, z1) vres -> In (e2, z2) vres -> e_id e1 = e_id e2 -> e1 = e2).
  { intros e1 z1 e2 z2 A B E. pose proof (NoDup_map_in_eq (fun x : scored => e_id (fst x)) vres (e1, z1) (e2, z2) Hn A B E) as Q. congruence. }
  assert (Rank : forall r n, rank hits r = Some n -> exists j, nth_error hits j = Some (Some (r_id r)) /\ recip k n = reciprocal k j).
  { intros r n H. apply rank_of_spec in H as (j & -> & H). exists j. split; auto. }
  assert (Rank2 : forall r j, nth_error hits j = Some (Some (r_id r)) -> exists n, rank hits r = Some n /\ recip k n = reciprocal k j).
  { intros r j H. unfold rank. destruct (rank_of hits (r_id r) 1) as [n|] eqn:E.
    - exists n. split; auto. apply rank_of_spec in E as (j' & -> & H'). rewrite (Hd _ _ _ H H'). reflexivity.
    - apply rank_of_none in E. exfalso. apply E. eapply nth_error_In; eauto. }
  split.
  - intros [[A B]|[(r & n & y0 & Hr & Eid & Er & A & ->)|(r & n & Hr & Er & Hni & -> & ->)]].
    + apply V in A as (i & z & A & ->). destruct (Hv e z (nth_error_In _ _ A)) as (e0 & G & E). exists e0. split; auto. split; auto.
      apply fused_vector; [exact (Nth _ _ _ A)|]. intros Hh. apply In_nth_error in Hh as [j Hj].
      destruct (get_ok_inv I s _ _ G) as (r & _ & _ & _ & _ & _ & Er & Hr). rewrite <- Er in Hj.
      destruct (Rank2 r j Hj) as (n & Rn & _). exact (B r n Hr Er Rn).
    + apply V in A as (i & z & A & ->). destruct (Hv e z (nth_error_In _ _ A)) as (e0 & G & E). exists e0. split; auto. split; auto.
      destruct (Rank r n Er) as (j & Hj & ->). rewrite Eid in Hj. apply fused_both; auto. exact (Nth _ _ _ A).
    + destruct (scan_fts_get s envs r R C Hr) as (e0 & G & E). exists e0. cbn [e_id scan_fts]. split; auto. split; auto.
      destruct (Rank r n Er) as (j & Hj & ->). apply fused_keyword; auto.
  - intros (e0 & G & E & F). destruct (get_ok_inv I s _ _ G) as (r & _ & _ & _ & _ & _ & Er & Hr). inversion F as [i j Hi Hj Ex|i Hi Hni Ex|j Hni Hj Ex].
    + destruct (Nid i _ Hi) as (e1 & z & Hv1 & Eid). destruct (Hv e1 z (nth_error_In _ _ Hv1)) as (e2 & G2 & E2).
      assert (He : e1 = e). { rewrite Eid, G in G2. injection G2 as <-. congruence. } rewrite He in Hv1.
      rewrite <- Er in Hj. destruct (Rank2 r j Hj) as (n & Rn & Ern). right. left. exists r, n, (reciprocal k i). split; auto. split; auto. split; auto.
      split; [apply V; exists i, z; auto|]. congruence.
    + destruct (Nid i _ Hi) as (e1 & z & Hv1 & Eid). destruct (Hv e1 z (nth_error_In _ _ Hv1)) as (e2 & G2 & E2).
      assert (He : e1 = e). { rewrite Eid, G in G2. injection G2 as <-. congruence. } rewrite He in Hv1.
      left. split; [apply V; exists i, z; auto|]. intros r' n Hr' E' Rn. destruct (Rank r' n Rn) as (j & Hj & _). apply Hni. rewrite <- E'. eapply nth_error_In; eauto.
    + right. right. destruct (Rank2 r j) as (n & Rn & Ern); [rewrite Er; exact Hj|]. exists r, n. split; auto. split; auto. split; [rewrite Er; exact Hni|].
      destruct (scan_fts_get s envs r R C Hr) as (e2 & G2 & E2). rewrite Er, G in G2. injection G2 as <-. split; congruence.
Qed.

Lemma hits_used_eq (ft : fts) text o :
  (if String.eqb text "" then [] else match ft text with Some l => firstn (fts_limit o) l | None => [] end) = hits_used (ft text) text o.
Proof. unfold hits_used. destruct (String.eqb text ""), (ft text); reflexivity. Qed.

Lemma hits_used_distinct m text o : (forall l, m = Some l -> hits_distinct l) -> hits_distinct (hits_used m text o).
Proof.
  unfold hits_used. intros H. destruct m as [l|]; [|intros [|i] j id H1; discriminate]. destruct (String.eqb text ""); [intros [|i] j id H1; discriminate|].
  specialize (H l eq_refl). intros i j id H1 H2.
  assert (forall n (l' : list (option string)) i x, nth_error (firstn n l') i = Some x -> nth_error l' i = Some x).
  { clear. induction n as [|n IH]; intros [|y l'] [|i] x; cbn; intros H; try discriminate; auto. }
  eapply H; eauto.
Qed.

Lemma hybrid_spec srt shuffle noise m sc ft (s : store) envs q text o k out :
  sort_ok by_score srt -> (forall l, Permutation l (shuffle l)) -> reachable I envs s ->
  scores_are_numbers I noise sc o s (Some q) -> not_nan (o_threshold o) ->
  (forall l, ft text = Some l -> hits_distinct l) ->
  hybrid_search I srt shuffle noise m sc ft s q text o k = Ok out ->
  exists vres all,
    (q = [] -> vres = []) /\ (q <> [] -> search I srt noise m sc s (Some q) o = Ok vres) /\
    NoDup (ids all) /\
    (forall e x, In (e, x) all <-> exists e0, get_by_id I s (e_id e) = Ok e0 /\ e = without_acl e0 /\
        fused (rrf_constant k) (ids vres) (hits_used (ft text) text o) (e_id e) x) /\
    (Forall (fun x => not_nan (snd x)) all -> is_topk by_score (limit_count o all) all out) /\
    (forall e x, In (e, x) out -> In (e, x) all).
Proof.
  intros Hs Hsh R Hnan Hth Hd H. unfold hybrid_search in H. destruct (st_closed I s) eqn:C; [discriminate|].
  set (v := match q with [] => Ok [] | _ => search I srt noise m sc s (Some q) o end) in H.
  destruct v as [vres| |] eqn:Ev; try discriminate. cbn [bind] in H. unfold v in Ev. clear v. rewrite hits_used_eq in H. fold (rrf_constant k) in H.
  assert (Hv : NoDup (ids vres) /\ forall e x, In (e, x) vres -> exists e0, get_by_id I s (e_id e) = Ok e0 /\ e = without_acl e0).
  { destruct q as [|q0 q]; [injection Ev as <-; split; [constructor|intros e x []]|].
    destruct (search_sound_lemma I srt noise m sc s _ o vres envs Hs R Hnan Hth Ev) as (w & _ & A & _ & _ & B). split; auto. intros e x Hin. apply (B e x Hin). }
  destruct Hv as [Hv1 Hv2].
  destruct (fuse_meaning s envs (rrf_constant k) (hits_used (ft text) text o) vres R C (hits_used_distinct _ _ _ Hd) Hv1 Hv2) as [F1 F2].
  exists vres, (fuse (rrf_constant k) (st_db I s) (hits_used (ft text) text o) vres).
  split; [intros ->; congruence|]. split; [intros Hq; destruct q; [congruence|exact Ev]|]. split; auto. split; auto.
  injection H as <-. set (all := fuse _ _ _ _) in *. split.
  - intros Hnn. assert (W : weak_order_on by_score (shuffle all)).
    { apply (weak_order_desc (fun x : scored => snd x)). intros x Hx. rewrite Forall_forall in Hnn. apply Hnn.
      eapply Permutation_in; [apply Permutation_sym, Hsh|exact Hx]. }
    assert (L : limit_count o all = limit_count o (shuffle all)).
    { unfold limit_count. destruct (Z.ltb 0 _); auto. apply Permutation_length, Hsh. }
    pose proof (limit_topk srt o (shuffle all) Hs W) as (rest & P & Q). rewrite L. exists rest. split; [exact (Permutation_trans (Hsh all) P)|].
    rewrite (Permutation_length (Hsh all)). exact Q.
  - intros e x Hin. apply limit_in in Hin. destruct (Hs (shuffle all)) as [P _].
    eapply Permutation_in; [apply Permutation_sym, Hsh|]. eapply Permutation_in; [apply Permutation_sym, P|exact Hin].
Qed.

(** *** range search *)
Lemma range_distance_spec x : range_distance x = distance_of_score x.
Proof. unfold range_distance, distance_of_score. destruct (fle x f_zero); reflexivity. Qed.

Lemma shr_1_pos m : (0 <= shr_m m)%Z -> (0 <= shr_m (shr_1 m))%Z.
Proof. destruct m as [[|[p|p|]|p] r s0]; cbn; lia. Qed.
Lemma shr_iter_pos p : forall m, (0 <= shr_m m)%Z -> (0 <= shr_m (SpecFloat.iter_pos shr_1 p m))%Z.
Proof. induction p as [p IH|p IH|]; intros m H; cbn [SpecFloat.iter_pos]; auto using shr_1_pos. Qed.
Lemma shr_fexp_pos prec emax m e l : (0 <= m)%Z -> (0 <= shr_m (fst (shr_fexp prec emax m e l)))%Z.
Proof.
  intros H. unfold shr_fexp, shr. assert (A : (0 <= shr_m (shr_record_of_loc m l))%Z) by (destruct l as [|[]]; exact H).
  destruct (_ - e)%Z; cbn [fst]; auto. apply shr_iter_pos; auto.
Qed.
Lemma binary_round_not_nan prec emax s m e : SpecFloat.binary_round prec emax s m e <> S754_nan.
Proof.
  unfold SpecFloat.binary_round. destruct (shl_align _ _ _) as [mz ez]. unfold SpecFloat.binary_round_aux.
  pose proof (shr_fexp_pos prec emax (Zpos mz) ez loc_Exact ltac:(lia)) as A. destruct (shr_fexp _ _ _ _ _) as [r1 e1]. cbn [fst] in A.
  assert (B : (0 <= round_nearest_even (shr_m r1) (loc_of_shr_record r1))%Z).
  { unfold round_nearest_even. destruct (loc_of_shr_record r1) as [|[]]; try lia. destruct (Z.even _); lia. }
  pose proof (shr_fexp_pos prec emax _ e1 loc_Exact B) as D. destruct (shr_fexp _ _ _ _ _) as [r2 e2]. cbn [fst] in D.
  destruct (shr_m r2); [discriminate| |lia]. destruct (Z.leb _ _); discriminate.
Qed.
Lemma f_round_nan p e x : not_nan x -> not_nan (f_round p e x).
Proof.
  destruct x as [s|s| |s m ex]; cbn; auto. intros _. destruct s; apply binary_round_not_nan.
Qed.

Lemma range_spec srt sc (s : store) envs q radius o out : sort_ok by_distance srt -> reachable I envs s ->
  range_search I srt sc s q radius o = Ok out ->
  exists all,
    lists_stored I s (fun e => qualifies o e /\ vec_of e <> [] /\ fle (distance_of_score (sc_sim sc q (vec_of e))) radius = true)
      (fun e => f64_of_f32 (distance_of_score (sc_sim sc q (vec_of e)))) all /\
    is_topk nearer_first (limit_count o all) all out.
Proof.
  intros Hs R H. unfold range_search in H. destruct (st_closed I s) eqn:C; [discriminate|]. destruct (fle radius f_zero); [discriminate|].
  set (f := fun e => f64_of_f32 (distance_of_score (sc_sim sc q (vec_of e)))).
  set (g := fun e => match vec_of e with [] => false | v => fle (distance_of_score (sc_sim sc q v)) radius end).
  assert (E : forall cs, flat_map (fun e => match vec_of e with [] => [] | n :: l => if fle (range_distance (sc_sim sc q (n :: l))) radius then [(e, f64_of_f32 (range_distance (sc_sim sc q (n :: l))))] else [] end) cs
    = map (fun e => (e, f e)) (filter g cs)).
  { assert (G : forall e, (match vec_of e with [] => [] | n :: l => if fle (range_distance (sc_sim sc q (n :: l))) radius then [(e, f64_of_f32 (range_distance (sc_sim sc q (n :: l))))] else [] end)
      = if g e then [(e, f e)] else []).
    { intros e. unfold g, f. destruct (vec_of e); [reflexivity|]. rewrite !range_distance_spec. reflexivity. }
    induction cs as [|e cs IH]; [reflexivity|]. cbn [flat_map filter]. rewrite IH, G. destruct (g e); reflexivity. }
  cbv zeta in H. rewrite E in H. clear E.
  pose proof (reachable_uniq I envs s R) as Hu. pose proof (reachable_colls I envs s R) as Hco. pose proof (reachable_named I envs s R) as Hdn.
  unfold fetch_candidates in H. rewrite filter_filter in H.
  match type of H with Ok (limit o (srt ?l)) = _ => set (all := l) in H end.
  assert (L : lists_stored I s (fun e => qualifies o e /\ vec_of e <> [] /\ fle (distance_of_score (sc_sim sc q (vec_of e))) radius = true) f all).
  { apply scanned_stored; auto. intros r e Hin Hsc. rewrite (where_spec _ o r e Hco Hdn Hin Hsc), andb_true_iff, matches_filter_spec.
    unfold qualifies, meta_matches, g. destruct (vec_of e) as [|x v]; [split; [intros (_ & _ & D); discriminate|intros (_ & D & _); congruence]|].
    intuition congruence. }
  exists all. split; [exact L|]. injection H as <-.
  assert (W : weak_order_on by_distance all).
  { apply (weak_order_asc (fun x : scored => snd x)). intros [e x] Hin. apply L in Hin as (e0 & _ & _ & (_ & _ & Hle) & ->). cbn. apply f_round_nan. apply fle_not_nan in Hle. tauto. }
  unfold limit, limit_count. destruct (Z.ltb 0 (o_topk o)); [apply (topk_of_sort by_distance); auto|].
  rewrite <- (firstn_all (srt all)). destruct (Hs all) as [P _]. rewrite <- (Permutation_length P). apply (topk_of_sort by_distance); auto.
Qed.
End P.
