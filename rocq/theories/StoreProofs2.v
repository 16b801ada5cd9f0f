From Coq Require Import String Ascii List NArith ZArith Bool Lia Permutation.
From Coq Require Import Init.Byte.
From Verif Require Import Base Floats64 EncodingModel EncodingSpec EncodingProofs DimensionModel StoreModel StoreSpec StoreProofs StoreInv.
Import ListNotations.
Open Scope string_scope.
Open Scope list_scope.

Definition colls_ok (d : db) : Prop :=
  NoDup (map c_id (t_colls d)) /\ NoDup (map c_name (t_colls d)) /\
  (forall c, In c (t_colls d) -> (c_id c < t_next d)%Z).

Lemma NoDup_map_in_eq {A B} (f : A -> B) l x y : NoDup (map f l) -> In x l -> In y l -> f x = f y -> x = y.
Proof.
  induction l as [|a l IH]; cbn; [tauto|]. intros H Hx Hy E. inversion H as [|? ? Hn Hd]; subst.
  destruct Hx as [->|Hx], Hy as [->|Hy]; auto.
  - exfalso. apply Hn. rewrite E. apply in_map; auto.
  - exfalso. apply Hn. rewrite <- E. apply in_map; auto.
Qed.

Lemma find_by_id cs c : NoDup (map c_id cs) -> In c cs -> find (fun x => Z.eqb (c_id x) (c_id c)) cs = Some c.
Proof.
  induction cs as [|a cs IH]; cbn; [tauto|]. intros H Hin. inversion H as [|? ? Hn Hd]; subst.
  destruct Hin as [->|Hin]; [rewrite Z.eqb_refl; reflexivity|].
  destruct (Z.eqb_spec (c_id a) (c_id c)) as [E|E]; auto. exfalso. apply Hn. rewrite E. apply in_map; auto.
Qed.

Lemma find_name_filter n cs (p : coll -> bool) : (forall c, In c cs -> c_name c = n -> p c = true) ->
  find (fun c => String.eqb (c_name c) n) (filter p cs) = find (fun c => String.eqb (c_name c) n) cs.
Proof.
  induction cs as [|a cs IH]; cbn; auto. intros H. destruct (p a) eqn:E; cbn.
  - destruct (String.eqb (c_name a) n); auto.
  - destruct (String.eqb_spec (c_name a) n) as [En|En]; auto. rewrite H in E; auto. discriminate.
Qed.
Lemma find_id_filter i cs (p : coll -> bool) : (forall c, In c cs -> c_id c = i -> p c = true) ->
  find (fun c => Z.eqb (c_id c) i) (filter p cs) = find (fun c => Z.eqb (c_id c) i) cs.
Proof.
  induction cs as [|a cs IH]; cbn; auto. intros H. destruct (p a) eqn:E; cbn.
  - destruct (Z.eqb (c_id a) i); auto.
  - destruct (Z.eqb_spec (c_id a) i) as [En|En]; auto. rewrite H in E; auto. discriminate.
Qed.

Section P2.
Variable I : index_ops.
Notation store := (store I).

Lemma db_step_colls fk d d' : db_step fk d d' -> colls_ok d -> colls_ok d'.
Proof.
  induction 1; intros Hi; auto; try exact Hi.
  - destruct Hi as (H1 & H2 & H3). unfold colls_ok. cbn. rewrite !map_app. cbn. repeat split.
    + apply NoDup_app_intro; auto; [repeat constructor; cbn; tauto|]. cbn. intros x Hx [<-|[]].
      apply in_map_iff in Hx as (c & Ec & Hc). apply H3 in Hc. lia.
    + apply NoDup_app_intro; auto; [repeat constructor; cbn; tauto|]. cbn. intros x Hx [<-|[]].
      apply in_map_iff in Hx as (c & Ec & Hc). unfold find_coll in H.
      eapply find_none in H; [|exact Hc]. cbn in H. apply String.eqb_neq in H. congruence.
    + intros c Hc. apply in_app_iff in Hc as [Hc|[<-|[]]]; [apply H3 in Hc; lia|cbn; lia].
  - destruct Hi as (H1 & H2 & H3). unfold colls_ok. cbn. repeat split.
    + apply NoDup_map_filter; auto.
    + apply NoDup_map_filter; auto.
    + intros c0 Hc. apply filter_In in Hc as [Hc _]. auto.
Qed.

Lemma init_db_colls dim d : (1 <= t_next d)%Z -> colls_ok d -> colls_ok (init_db dim d).
Proof.
  intros Hn Hi. unfold init_db. destruct (existsb _ _) eqn:E; auto.
  assert (F : forall c, In c (t_colls d) -> c_id c <> 1%Z /\ c_name c <> "default").
  { intros c Hc. split; intros Heq.
    - assert (X : existsb (fun c => (Z.eqb (c_id c) 1 || String.eqb (c_name c) "default")%bool) (t_colls d) = true); [|congruence].
      apply existsb_exists. exists c. split; auto. rewrite Heq. reflexivity.
    - assert (X : existsb (fun c => (Z.eqb (c_id c) 1 || String.eqb (c_name c) "default")%bool) (t_colls d) = true); [|congruence].
      apply existsb_exists. exists c. split; auto. rewrite Heq. apply orb_true_r. }
  destruct Hi as (H1 & H2 & H3). unfold colls_ok. cbn. rewrite !map_app. cbn. repeat split; auto.
  - apply NoDup_app_intro; auto; [repeat constructor; cbn; tauto|]. cbn. intros x Hx [<-|[]].
    apply in_map_iff in Hx as (c & Ec & Hc). apply F in Hc. tauto.
  - apply NoDup_app_intro; auto; [repeat constructor; cbn; tauto|]. cbn. intros x Hx [<-|[]].
    apply in_map_iff in Hx as (c & Ec & Hc). apply F in Hc. tauto.
  - intros c Hc. apply in_app_iff in Hc as [Hc|[<-|[]]]; [apply H3 in Hc; lia|cbn; lia].
Qed.

Lemma reachable_colls envs s : reachable I envs s -> colls_ok (st_db I s).
Proof.
  induction 1 as [dim p i s H|s ev o H IH He|s dim p i s' H IH Ho].
  - unfold open_store in H. destruct (Z.ltb dim 0); [discriminate|]. injection H as <-. cbn [st_db].
    apply init_db_colls; [cbn; lia|]. unfold colls_ok. cbn. repeat split; try constructor; tauto.
  - eapply db_step_colls; [apply step_db_step|exact IH].
  - pose proof (reachable_next _ _ _ H). unfold open_store in Ho. destruct (Z.ltb dim 0); [discriminate|]. injection Ho as <-. cbn [st_db].
    apply init_db_colls; auto.
Qed.

(** *** reading a row *)
Definition doc_of (r : row) : string := match r_doc r with Some x => x | None => "" end.
Lemma get_ok_inv (s : store) id e : get_by_id I s id = Ok e ->
  exists r, st_closed I s = false /\ find (row_is id) (t_rows (st_db I s)) = Some r /\
    scan_get true (st_db I s) r = Ok e /\ e_doc e = doc_of r /\ e_coll e = coll_name (st_db I s) (r_coll r) /\ r_id r = id /\ In r (t_rows (st_db I s)).
Proof.
  unfold get_by_id. destruct (st_closed I s); [discriminate|].
  destruct (find _ _) as [r|] eqn:F; [|discriminate]. intros H. exists r. repeat split; auto.
  - unfold scan_get in H. destruct (decode_vector _); cbn in H; try discriminate. injection H as <-. reflexivity.
  - unfold scan_get in H. destruct (decode_vector _); cbn in H; try discriminate. injection H as <-. reflexivity.
  - apply find_some in F as [_ F]. apply row_is_true in F. exact F.
  - apply find_some in F. tauto.
Qed.

(** Row deletion by a predicate: the effect on readers, in one place. *)
Lemma get_filter_ok (s s' : store) p id e :
  st_closed I s' = st_closed I s -> t_colls (st_db I s') = t_colls (st_db I s) ->
  uniq (st_db I s) -> t_rows (st_db I s') = filter p (t_rows (st_db I s)) ->
  get_by_id I s id = Ok e ->
  exists r, find (row_is id) (t_rows (st_db I s)) = Some r /\ e_doc e = doc_of r /\
            e_coll e = coll_name (st_db I s) (r_coll r) /\ r_id r = id /\
            get_by_id I s' id = if p r then Ok e else Err ENotFound.
Proof.
  intros Hc Hcol Hu Hr Hg. pose proof (get_ok_inv s id e Hg) as (r & C & F & S & D & K & E & Hin).
  exists r. repeat split; auto. rewrite (get_filtered I s s' p id); auto; [|congruence]. rewrite F, Hg. destruct (p r); auto.
Qed.
Lemma get_filter_missing (s s' : store) p id :
  st_closed I s' = st_closed I s -> t_colls (st_db I s') = t_colls (st_db I s) ->
  uniq (st_db I s) -> t_rows (st_db I s') = filter p (t_rows (st_db I s)) ->
  get_by_id I s id = Err ENotFound -> get_by_id I s' id = Err ENotFound.
Proof.
  intros Hc Hcol Hu Hr Hg.
  assert (C : st_closed I s = false). { unfold get_by_id in Hg. destruct (st_closed I s); auto. discriminate. }
  rewrite (get_filtered I s s' p id); auto; [|congruence]. apply get_notfound in Hg; auto. rewrite Hg. reflexivity.
Qed.

Lemma delete_by_doc_lemma envs ev s x : reachable I envs s -> st_closed I s = false -> x <> "" -> ev_ok ev 0 = true ->
  exists s', delete_by_doc I ev s x = (s', Ok tt) /\
    (forall id e, get_by_id I s id = Ok e ->
       get_by_id I s' id = if String.eqb (e_doc e) x then Err ENotFound else Ok e) /\
    (forall id, get_by_id I s id = Err ENotFound -> get_by_id I s' id = Err ENotFound).
Proof.
  intros Hr Hc Hx Ho. unfold delete_by_doc. rewrite Hc, Ho. destruct (String.eqb_spec x ""); [congruence|]. cbn [negb].
  eexists; split; [reflexivity|]. pose proof (reachable_uniq I envs s Hr) as Hu. split.
  - intros id e Hg.
    destruct (get_filter_ok s (with_db I s (with_rows (st_db I s) (filter (fun r => negb (doc_is x r)) (t_rows (st_db I s)))))
      (fun r => negb (doc_is x r)) id e eq_refl eq_refl Hu eq_refl Hg) as (r & _ & D & _ & _ & G).
    rewrite G, D. unfold doc_is, doc_of. destruct (r_doc r) as [y|].
    + destruct (String.eqb y x); reflexivity.
    + destruct (String.eqb_spec "" x); [congruence|reflexivity].
  - intros id Hg. eapply get_filter_missing; [| | |reflexivity|exact Hg]; auto.
Qed.

Lemma clear_lemma ev s : st_closed I s = false -> ev_ok ev 0 = true ->
  exists s', clear I ev s = (s', Ok tt) /\ (forall id, get_by_id I s' id = Err ENotFound) /\ stats I s' = Ok (0%Z, st_dim I s).
Proof.
  intros Hc Ho. unfold clear. rewrite Hc, Ho. eexists; split; [reflexivity|].
  unfold get_by_id, stats. cbn. rewrite Hc. auto.
Qed.

Lemma clear_docs_tx_ok ev xs : (forall n, ev_ok ev n = true) -> forall n rows, exists rows', clear_docs_tx ev n xs rows = Some rows'.
Proof.
  intros Hok. induction xs as [|x xs IH]; intros n rows; cbn; [eauto|]. destruct (String.eqb x ""); auto. rewrite Hok. auto.
Qed.

Lemma clear_by_docs_lemma envs ev s xs : reachable I envs s -> st_closed I s = false -> (forall n, ev_ok ev n = true) ->
  exists s', clear_by_docs I ev s xs = (s', Ok tt) /\
    (forall id e, get_by_id I s id = Ok e ->
       get_by_id I s' id = if mem (e_doc e) xs && negb (String.eqb (e_doc e) "") then Err ENotFound else Ok e) /\
    (forall id, get_by_id I s id = Err ENotFound -> get_by_id I s' id = Err ENotFound).
Proof.
  intros Hr Hc Ho. unfold clear_by_docs. rewrite Hc. pose proof (reachable_uniq I envs s Hr) as Hu.
  destruct xs as [|x0 xs0]; [eexists; split; [reflexivity|]; cbn; auto|].
  set (xs := x0 :: xs0) in *. clearbody xs. rewrite !Ho. cbn [negb].
  destruct (clear_docs_tx_ok ev xs Ho 2 (t_rows (st_db I s))) as (rows & E). rewrite E.
  apply clear_docs_filter in E. eexists; split; [reflexivity|]. split.
  - intros id e Hg.
    destruct (get_filter_ok s (with_db I s (with_rows (st_db I s) rows)) _ id e eq_refl eq_refl Hu E Hg) as (r & _ & D & _ & _ & G).
    rewrite G, D. unfold doc_of.
    assert (X : existsb (fun x => doc_is x r && negb (String.eqb x "")) xs =
                mem (match r_doc r with Some x => x | None => "" end) xs && negb (String.eqb (match r_doc r with Some x => x | None => "" end) "")).
    { unfold doc_is, mem. clear. destruct (r_doc r) as [y|].
      - induction xs as [|x xs IH]; cbn [existsb]; auto. rewrite IH.
        destruct (String.eqb_spec y x) as [->|]; cbn; auto. destruct (String.eqb x ""); cbn; auto. rewrite andb_false_r. reflexivity.
      - rewrite String.eqb_refl, andb_false_r. induction xs; cbn; auto. }
    rewrite X. destruct (mem _ xs && _); reflexivity.
  - intros id Hg. eapply get_filter_missing; [| | |exact E|exact Hg]; auto.
Qed.
Lemma clear_by_docs_atomic ev s xs s' r : clear_by_docs I ev s xs = (s', r) -> r = Ok tt \/ s' = s.
Proof.
  unfold clear_by_docs. destruct (st_closed I s); [intros [= <- <-]; auto|]. destruct xs; [intros [= <- <-]; auto|].
  destruct (negb _); [intros [= <- <-]; auto|]. destruct (clear_docs_tx _ _ _ _); [|intros [= <- <-]; auto].
  destruct (ev_ok ev 1); intros [= <- <-]; auto.
Qed.

(** *** collections *)
Lemma delete_collection_lemma envs ev s name :
  reachable I envs s -> st_closed I s = false -> (forall n, ev_ok ev n = true) ->
  (name <> "" \/ integrity (st_db I s)) ->
  forall c, get_collection I s name = Ok c ->
  exists s', delete_collection I ev s name = (s', Ok tt) /\
    (forall id e, get_by_id I s id = Ok e ->
       get_by_id I s' id = if String.eqb (e_coll e) name then Err ENotFound else Ok e) /\
    (forall id, get_by_id I s id = Err ENotFound -> get_by_id I s' id = Err ENotFound) /\
    (exists x, get_collection I s' name = Err x) /\
    (forall n, n <> name -> get_collection I s' n = get_collection I s n) /\
    (forall x, get_document I s' x = get_document I s x).
Proof.
  intros Hr Hc Ho Hn c Hg. unfold get_collection in Hg. rewrite Hc in Hg.
  destruct (find_coll (st_db I s) name) as [c'|] eqn:Fc; [|discriminate]. injection Hg as ->.
  unfold delete_collection. rewrite Hc, Fc, !Ho. cbn [andb].
  pose proof (reachable_uniq I envs s Hr) as Hu. pose proof (reachable_colls envs s Hr) as (C1 & C2 & C3).
  pose proof Fc as Fc'. unfold find_coll in Fc'. apply find_some in Fc' as [Hin Hname]. apply String.eqb_eq in Hname.
  eexists; split; [reflexivity|].
  set (p := fun r => negb (Z.eqb (r_coll r) (c_id c))).
  set (q := fun x => negb (Z.eqb (c_id x) (c_id c))).
  split; [|split; [|split; [|split]]].
  - intros id e Hg. pose proof (get_ok_inv s id e Hg) as (r & _ & F & S & _ & K & E & Hri).
    unfold get_by_id. cbn [st_closed st_db with_db t_rows]. rewrite Hc, find_filter_gen by exact Hu. rewrite F.
    assert (X : Z.eqb (r_coll r) (c_id c) = String.eqb (e_coll e) name).
    { rewrite K. unfold coll_name. destruct (find (fun c0 => Z.eqb (c_id c0) (r_coll r)) (t_colls (st_db I s))) as [c1|] eqn:F1.
      - apply find_some in F1 as [I1 E1]. apply Z.eqb_eq in E1. rewrite <- E1.
        destruct (String.eqb_spec (c_name c1) name) as [En|En].
        + assert (c1 = c) by (eapply (NoDup_map_in_eq c_name); eauto; congruence). subst. apply Z.eqb_refl.
        + apply Z.eqb_neq. intros Ei. apply En. assert (c1 = c) by (eapply (NoDup_map_in_eq c_id); eauto). congruence.
      - assert (Hne : r_coll r <> c_id c).
        { intros Ex. eapply find_none in F1; [|exact Hin]. cbn in F1. apply Z.eqb_neq in F1. congruence. }
        apply Z.eqb_neq in Hne. rewrite Hne. symmetry. apply String.eqb_neq.
        destruct Hn as [Hn|Hn]; [congruence|]. exfalso.
        destruct Hn as (_ & _ & _ & _ & _ & H6 & _). apply H6 in Hri. apply in_map_iff in Hri as (c2 & E2 & I2).
        eapply find_none in F1; [|exact I2]. cbn in F1. apply Z.eqb_neq in F1. congruence. }
    change (p r) with (negb (Z.eqb (r_coll r) (c_id c))).
    rewrite X. destruct (String.eqb (e_coll e) name); cbn [negb]; auto.
    rewrite <- S. unfold scan_get, coll_name. cbn [t_colls].
    rewrite find_id_filter; auto. intros c0 Hc0 Ec0. apply negb_true_iff. rewrite Ec0. exact X.
  - intros id Hg. apply get_notfound; auto. cbn [st_db with_db t_rows]. rewrite find_filter_gen by exact Hu.
    apply get_notfound in Hg; auto. rewrite Hg. reflexivity.
  - unfold get_collection. cbn [st_closed st_db with_db]. rewrite Hc. unfold find_coll. cbn [t_colls].
    destruct (find (fun c0 => String.eqb (c_name c0) name) (filter q (t_colls (st_db I s)))) as [c0|] eqn:F0; [|eexists; reflexivity].
    exfalso. apply find_some in F0 as [F0 E0]. apply filter_In in F0 as [F0 Q0]. apply String.eqb_eq in E0.
    assert (c0 = c) by (eapply (NoDup_map_in_eq c_name); eauto; congruence). subst. unfold q in Q0. rewrite Z.eqb_refl in Q0. discriminate.
  - intros n Hne. unfold get_collection. cbn [st_closed st_db with_db]. unfold find_coll. cbn [t_colls].
    rewrite find_name_filter; auto. intros c0 Hc0 En. apply negb_true_iff, Z.eqb_neq. intros Ei.
    assert (c0 = c) by (eapply (NoDup_map_in_eq c_id); eauto). congruence.
  - reflexivity.
Qed.

Lemma delete_collection_atomic ev s name s' r : delete_collection I ev s name = (s', r) -> r = Ok tt \/ s' = s.
Proof.
  unfold delete_collection. destruct (st_closed I s); [intros [= <- <-]; auto|].
  destruct (find_coll _ _); [|intros [= <- <-]; auto]. destruct (_ && _ && _); intros [= <- <-]; auto.
Qed.
Lemma delete_unknown_collection ev s name x : get_collection I s name = Err x -> exists y, delete_collection I ev s name = (s, Err y).
Proof.
  unfold get_collection, delete_collection. destruct (st_closed I s); [eauto|]. destruct (find_coll _ _); [discriminate|]. eauto.
Qed.

(** *** documents *)
Lemma delete_document_lemma ev s x : reachable I fk_env s -> st_closed I s = false ->
  ev_fk ev = true -> (forall n, ev_ok ev n = true) ->
  exists s', delete_document I ev s x = (s', Ok tt) /\
    get_document I s' x = Err ENotFound /\
    (forall y, y <> x -> get_document I s' y = get_document I s y) /\
    (forall id e, get_by_id I s id = Ok e ->
       get_by_id I s' id = if String.eqb (e_doc e) x && negb (String.eqb x "") then Err ENotFound else Ok e) /\
    (forall id, get_by_id I s id = Err ENotFound -> get_by_id I s' id = Err ENotFound) /\
    (x <> "" -> forall by_time, (forall l r, In r (by_time l) <-> In r l) -> get_by_doc I by_time s' x = Ok []).
Proof.
  intros Hr Hc Hfk Ho. unfold delete_document. rewrite Hc, !Ho, Hfk. cbn [negb andb].
  pose proof (reachable_uniq I _ s Hr) as Hu. pose proof (reachable_integrity I s Hr) as Hi.
  destruct Hi as (_ & _ & _ & Hd & _ & _ & H7).
  match goal with |- exists s', (?st, _) = _ /\ _ => set (s1 := st) end.
  assert (R1 : exists p, t_rows (st_db I s1) = filter p (t_rows (st_db I s)) /\
     forall r, In r (t_rows (st_db I s)) -> p r = negb (match r_doc r with Some y => String.eqb y x | None => false end)).
  { cbn. destruct (existsb _ _) eqn:E.
    - exists (fun r => negb (doc_is x r)). split; auto.
    - exists (fun _ => true). split; [symmetry; apply filter_all; auto|]. intros r Hin.
      destruct (r_doc r) as [y|] eqn:Ey; auto. destruct (String.eqb_spec y x) as [->|]; auto. exfalso.
      eapply H7 in Ey; eauto. apply in_map_iff in Ey as (z & Ez & Hz).
      assert (X : existsb (fun y => String.eqb (d_id y) x) (t_docs (st_db I s)) = true); [|congruence].
      apply existsb_exists. exists z. split; auto. apply String.eqb_eq; auto. }
  destruct R1 as (p & R1 & Pp).
  assert (C1 : st_closed I s1 = st_closed I s) by reflexivity.
  assert (K1 : t_colls (st_db I s1) = t_colls (st_db I s)) by reflexivity.
  exists s1. split; auto. split; [|split; [|split; [|split]]].
  - unfold get_document. rewrite C1, Hc. cbn.
    destruct (find _ _) as [y|] eqn:F; auto. exfalso. apply find_some in F as [F E]. apply filter_In in F as [_ F]. rewrite E in F. discriminate.
  - intros y Hy. unfold get_document. rewrite C1, Hc. cbn.
    assert (X : forall l, find (fun y0 => String.eqb (d_id y0) y) (filter (fun y0 => negb (String.eqb (d_id y0) x)) l) = find (fun y0 => String.eqb (d_id y0) y) l).
    { induction l as [|a l IH]; cbn; auto. destruct (String.eqb_spec (d_id a) x) as [Ex|Ex]; cbn.
      - rewrite IH. destruct (String.eqb_spec (d_id a) y); auto. congruence.
      - destruct (String.eqb (d_id a) y); auto. }
    rewrite X. reflexivity.
  - intros id e Hg. destruct (get_filter_ok s s1 p id e C1 K1 Hu R1 Hg) as (r & F & D & _ & _ & G).
    rewrite G, D. apply find_some in F as [Hin _]. rewrite (Pp r Hin). unfold doc_of. destruct (r_doc r) as [y|] eqn:Ey.
    + destruct (String.eqb_spec y x) as [->|]; cbn; auto. destruct (String.eqb_spec x "") as [->|]; cbn; auto.
      exfalso. apply (reachable_named I _ s Hr r Hin). exact Ey.
    + destruct (String.eqb_spec "" x) as [<-|]; auto.
  - intros id Hg. eapply get_filter_missing; [exact C1|exact K1|exact Hu|exact R1|exact Hg].
  - intros Hx by_time Hby. unfold get_by_doc. rewrite C1, Hc. destruct (String.eqb_spec x ""); [congruence|]. f_equal.
    assert (Z : filter (doc_is x) (t_rows (st_db I s1)) = []).
    { apply filter_none. intros r Hin. rewrite R1 in Hin. apply filter_In in Hin as [Hin Hp]. rewrite (Pp r Hin) in Hp.
      unfold doc_is. apply negb_true_iff in Hp. exact Hp. }
    rewrite Z. destruct (by_time []) as [|r l] eqn:Eb; auto. exfalso. apply (Hby [] r). rewrite Eb. left. reflexivity.
Qed.
End P2.
