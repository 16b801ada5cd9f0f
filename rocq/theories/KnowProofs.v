(** Proofs about the knowledge calls: the vector store side. *)
From Coq Require Import String Ascii List NArith ZArith Bool Permutation Sorted Lia ZifyBool ZifyNat.
From Coq Require Import Floats.SpecFloat.
From Verif Require Import Base Floats64 EncodingSpec DimensionModel SearchModel RagModel RagSpec RagProps ToolGraphModel StoreModel StoreSpec StoreInv StoreProofs StoreProofs2 StoreProofs3 StoreQuerySpec StoreQueryProofs StoreProps
  GraphModel GraphSpec ToolGraphSpec ToolGraphProofs KnowModel KnowSpec.
Import ListNotations.
Open Scope string_scope.
Open Scope list_scope.

Section S.
Variable I : index_ops.
Notation store := (store I).
Notation get_by_id := (get_by_id I).
Notation get_document := (get_document I).
Notation get_collection := (get_collection I).
Implicit Types s : store.

Lemma get_two s x : reachable I fk_env s -> st_closed I s = false -> get_by_id s x = Err ENotFound \/ exists e, get_by_id s x = Ok e /\ e_id e = x.
Proof.
  intros R C. unfold StoreModel.get_by_id. rewrite C. destruct (find (row_is x) (t_rows (st_db I s))) as [r|] eqn:F; [|left; reflexivity].
  right. apply find_some in F as [F1 F2]. destruct (reachable_decodes I _ s R r F1) as [[w W] _]. unfold scan_get. rewrite W. cbn. eexists. split; [reflexivity|]. cbn. apply String.eqb_eq. exact F2.
Qed.
(** Rows of a document need the document. *)
Lemma in_doc_document s id x : reachable I fk_env s -> st_closed I s = false -> id <> "" -> in_doc I s id x -> exists d, get_document s id = Ok d.
Proof.
  intros R C N (e & G & E). apply get_ok_inv in G as (r & _ & _ & _ & D & _ & _ & Hr). pose proof (reachable_integrity I s R) as (_ & _ & _ & _ & _ & _ & H7).
  assert (Er : r_doc r = Some id). { rewrite E in D. unfold doc_of in D. destruct (r_doc r) as [y|]; [congruence|]. congruence. }
  specialize (H7 r id Hr Er). apply in_map_iff in H7 as (d & Ed & Hd). unfold StoreModel.get_document. rewrite C.
  destruct (find _ _) as [y|] eqn:F; [eauto|]. eapply find_none in F; [|exact Hd]. cbn in F. rewrite Ed, String.eqb_refl in F. discriminate.
Qed.
(** Stores that readers of embeddings cannot tell apart. *)
Definition alike s s' : Prop := (forall x, get_by_id s' x = get_by_id s x) /\ st_closed I s' = st_closed I s.

Lemma create_collection_facts ev s name dim s' r : reachable I fk_env s -> ev_fk ev = true -> create_collection I ev s name dim = (s', r) ->
  reachable I fk_env s' /\ alike s s' /\ (forall x, get_document s' x = get_document s x) /\
  (forall c, r = Ok c -> get_collection s' name = Ok c) /\ st_dim I s' = st_dim I s.
Proof.
  intros R F E. assert (R' : reachable I fk_env s'). { pose proof (reach_step I fk_env s ev (OCreateColl name dim) R F) as H. cbn [step] in H. rewrite E in H. exact H. }
  split; [exact R'|]. revert E. unfold create_collection. destruct (st_closed I s) eqn:C; [intros [= <- <-]; repeat split; auto; discriminate|].
  destruct (find_coll (st_db I s) name) eqn:Fc; [intros [= <- <-]; repeat split; auto; discriminate|].
  destruct (Z.ltb dim 0); [intros [= <- <-]; repeat split; auto; discriminate|]. destruct (ev_ok ev 0); cbn [negb]; [|intros [= <- <-]; repeat split; auto; discriminate].
  intros [= <- <-]. split; [|split; [|split]].
  - split; [|reflexivity]. intros x. unfold StoreModel.get_by_id. cbn [with_db st_closed st_db t_rows]. rewrite C.
    destruct (find (row_is x) (t_rows (st_db I s))) as [r|] eqn:Fr; [|reflexivity]. unfold scan_get. f_equal. 
    assert (K : coll_name (st_db I s) (r_coll r) = coll_name {| t_rows := t_rows (st_db I s); t_colls := t_colls (st_db I s) ++ [{| c_id := t_next (st_db I s); c_name := name; c_dims := dim |}]; t_next := t_next (st_db I s) + 1; t_docs := t_docs (st_db I s) |} (r_coll r)).
    { apply find_some in Fr as [Hr _]. pose proof (reachable_integrity I s R) as (_ & _ & _ & _ & _ & H6 & _). specialize (H6 r Hr). apply in_map_iff in H6 as (c & Ec & Hc).
      unfold coll_name. cbn [t_colls]. rewrite find_app. destruct (find (fun c0 : coll => Z.eqb (c_id c0) (r_coll r)) (t_colls (st_db I s))) eqn:Ff; [reflexivity|].
      eapply find_none in Ff; [|exact Hc]. cbn in Ff. lia. }
    rewrite <- K. reflexivity.
  - intros x. unfold StoreModel.get_document. cbn. rewrite C. reflexivity.
  - intros c [= <-]. unfold StoreModel.get_collection. cbn [with_db st_closed st_db]. rewrite C. unfold find_coll in *. cbn [t_colls]. rewrite find_app, Fc. cbn. rewrite String.eqb_refl. reflexivity.
  - reflexivity.
Qed.
Lemma create_collection_ok ev s name dim : st_closed I s = false -> ev_ok ev 0 = true -> (0 <= dim)%Z -> (forall c, get_collection s name <> Ok c) -> exists s' c, create_collection I ev s name dim = (s', Ok c).
Proof.
  intros C O D H. unfold create_collection. unfold StoreModel.get_collection in H. rewrite C in *. destruct (find_coll _ _) as [c|]; [destruct (H c); reflexivity|].
  destruct (Z.ltb_spec dim 0); [lia|]. rewrite O. cbn. eauto.
Qed.
Lemma ensure_facts ev s name dim s' r : reachable I fk_env s -> ev_fk ev = true -> ensure_collection I ev s name dim = (s', r) ->
  reachable I fk_env s' /\ alike s s' /\ (forall x, get_document s' x = get_document s x) /\ (r = Ok tt -> exists c, get_collection s' name = Ok c) /\ st_dim I s' = st_dim I s.
Proof.
  intros R F. unfold ensure_collection. destruct (get_collection s name) as [c| |] eqn:G.
  - intros [= <- <-]. split; [exact R|]. split; [split; auto|]. split; [auto|]. split; [eauto|reflexivity].
  - destruct (create_collection I ev s name dim) as [s1 o] eqn:E. intros [= <- <-]. destruct (create_collection_facts _ _ _ _ _ _ R F E) as (R1 & A & D & K & S). repeat (split; auto).
    intros Hr. destruct o as [c| |]; try discriminate. eauto.
  - destruct (create_collection I ev s name dim) as [s1 o] eqn:E. intros [= <- <-]. destruct (create_collection_facts _ _ _ _ _ _ R F E) as (R1 & A & D & K & S). repeat (split; auto).
    intros Hr. destruct o as [c| |]; try discriminate. eauto.
Qed.
Lemma ensure_ok ev s name dim : st_closed I s = false -> ev_ok ev 0 = true -> (0 <= dim)%Z -> exists s', ensure_collection I ev s name dim = (s', Ok tt).
Proof.
  intros C O D. unfold ensure_collection. destruct (get_collection s name) as [c| |] eqn:G; [eauto| |];
  (destruct (create_collection_ok ev s name dim C O D) as (s' & c & E); [intros c; congruence|]; rewrite E; cbn; eauto).
Qed.

Lemma create_document_facts ev s x s' r : reachable I fk_env s -> ev_fk ev = true -> create_document I ev s x = (s', r) ->
  reachable I fk_env s' /\ alike s s' /\ (forall y, y <> d_id x -> get_document s' y = get_document s y) /\ (r = Ok tt -> get_document s' (d_id x) = Ok x) /\ (forall n, get_collection s' n = get_collection s n) /\ st_dim I s' = st_dim I s.
Proof.
  intros R F E. pose proof (reach_step I fk_env s ev (OCreateDoc x) R F) as R'. pose proof (documents_lemma I ev s (OCreateDoc x)) as D. cbn [step] in R', D. rewrite E in R', D. cbn [fst snd] in *.
  split; [exact R'|]. split; [|split; [|split; [|split]]].
  - revert E. unfold create_document. destruct (st_closed I s) eqn:C; [intros [= <- <-]; split; auto|]. destruct (existsb _ _); [intros [= <- <-]; split; auto|].
    destruct (ev_ok ev 0); cbn [negb]; intros [= <- <-]; split; auto.
  - intros y Hy. rewrite D. cbn. destruct r; auto. destruct (String.eqb_spec (d_id x) y); congruence.
  - intros ->. rewrite D. cbn. rewrite String.eqb_refl. reflexivity.
  - revert E. unfold create_document. destruct (st_closed I s) eqn:C; [intros [= <- <-]; auto|]. destruct (existsb _ _); [intros [= <- <-]; auto|].
    destruct (ev_ok ev 0); cbn [negb]; intros [= <- <-]; auto.
  - revert E. unfold create_document. destruct (st_closed I s) eqn:C; [intros [= <- <-]; auto|]. destruct (existsb _ _); [intros [= <- <-]; auto|].
    destruct (ev_ok ev 0); cbn [negb]; intros [= <- <-]; auto.
Qed.
Lemma update_document_facts ev s x s' r : reachable I fk_env s -> ev_fk ev = true -> update_document I ev s x = (s', r) ->
  reachable I fk_env s' /\ alike s s' /\ (forall y, y <> d_id x -> get_document s' y = get_document s y) /\ (r = Ok tt -> get_document s' (d_id x) = Ok x) /\ (forall n, get_collection s' n = get_collection s n) /\ st_dim I s' = st_dim I s.
Proof.
  intros R F E. pose proof (reach_step I fk_env s ev (OUpdateDoc x) R F) as R'. pose proof (documents_lemma I ev s (OUpdateDoc x)) as D. cbn [step] in R', D. rewrite E in R', D. cbn [fst snd] in *.
  split; [exact R'|]. split; [|split; [|split; [|split]]].
  - revert E. unfold update_document. destruct (st_closed I s) eqn:C; [intros [= <- <-]; split; auto|]. destruct (ev_ok ev 0); cbn [negb]; [|intros [= <- <-]; split; auto].
    destruct (existsb _ _); intros [= <- <-]; split; auto.
  - intros y Hy. rewrite D. cbn. destruct r; auto. destruct (String.eqb_spec (d_id x) y); congruence.
  - intros ->. rewrite D. cbn. rewrite String.eqb_refl. reflexivity.
  - revert E. unfold update_document. destruct (st_closed I s) eqn:C; [intros [= <- <-]; auto|]. destruct (ev_ok ev 0); cbn [negb]; [|intros [= <- <-]; auto].
    destruct (existsb _ _); intros [= <- <-]; auto.
  - revert E. unfold update_document. destruct (st_closed I s) eqn:C; [intros [= <- <-]; auto|]. destruct (ev_ok ev 0); cbn [negb]; [|intros [= <- <-]; auto].
    destruct (existsb _ _); intros [= <- <-]; auto.
Qed.
Lemma get_document_id s id x : get_document s id = Ok x -> d_id x = id.
Proof. unfold StoreModel.get_document. destruct (st_closed I s); [discriminate|]. destruct (find _ _) eqn:F; [|discriminate]. intros [= <-]. apply find_some in F as [_ F]. apply String.eqb_eq. exact F. Qed.
Lemma get_document_two s id : st_closed I s = false -> get_document s id = Err ENotFound \/ exists x, get_document s id = Ok x.
Proof. intros C. unfold StoreModel.get_document. rewrite C. destruct (find _ _); eauto. Qed.

Lemma record_facts ev s id title content s' r : reachable I fk_env s -> ev_fk ev = true -> record_document I ev s id title content = (s', r) ->
  reachable I fk_env s' /\ alike s s' /\ (forall y, y <> id -> get_document s' y = get_document s y) /\
  (r = Ok tt -> exists x, get_document s' id = Ok x /\ d_acl x = match get_document s id with Ok y => d_acl y | _ => [] end) /\ (forall n, get_collection s' n = get_collection s n) /\ st_dim I s' = st_dim I s.
Proof.
  intros R F. unfold record_document. destruct (get_document s id) as [x| |] eqn:G; intros E.
  - pose proof (get_document_id _ _ _ G) as Ei. destruct (update_document_facts _ _ _ _ _ R F E) as (H1 & H2 & H3 & H4 & H5 & H6). cbn [d_id] in *. rewrite Ei in *. repeat (split; auto). intros Hr. eexists. split; [apply H4; exact Hr|reflexivity].
  - destruct (create_document_facts _ _ _ _ _ R F E) as (H1 & H2 & H3 & H4 & H5 & H6). cbn [d_id] in *. repeat (split; auto). intros Hr. eexists. split; [apply H4; exact Hr|reflexivity].
  - destruct (create_document_facts _ _ _ _ _ R F E) as (H1 & H2 & H3 & H4 & H5 & H6). cbn [d_id] in *. repeat (split; auto). intros Hr. eexists. split; [apply H4; exact Hr|reflexivity].
Qed.
Lemma record_ok ev s id title content : st_closed I s = false -> ev_ok ev 0 = true -> exists s', record_document I ev s id title content = (s', Ok tt).
Proof.
  intros C O. unfold record_document. destruct (get_document_two s id C) as [G|[x G]]; rewrite G.
  - match goal with |- context [create_document I ev s ?d] => pose proof (proj2 (create_doc_succeeds I ev s d C O) G) as H end. cbn [step] in H.
    destruct (create_document I ev s _) as [s' r]. cbn in H. subst. eauto.
  - match goal with |- context [update_document I ev s ?d] => pose proof (proj2 (update_doc_succeeds I ev s d C O)) as H end. cbn [step d_id] in H.
    rewrite (get_document_id _ _ _ G) in *. specialize (H (ex_intro _ x G)). destruct (update_document I ev s _) as [s' r]. cbn in H. subst. eauto.
Qed.
Lemma put_facts ev s x s' r : reachable I fk_env s -> ev_fk ev = true -> put_document I ev s x = (s', r) ->
  reachable I fk_env s' /\ alike s s' /\ (forall y, y <> d_id x -> get_document s' y = get_document s y) /\
  (r = Ok tt -> get_document s' (d_id x) = Ok {| d_id := d_id x; d_title := d_title x; d_url := d_url x; d_content := d_content x; d_version := d_version x; d_author := d_author x; d_meta := d_meta x;
                                                 d_acl := match get_document s (d_id x) with Ok y => d_acl y | _ => d_acl x end |}) /\ (forall n, get_collection s' n = get_collection s n) /\ st_dim I s' = st_dim I s.
Proof.
  intros R F. unfold put_document. destruct (get_document s (d_id x)) as [y|e|] eqn:G; intros E.
  - pose proof (get_document_id _ _ _ G) as Ei. destruct (update_document_facts _ _ _ _ _ R F E) as (H1 & H2 & H3 & H4 & H5 & H6). cbn [d_id d_title d_url d_content d_version d_author d_meta d_acl] in *. rewrite Ei in *. repeat (split; auto).
  - assert (Same : e <> ENotFound -> (s', r) = (s, Err e)) by (intros N; destruct e; congruence).
    assert (Dec : e = ENotFound \/ e <> ENotFound) by (destruct e; (left; reflexivity) || (right; discriminate)).
    destruct Dec as [->|N].
    + destruct (create_document_facts _ _ _ _ _ R F E) as (H1 & H2 & H3 & H4 & H5 & H6). repeat (split; auto). intros Hr. rewrite (H4 Hr). destruct x; reflexivity.
    + specialize (Same N). injection Same as -> ->. split; [exact R|]. split; [split; auto|]. split; [auto|]. split; [discriminate|]. split; auto.
  - injection E as <- <-. split; [exact R|]. split; [split; auto|]. split; [auto|]. split; [discriminate|]. split; auto.
Qed.
Lemma put_ok ev s x : st_closed I s = false -> ev_ok ev 0 = true -> exists s', put_document I ev s x = (s', Ok tt).
Proof.
  intros C O. unfold put_document. destruct (get_document_two s (d_id x) C) as [G|[y G]]; rewrite G.
  - pose proof (proj2 (create_doc_succeeds I ev s x C O) G) as H. cbn [step] in H. destruct (create_document I ev s x) as [s' r]. cbn in H. subst. eauto.
  - match goal with |- context [update_document I ev s ?d] => pose proof (proj2 (update_doc_succeeds I ev s d C O)) as H end. cbn [step d_id] in H.
    rewrite (get_document_id _ _ _ G) in *. specialize (H (ex_intro _ y G)). destruct (update_document I ev s _) as [s' r]. cbn in H. subst. eauto.
Qed.

(** Deleting a document, whatever statements fail. *)
Lemma delete_facts ev s id s' r : reachable I fk_env s -> st_closed I s = false -> ev_fk ev = true -> id <> "" -> delete_document I ev s id = (s', r) ->
  reachable I fk_env s' /\ st_closed I s' = false /\ (forall y, y <> id -> get_document s' y = get_document s y) /\ (forall n, get_collection s' n = get_collection s n) /\ st_dim I s' = st_dim I s /\
  (forall x, ~ in_doc I s id x -> get_by_id s' x = get_by_id s x) /\
  (r = Ok tt -> get_document s' id = Err ENotFound /\ forall x, in_doc I s id x -> get_by_id s' x = Err ENotFound).
Proof.
  intros R C F N E. pose proof (reach_step I fk_env s ev (ODeleteDoc id) R F) as R'. pose proof (step_closed I ev s (ODeleteDoc id) ltac:(discriminate)) as Cl. pose proof (documents_lemma I ev s (ODeleteDoc id)) as D.
  cbn [step] in *. rewrite E in *. cbn [fst snd doc_after] in *. rewrite C in Cl. split; [exact R'|]. split; [exact Cl|].
  set (ev' := {| ev_fk := true; ev_ok := fun _ => true; ev_noise := ev_noise ev |}).
  destruct (delete_document_lemma I ev' s id R C eq_refl (fun _ => eq_refl)) as (s2 & E2 & _ & _ & Hok & Hno & _).
  assert (Two : r <> Ok tt /\ st_db I s' = st_db I s /\ st_dim I s' = st_dim I s \/ r = Ok tt /\ st_db I s' = st_db I s2 /\ st_dim I s' = st_dim I s /\ st_closed I s2 = false /\ t_colls (st_db I s') = t_colls (st_db I s)).
  { revert E E2. unfold delete_document. rewrite C. cbn [ev_ok ev_fk ev']. rewrite F. destruct (ev_ok ev 1); cbn [negb andb].
    - intros [= <- <-] [= <-]. right. destruct (ev_ok ev 0); cbn; auto.
    - intros [= <- <-] _. left. destruct (ev_ok ev 0); cbn; split; auto; discriminate. }
  destruct Two as [(Nr & Db & Dm)|(-> & Db & Dm & C2 & Cc)].
  - assert (Same : forall x, get_by_id s' x = get_by_id s x) by (intros x; unfold StoreModel.get_by_id; rewrite Cl, C, Db; reflexivity).
    split; [intros y Hy; rewrite D; destruct r as [[]| |]; try reflexivity; destruct Nr; reflexivity|].
    split; [intros n; unfold StoreModel.get_collection; rewrite Cl, C, Db; reflexivity|]. split; [exact Dm|]. split; [intros; apply Same|]. intros Er. contradiction.
  - assert (Same : forall x, get_by_id s' x = get_by_id s2 x) by (intros x; unfold StoreModel.get_by_id; rewrite Cl, C2, Db; reflexivity).
    split; [intros y Hy; rewrite D; destruct (String.eqb_spec id y); congruence|].
    split; [intros n; unfold StoreModel.get_collection, find_coll; rewrite Cl, C, Cc; reflexivity|]. split; [exact Dm|].
    assert (Nb : String.eqb id "" = false) by (destruct (String.eqb_spec id ""); [contradiction|reflexivity]).
    split.
    + intros x Hx. rewrite Same. destruct (get_two s x R C) as [G|(e & G & _)]; [rewrite (Hno x G), G; reflexivity|]. rewrite (Hok x e G), Nb. destruct (String.eqb_spec (e_doc e) id) as [Ee|]; [|cbn; auto].
      destruct Hx. exists e. auto.
    + intros _. split; [rewrite D, String.eqb_refl; reflexivity|]. intros x (e & G & Ee). rewrite Same, (Hok x e G), Ee, String.eqb_refl, Nb. reflexivity.
Qed.
Lemma delete_ok ev s id : reachable I fk_env s -> st_closed I s = false -> ev_fk ev = true -> (forall n, ev_ok ev n = true) -> exists s', delete_document I ev s id = (s', Ok tt).
Proof. intros R C F O. destruct (delete_document_lemma I ev s id R C F O) as (s' & E & _). eauto. Qed.

(** *** The rows of the pieces *)
Lemma number_in {A} (l : list A) : forall k i p, In (i, p) (number k l) <-> (k <= i)%nat /\ nth_error l (i - k) = Some p.
Proof.
  induction l as [|a l IH]; intros k i p; cbn [number].
  - split; [intros []|intros [_ H]; destruct (i - k)%nat; discriminate].
  - cbn [In]. rewrite IH. split.
    + intros [[= <- <-]|[H1 H2]]; [split; [lia|]; rewrite Nat.sub_diag; reflexivity|]. split; [lia|]. replace (i - k)%nat with (S (i - S k)) by lia. exact H2.
    + intros [H1 H2]. destruct (Nat.eq_dec i k) as [->|N]; [left; rewrite Nat.sub_diag in H2; cbn in H2; congruence|right]. split; [lia|]. replace (i - k)%nat with (S (i - S k)) in H2 by lia. exact H2.
Qed.
Lemma number_in0 {A} (l : list A) i p : In (i, p) (number 0 l) <-> nth_error l i = Some p.
Proof. rewrite number_in, Nat.sub_0_r. split; [tauto|split; [lia|auto]]. Qed.
Lemma number_fst_NoDup {A} (l : list A) : forall k, NoDup (map fst (number k l)).
Proof.
  induction l as [|a l IH]; intros k; cbn [number map]; constructor; [|apply IH]. intros H. apply in_map_iff in H as ([i p] & E & H). cbn in E. subst i. apply number_in in H. cbn [fst] in H. lia.
Qed.
Lemma number_nil {A} (l : list A) k : number k l = [] <-> l = [].
Proof. destruct l; cbn; split; congruence. Qed.
Lemma last_with_unique id es e : In e es -> e_id e = id -> NoDup (map e_id es) -> last_with id es = Some e.
Proof.
  induction es as [|a es IH]; [intros []|]; intros [->|H] E N; cbn [last_with]; inversion_clear N as [|? ? Na Ne].
  - assert (L : last_with id es = None).
    { clear -Na E. induction es as [|b es IH]; [reflexivity|]. cbn. rewrite IH; [|intros H; apply Na; right; exact H]. destruct (String.eqb_spec (e_id b) id); [|reflexivity]. destruct Na. left. congruence. }
    rewrite L, E, String.eqb_refl. reflexivity.
  - rewrite IH; auto.
Qed.
Lemma last_with_none id es : (forall e, In e es -> e_id e <> id) -> last_with id es = None.
Proof.
  induction es as [|a es IH]; intros H; [reflexivity|]. cbn. rewrite IH; [|intros; apply H; right; auto]. destruct (String.eqb_spec (e_id a) id); [|reflexivity]. destruct (H a); [left; reflexivity|auto].
Qed.
Section Rows.
Variables (vec : Z -> string -> list N) (id title name : string) (meta : option smap) (dim : Z) (pieces : list string).
Hypothesis Bits : forall t, float32_bits (vec dim t) /\ (N.of_nat (length (vec dim t)) <= 2^31 - 1)%N.
Hypothesis Meta : match meta with Some m => NoDup (map fst m) | None => True end.
Hypothesis Name : name <> "".
Let rows := map (chunk_row vec id title name meta dim) (number 0 pieces).
Lemma rows_NoDup : NoDup (map e_id rows).
Proof using Type.
  unfold rows. rewrite map_map. cbn [chunk_row e_id]. clear. pose proof (number_fst_NoDup pieces 0) as N. revert N. generalize (number 0 pieces) as l. induction l as [|[i p] l IH]; cbn [map fst]; intros N; [constructor|].
  inversion_clear N as [|? ? Na Ne]. constructor; [|auto]. intros H. apply in_map_iff in H as ([j q] & E & H). cbn [fst] in E. apply chunk_ids_distinct in E as [_ E]. subst j. apply Na. apply in_map_iff. exists (i, q). auto.
Qed.
Lemma row_last i p : nth_error pieces i = Some p -> last_with (chunk_node_id id i) rows = Some (chunk_row vec id title name meta dim (i, p)).
Proof using Type.
  intros H. apply last_with_unique; [|reflexivity|apply rows_NoDup]. unfold rows. apply in_map. apply number_in0. exact H.
Qed.
Lemma row_none x : (forall i, (i < length pieces)%nat -> x <> chunk_node_id id i) -> last_with x rows = None.
Proof using Type.
  intros H. apply last_with_none. intros e He. unfold rows in He. apply in_map_iff in He as ([i p] & <- & Hi). cbn [chunk_row e_id fst]. apply number_in0 in Hi. intros E. apply (H i); [|auto].
  apply nth_error_Some. congruence.
Qed.
Lemma batch_ok ev s c d : reachable I fk_env s -> st_closed I s = false -> (forall n, ev_ok ev n = true) -> get_collection s name = Ok c -> get_document s id = Ok d ->
  exists s', upsert_batch I ev s rows = (s', Ok tt).
Proof using Bits Name.
  intros R C O G D. apply batch_accepts_lemma; auto. intros e He. unfold rows in He. apply in_map_iff in He as ([i p] & <- & Hi). unfold StoreModel.get_collection in G. rewrite C in G.
  destruct (find_coll (st_db I s) name) as [c'|] eqn:F; [|discriminate]. injection G as ->. unfold find_coll in F. apply find_some in F as [F1 F2]. apply String.eqb_eq in F2.
  split; [|split].
  - exists (vec dim p). split; [reflexivity|]. apply Bits.
  - exists (c_id c). split; [|apply in_map; exact F1]. right. right. cbn. split; [reflexivity|]. split; [exact Name|]. exists c. auto.
  - right. cbn. unfold StoreModel.get_document in D. rewrite C in D. destruct (find _ _) as [y|] eqn:Fd; [|discriminate]. apply find_some in Fd as [Fd1 Fd2]. apply String.eqb_eq in Fd2. cbn in Fd2. rewrite <- Fd2. apply in_map. exact Fd1.
Qed.
Lemma batch_facts ev s s' : reachable I fk_env s -> ev_fk ev = true -> upsert_batch I ev s rows = (s', Ok tt) ->
  reachable I fk_env s' /\ st_closed I s' = st_closed I s /\ (forall x, get_document s' x = get_document s x) /\ st_dim I s' = st_dim I s /\
  (forall i p, nth_error pieces i = Some p -> exists e, get_by_id s' (chunk_node_id id i) = Ok e /\ piece_row vec id title name meta dim i p e) /\
  (forall x, (forall i, (i < length pieces)%nat -> x <> chunk_node_id id i) -> get_by_id s' x = get_by_id s x).
Proof using Bits Meta Name.
  intros R F E. pose proof (reach_step I fk_env s ev (OUpsertBatch rows) R F) as R'. pose proof (documents_lemma I ev s (OUpsertBatch rows)) as D. cbn [step] in R', D. rewrite E in R', D. cbn [fst snd doc_after] in *.
  pose proof (step_closed I ev s (OUpsertBatch rows) ltac:(discriminate)) as Cl. cbn [step] in Cl. rewrite E in Cl. cbn [fst] in Cl.
  split; [exact R'|]. split; [exact Cl|]. split; [exact D|]. split.
  { revert E. unfold upsert_batch. destruct (st_closed I s); [discriminate|]. destruct rows as [|e0 es]; [intros [= <-]; reflexivity|]. destruct (negb _); [discriminate|]. destruct (batch_rows _ _ _ _); [|discriminate|discriminate].
    destruct (ev_ok _ _); [intros [= <-]; reflexivity|discriminate]. }
  assert (B : Forall emb_bits rows). { apply Forall_forall. intros e He. unfold rows in He. apply in_map_iff in He as ([i p] & <- & _). apply Bits. }
  pose proof (batch_effect I ev s rows s' B E) as Eff. split.
  - intros i p H. specialize (Eff (chunk_node_id id i)). rewrite (row_last i p H) in Eff. destruct Eff as (v & cid & Ev & T & G). exists (seen_as (st_db I s) (chunk_row vec id title name meta dim (i, p)) cid v). split; [exact G|].
    cbn [chunk_row e_vec] in Ev. injection Ev as <-. unfold piece_row, seen_as. cbn [chunk_row e_id e_coll e_vec e_content e_doc e_acl e_meta fst snd]. split; [reflexivity|]. split.
    { destruct T as [[N _]|[[_ [N _]]|[_ [_ (c & Hc & Nc & Ic)]]]]; [destruct N; reflexivity|destruct Name; exact N|]. cbn [chunk_row e_coll] in Nc. unfold coll_name. subst cid.
      pose proof (reachable_integrity I s R) as (U & _). rewrite (find_by_id _ c U Hc). exact Nc. }
    repeat (split; [reflexivity|]). unfold chunk_meta. apply overrides_set; [destruct meta; [exact Meta|constructor]|reflexivity].
  - intros x H. specialize (Eff x). rewrite (row_none x H) in Eff. exact Eff.
Qed.
(** Whatever happens, other rows and the documents stay. *)
Lemma batch_frame ev s s' r : reachable I fk_env s -> ev_fk ev = true -> upsert_batch I ev s rows = (s', r) ->
  reachable I fk_env s' /\ st_closed I s' = st_closed I s /\ (forall x, get_document s' x = get_document s x) /\
  (forall x, (forall i, (i < length pieces)%nat -> x <> chunk_node_id id i) -> get_by_id s' x = get_by_id s x).
Proof using Bits Meta Name.
  intros R F E. destruct r as [[]|e|].
  - destruct (batch_facts _ _ _ R F E) as (H1 & H2 & H3 & _ & _ & H4). auto.
  - assert (s' = s). { revert E. unfold upsert_batch. destruct (st_closed I s); [congruence|]. destruct rows; [congruence|]. destruct (negb _); [congruence|]. destruct (batch_rows _ _ _ _); [|congruence|congruence]. destruct (ev_ok _ _); congruence. }
    subst. auto.
  - assert (s' = s). { revert E. unfold upsert_batch. destruct (st_closed I s); [congruence|]. destruct rows; [congruence|]. destruct (negb _); [congruence|]. destruct (batch_rows _ _ _ _); [|congruence|congruence]. destruct (ev_ok _ _); congruence. }
    subst. auto.
Qed.
End Rows.
End S.
