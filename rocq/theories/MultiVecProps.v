(** C31, C81: entities with several vectors, for every store reached by any mixture of
    ordinary operations (that leave the reserved metadata key alone), entity operations
    and reopening. *)
From Coq Require Import String Ascii List NArith ZArith Bool Permutation.
From Coq Require Import Floats.SpecFloat.
From Verif Require Import Base Floats64 TopK EncodingModel EncodingSpec EncodingProofs DimensionModel SimilarityModel
  StoreModel StoreSpec StoreInv StoreProofs StoreProps SearchModel SearchSpec SearchProps MultiVecModel MultiVecSpec MultiVecProofs.
Import ListNotations.
Open Scope string_scope.
Open Scope list_scope.

(** *** examples *)
Definition free_env : env := {| ev_fk := false; ev_ok := fun _ => true; ev_noise := fun _ => f_zero |}.
Definition ent (id : string) (vs : list (string * list N)) : entity :=
  {| m_id := id; m_vecs := map (fun p => (fst p, Some (snd p))) vs; m_meta := Some [("kind", "doc")]; m_content := "text of " ++ id |}.
Definition blank : store list_index := empty_at list_index [] 2.
Definition after_multi (es : list entity) : store list_index := fold_left (fun s e => fst (upsert_multi list_index free_env s e)) es blank.
Lemma after_multi_reach es : mreach list_index (after_multi es).
Proof.
  unfold after_multi. assert (H : mreach list_index blank) by (eapply (mr_new list_index 2%Z SmartAdapt []); reflexivity). revert H. generalize blank.
  induction es as [|e es IH]; intros s H; cbn; auto. apply IH. apply mr_upsert. exact H.
Qed.
Definition two_entities : store list_index := after_multi [ent "p" [("title", v10); ("body", v11)]; ent "q" [("title", v01)]].

(** ** C31 *)
(** After a successful upsert the entity has exactly the vectors given, and keeps those of
    its fields that were not mentioned. *)
Theorem entity_read_after_write :
  forall I ev s e s', mreach I s -> well_formed e -> upsert_multi I ev s e = (s', Ok tt) ->
  forall f, entity_vector I s' (m_id e) f = match assoc f (m_vecs e) with Some v => v | None => entity_vector I s (m_id e) f end.
Proof. exact get_after_upsert_multi. Qed.
Example entity_read_after_write_ex :
  let s := two_entities in let e := ent "p" [("body", v01)] in
  well_formed e /\ snd (upsert_multi list_index free_env s e) = Ok tt /\
  let s' := fst (upsert_multi list_index free_env s e) in
  entity_vector _ s' "p" "body" = Some v01 /\ entity_vector _ s' "p" "title" = Some v10 /\ entity_vector _ s' "p" "x" = None.
Proof.
  split; [split; [repeat constructor; cbn; tauto|]|repeat split; vm_compute; reflexivity].
  intros f v [[= <- <-]|[]]. repeat constructor.
Qed.

(** An upsert of one entity does not change what is read for another, provided no
    "id___field" of the first is an "id___field" of the second. *)
Theorem entity_isolation_partial :
  forall I ev s e s' id, mreach I s -> NoDup (map fst (m_vecs e)) -> id <> m_id e ->
  (forall f g, In f (map fst (m_vecs e)) -> (m_id e ++ "___" ++ f <> id ++ "___" ++ g)%string) ->
  upsert_multi I ev s e = (s', Ok tt) -> get_multi I s' id = get_multi I s id.
Proof. exact other_after_upsert_multi. Qed.
(** In particular when neither id has an underscore. *)
Theorem entity_isolation_no_underscore_partial :
  forall I ev s e s' id, mreach I s -> NoDup (map fst (m_vecs e)) -> id <> m_id e ->
  no_underscore (m_id e) -> no_underscore id ->
  upsert_multi I ev s e = (s', Ok tt) -> get_multi I s' id = get_multi I s id.
Proof.
  intros I ev s e s' id R N Hne Ha Hb H. apply (other_after_upsert_multi I ev s e s' id); auto.
  intros f g _ E. apply Hne. symmetry. exact (composite_inj _ _ _ _ Ha Hb E).
Qed.
Example entity_isolation_ex :
  no_underscore "p" /\ no_underscore "q" /\ snd (upsert_multi list_index free_env two_entities (ent "p" [("body", v01)])) = Ok tt /\
  entity_vector _ (fst (upsert_multi list_index free_env two_entities (ent "p" [("body", v01)]))) "q" "title" = Some v01.
Proof. repeat split; vm_compute; try reflexivity; discriminate. Qed.
(** Finding: ids with underscores collide, and the later entity takes the row. *)
Theorem entity_isolation_refuted :
  exists s e s', mreach list_index s /\ well_formed e /\ upsert_multi list_index free_env s e = (s', Ok tt) /\ m_id e <> "a" /\
    entity_vector _ s "a" "b___c" = Some v10 /\ entity_vector _ s' "a" "b___c" = None.
Proof.
  exists (after_multi [ent "a" [("b___c", v10)]]), (ent "a___b" [("c", v01)]), (after_multi [ent "a" [("b___c", v10)]; ent "a___b" [("c", v01)]]).
  split; [apply after_multi_reach|]. split; [split; [repeat constructor; cbn; tauto|intros f v [[= <- <-]|[]]; repeat constructor]|].
  repeat split; try discriminate; vm_compute; reflexivity.
Qed.

(** A failing upsert changes nothing that can be read. *)
Theorem entity_upsert_all_or_nothing :
  forall I ev s e s' r, upsert_multi I ev s e = (s', r) -> r <> Ok tt ->
  st_db I s' = st_db I s /\ (forall id, get_multi I s' id = get_multi I s id) /\ forall id, get_by_id I s' id = get_by_id I s id.
Proof.
  intros I ev s e s' r H Hr. destruct (upsert_multi_fail _ _ _ _ _ _ H Hr) as [A B]. split; auto.
  split; intros id; unfold get_multi, get_by_id; rewrite A, B; reflexivity.
Qed.
Example entity_upsert_all_or_nothing_ex :
  snd (upsert_multi list_index free_env two_entities {| m_id := "p"; m_vecs := [("title", Some v01); ("bad", None)]; m_meta := None; m_content := "" |}) <> Ok tt.
Proof. vm_compute. discriminate. Qed.

(** Deleting an entity removes it; every other entity reads as before, and so does every
    embedding that does not belong to it. *)
Theorem entity_delete_exact :
  forall I ev s id s', delete_multi I ev s id = (s', Ok tt) ->
  get_multi I s' id = Err ENotFound /\
  (forall id', id' <> id -> get_multi I s' id' = get_multi I s id') /\
  forall r, In r (t_rows (st_db I s')) <-> In r (t_rows (st_db I s)) /\ ~ exists m, r_meta r = Some m /\ assoc "_entity_id" m = Some id.
Proof.
  intros I ev s id s' H. unfold delete_multi in H. destruct (st_closed I s) eqn:C; [discriminate|]. destruct (negb (ev_ok ev 0)); [discriminate|].
  destruct (negb (ev_ok ev 1)); [discriminate|]. injection H as <-. unfold get_multi. cbn [st_closed st_db with_ix with_db t_rows with_rows]. rewrite C.
  split; [|split].
  - rewrite filter_filter. rewrite (filter_none _ (t_rows (st_db I s))); [reflexivity|]. intros r _. destruct (of_entity id r); reflexivity.
  - intros id' Hne. rewrite filter_filter. erewrite filter_ext; [reflexivity|]. intros r. cbv beta. destruct (of_entity id r) eqn:E1; [|reflexivity].
    destruct (of_entity id' r) eqn:E2; [|reflexivity]. exfalso. apply of_entity_iff in E1 as (m & A & B). apply of_entity_iff in E2 as (m' & A' & B'). congruence.
  - intros r. rewrite filter_In, negb_true_iff, <- of_entity_iff. destruct (of_entity id r); split; intros [X Y]; split; auto; try discriminate. exfalso. auto.
Qed.
Theorem entity_delete_failure_changes_nothing :
  forall I ev s id s' r, delete_multi I ev s id = (s', r) -> r <> Ok tt -> s' = s.
Proof.
  intros I ev s id s' r. unfold delete_multi. destruct (st_closed I s); [intros [= <- <-]; auto|]. destruct (negb (ev_ok ev 0)); [intros [= <- <-]; auto|].
  destruct (negb (ev_ok ev 1)); [intros [= <- <-]; auto|]. intros [= <- <-]. congruence.
Qed.
Example entity_delete_ex :
  snd (delete_multi list_index free_env two_entities "p") = Ok tt /\
  entity_vector _ (fst (delete_multi list_index free_env two_entities "p")) "q" "title" = Some v01.
Proof. split; vm_compute; reflexivity. Qed.

(** Finding: the content of an entity is that of its oldest row, so an upsert that names
    only some fields leaves the old content in place. *)
Theorem entity_content_current_refuted :
  exists s e s', mreach list_index s /\ upsert_multi list_index free_env s e = (s', Ok tt) /\
    m_content e = "new" /\ match get_multi list_index s' (m_id e) with Ok x => m_content x = "text of p" | _ => False end.
Proof.
  exists two_entities, {| m_id := "p"; m_vecs := [("body", Some v01)]; m_meta := None; m_content := "new" |}. eexists.
  split; [apply after_multi_reach|]. split; [vm_compute; reflexivity|]. split; vm_compute; reflexivity.
Qed.
(** Finding: rows refer to a document with the entity's id, so where foreign keys are
    enforced an entity with a vector can only be stored if such a document exists. *)
Theorem entity_needs_document :
  forall I ev s e, ev_fk ev = true -> m_vecs e <> [] ->
  (forall d, In d (t_docs (st_db I s)) -> d_id d <> m_id e) -> snd (upsert_multi I ev s e) <> Ok tt.
Proof.
  intros I ev s e Hfk Hv Hd. unfold upsert_multi. destruct (st_closed I s); [discriminate|]. destruct (negb (ev_ok ev 0)); [discriminate|].
  destruct (m_vecs e) as [|[f v] vs] eqn:E; [congruence|]. cbn [multi_rows]. destruct (encode_vector v); try (cbn; discriminate). destruct (ev_ok ev 1); [|cbn; discriminate].
  assert (H : insert_row (ev_fk ev) (st_db I s) (field_row e f a) = None).
  { unfold insert_row, fk_ok. rewrite Hfk. cbn [r_coll r_doc field_row].
    assert (existsb (fun y => String.eqb (d_id y) (m_id e)) (t_docs (st_db I s)) = false) as ->.
    { destruct (existsb _ _) eqn:M; auto. exfalso. apply existsb_exists in M as (d & Hin & Hq). apply String.eqb_eq in Hq. exact (Hd _ Hin Hq). }
    rewrite ?andb_false_r. reflexivity. }
  rewrite H. cbn. discriminate.
Qed.
Theorem entity_store_accepts_refuted :
  exists s e, mreach list_index s /\ well_formed e /\ st_closed _ s = false /\ snd (upsert_multi list_index good_env s e) = Err EOther.
Proof.
  exists blank, (ent "p" [("title", v10)]). split; [exact (after_multi_reach [])|]. split; [split; [repeat constructor; cbn; tauto|intros f v [[= <- <-]|[]]; repeat constructor]|].
  split; vm_compute; reflexivity.
Qed.

(** ** C81 *)
(** A multi-vector search searches every requested field that has a query, skipping
    failing ones, and returns each entity found once, under its own id, scored by the
    chosen combination of its weighted scores, the TopK best first (all of them when TopK
    is not positive) provided the combined scores are numbers. *)
Theorem multi_search_exact :
  forall I srt order noise m sc s qs o out, (forall l, Permutation (order l) l) ->
  search_multi I srt order noise m sc s qs o = Ok out ->
  exists l all, field_results I srt noise m sc s o qs l /\
    NoDup (map (fun x : scored => e_id (fst x)) all) /\
    (forall id, In id (map (fun x : scored => e_id (fst x)) all) <-> found l id) /\
    (forall x, In x all -> entity_answer o l (e_id (fst x)) x) /\
    ((forall x, In x all -> not_nan (snd x)) ->
     is_topk (fun a b : scored => fgt (snd a) (snd b)) (if (0 <? o_topk (mv_opts o))%Z then Z.to_nat (o_topk (mv_opts o)) else length all) all out).
Proof.
  intros I srt order noise m sc s qs o out Ho H. destruct (search_multi_lemma _ _ _ _ _ _ _ _ _ _ Ho H) as (l & all & F & N & Hi & Ha & E).
  exists l, all. split; auto. split; auto. split; auto. split; auto. intros Hn.
  assert (W : weak_order_on by_score all) by (apply (weak_order_desc snd); exact Hn). cbv zeta in E. rewrite E.
  destruct (0 <? _)%Z.
  - apply topk_of_sort; auto. apply ex_sort_ok.
  - rewrite <- (firstn_all (ex_sort by_score all)), <- (Permutation_length (ex_sort_perm by_score all)). apply topk_of_sort; auto. apply ex_sort_ok.
Qed.
(** Nothing but a closed store makes it fail, as long as no field search panics. *)
Theorem multi_search_succeeds :
  forall I srt order noise m sc s qs o, st_closed I s = false ->
  (forall f q, In (f, q) qs -> search I srt noise m sc s q (field_opts (mv_opts o) f) <> Panic) ->
  exists out, search_multi I srt order noise m sc s qs o = Ok out.
Proof.
  intros I srt order noise m sc s qs o C H. unfold search_multi. rewrite C.
  assert (X : exists hs, collect_hits I srt noise m sc s o qs = Ok hs).
  { induction qs as [|[f q] qs IH]; [exists []; reflexivity|]. cbn [collect_hits]. destruct IH as (hs & E); [intros; apply H; right; auto|].
    destruct (_ && _); [exists hs; exact E|]. destruct (search I srt noise m sc s q _) eqn:Es; [|exists hs; exact E|exfalso; eapply H; [left; reflexivity|exact Es]].
    rewrite E. cbn. eexists. reflexivity. }
  destruct X as (hs & ->). cbn. eexists. reflexivity.
Qed.
Definition mopts (k : Z) (a : agg) : mvopts := {| mv_fields := []; mv_weights := [("title", f32_of_Z 3)]; mv_agg := a; mv_opts := opts "" k [] f_zero |}.
Definition both_queries : list (string * option (list N)) := [("title", Some v10); ("body", Some v10)].
Example multi_search_ex :
  let r a := search_multi list_index (isort by_score) (fun l => l) no_noise Linear cosine_scorer two_entities both_queries (mopts 5 a) in
  ids_of (r AMax) = ["p"; "q"] /\ ids_of (r AAverage) = ["p"; "q"] /\
  match r AMax, r AMin with Ok ((_, x) :: _), Ok ((_, y) :: _) => flt y x = true | _, _ => False end.
Proof. cbv zeta. split; [vm_compute; reflexivity|]. split; vm_compute; reflexivity. Qed.
(** Finding: the combination covers only fields in which the entity made the TopK of that
    field, so with TopK = 1 an entity that is second in every field is not returned at
    all, although its total is the largest. *)
Definition three_entities : store list_index :=
  after_multi [ent "a" [("f", v10); ("g", v01)]; ent "b" [("f", v01); ("g", v10)]; ent "c" [("f", v11); ("g", v11)]].
Theorem multi_search_best_total_refuted :
  let ask k := search_multi list_index (isort by_score) (fun l => l) no_noise Linear cosine_scorer three_entities
                 [("f", Some v10); ("g", Some v10)] {| mv_fields := []; mv_weights := []; mv_agg := ASum; mv_opts := opts "" k [] (f64_of_Z (-2)) |} in
  mreach list_index three_entities /\ hd_error (ids_of (ask 3%Z)) = Some "c" /\ exists id, ids_of (ask 1%Z) = [id] /\ id <> "c".
Proof.
  cbv zeta. split; [apply after_multi_reach|]. split; [vm_compute; reflexivity|]. eexists. split; [vm_compute; reflexivity|]. discriminate.
Qed.

Print Assumptions entity_read_after_write.
Print Assumptions entity_isolation_partial.
Print Assumptions entity_isolation_no_underscore_partial.
Print Assumptions entity_isolation_refuted.
Print Assumptions entity_upsert_all_or_nothing.
Print Assumptions entity_delete_exact.
Print Assumptions entity_delete_failure_changes_nothing.
Print Assumptions entity_content_current_refuted.
Print Assumptions entity_needs_document.
Print Assumptions entity_store_accepts_refuted.
Print Assumptions multi_search_exact.
Print Assumptions multi_search_succeeds.
Print Assumptions multi_search_best_total_refuted.
