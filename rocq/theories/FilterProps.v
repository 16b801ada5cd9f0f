(** C24, C25, C71, C72: metadata filters, for every filter, metadata, reachable store
    and reading of numerals. *)
From Coq Require Import String Ascii List NArith ZArith Bool Permutation.
From Verif Require Import Base Floats64 TopK EncodingModel DimensionModel SimilarityModel StoreModel StoreSpec StoreProofs StoreInv StoreProofs2 StoreProofs3 StoreProps
  SearchModel SearchSpec SearchProofs SearchProps SqlModel FilterModel FilterSpec FilterProofs FilterProofs2.
Import ListNotations.
Open Scope string_scope.
Open Scope list_scope.

(** *** examples *)
Definition lang_go := XCmp CEQ "lang" (GStr "go").
Definition pages (op : cmp) (z : Z) := XCmp op "pages" (GInt z).
Definition meta_go : smap := [("lang", "go"); ("pages", "12")].
Definition row_with (m : smap) : row :=
  {| r_id := "a"; r_coll := 1; r_blob := []; r_content := ""; r_doc := None; r_meta := Some m; r_acl := None |}.
(** Does the SQL translation of [f] select a row with metadata [m]? *)
Definition sql_selects (N : numerals) (f : fexpr) (m : smap) : outcome bool :=
  bind (build_sql f) (fun t => Ok (selects (clause_of N empty_db t) (row_with m))).

(** ** C24 *)
(** SQL LIKE, as the model evaluates it, is pattern matching. *)
Theorem like_is_pattern_match : forall p t, sql_like p t = true <-> like_matches p t.
Proof. exact sql_like_spec. Qed.
(** Case folding concerns exactly the 26 letters. *)
Theorem letters_fold :
  forall c, ascii_lower c = match index 0 (String c "") "ABCDEFGHIJKLMNOPQRSTUVWXYZ" with
                            | Some n => match get n "abcdefghijklmnopqrstuvwxyz" with Some d => d | None => c end
                            | None => c
                            end.
Proof. intros [[] [] [] [] [] [] [] []]; vm_compute; reflexivity. Qed.
Example like_is_pattern_match_ex : like_matches "G_%ng" "golang" /\ ~ like_matches "g_" "golang".
Proof.
  split; [apply sql_like_spec; vm_compute; reflexivity|]. intros H. apply sql_like_spec in H. vm_compute in H. discriminate.
Qed.

(** The SQL translation of an expressible filter selects exactly the rows whose
    metadata satisfies it. *)
Theorem sql_filter_meaning_partial :
  forall N f m d r, casts_numerals N -> expressible N f m -> r_meta r = Some m ->
  exists t, build_sql f = Ok t /\ t <> [] /\
    (satisfies N f m -> clause_of N d t r = Some true) /\ (~ satisfies N f m -> clause_of N d t r = Some false).
Proof.
  intros N f m d r Hc Hx Hm. destruct (sql_meaning N (coll_name d (r_coll r)) r m Hm Hc f Hx) as (t & B & Ne & E & T).
  exists t. split; auto. split; auto. unfold clause_of. rewrite <- T. destruct (eval_text _ _ _ t); split; intros; auto; congruence.
Qed.
Definition ex_filter : fexpr :=
  XAnd [lang_go; XOr [XBetween "pages" (Some [GInt 10; GInt 20]); XLike "title" "The%"]; XIn "lang" (Some [GStr "c"; GStr "go"]); XCmp CNE "lang" (GStr "c")].
Lemma integers_cast : casts_numerals integers.
Proof. intros a x. cbn. destruct (integer a); cbn; [congruence|discriminate]. Qed.
Example sql_filter_meaning_partial_ex : casts_numerals integers /\ expressible integers ex_filter meta_go /\ satisfies integers ex_filter meta_go.
Proof.
  split; [exact integers_cast|]. split.
  - assert (Hp : plain_field "pages") by (repeat split; discriminate). assert (Hl : plain_field "lang") by (repeat split; discriminate).
    assert (Ht : plain_field "title") by (repeat split; discriminate).
    cbn [ex_filter expressible]. split; [discriminate|]. split; [split; [exact Hl|eexists; reflexivity]|]. split.
    { split; [discriminate|]. split; [|split; [exact Ht|exact I]]. split; [exact Hp|]. split; [discriminate|]. split; [discriminate|]. intros a [= <-]. discriminate. }
    split; [split; [exact Hl|repeat constructor; eexists; reflexivity]|]. split; [|exact I]. split; [exact Hl|]. split; [eexists; reflexivity|discriminate].
  - cbn [ex_filter satisfies]. split; [exists "go"; split; reflexivity|]. split.
    { left. exists "12". split; [reflexivity|]. split; (eexists; eexists; split; [reflexivity|split; [reflexivity|vm_compute; reflexivity]]). }
    split; [exists "go", (GStr "go"); split; [reflexivity|]; split; [right; left; reflexivity|reflexivity]|]. split; [|exact I].
    intros a [= <-]. discriminate.
Qed.

(** The in-memory evaluation decides the same meaning, for the filters it evaluates
    as written. *)
Theorem memory_filter_meaning_partial :
  forall N fm f m, evaluable N f m -> exists b, mem_eval N fm f m = Ok b /\ (b = true <-> satisfies N f m).
Proof. intros N fm f m H. exact (mem_meaning N fm m f H). Qed.
Example memory_filter_meaning_partial_ex :
  evaluable integers (XAnd [XNot [lang_go]; pages CGT 10]) [("lang", "c"); ("pages", "12")] /\
  satisfies integers (XAnd [XNot [lang_go]; pages CGT 10]) [("lang", "c"); ("pages", "12")].
Proof.
  split.
  - cbn. split; [split; [exists "go"; split; reflexivity|exact I]|]. split; [|exact I]. split; [exact I|]. intros a [= <-]. split; [discriminate|reflexivity].
  - cbn [satisfies]. split; [intros (a & [= <-] & H); discriminate|]. split; [|exact I]. exists "12". split; [reflexivity|].
    eexists. eexists. split; [reflexivity|]. split; [reflexivity|vm_compute; reflexivity].
Qed.

(** So the two evaluators agree on filters that are both. *)
Theorem filters_agree_partial :
  forall N fm f m d r, casts_numerals N -> expressible N f m -> evaluable N f m -> r_meta r = Some m ->
  exists t b, build_sql f = Ok t /\ clause_of N d t r = Some b /\ mem_eval N fm f m = Ok b.
Proof.
  intros N fm f m d r Hc Hx He Hm. destruct (sql_filter_meaning_partial N f m d r Hc Hx Hm) as (t & B & _ & T & F).
  destruct (mem_meaning N fm m f He) as (b & E & S). exists t, b. split; auto. split; auto. destruct b.
  - apply T, S. reflexivity.
  - apply F. intros H. apply S in H. discriminate.
Qed.
Example filters_agree_partial_ex :
  expressible integers (XOr [lang_go; pages CGT 20]) meta_go /\ evaluable integers (XOr [lang_go; pages CGT 20]) meta_go.
Proof.
  split.
  - cbn. split; [discriminate|]. split; [split; [repeat split; discriminate|eexists; reflexivity]|]. split; [|exact I].
    split; [repeat split; discriminate|]. split; [discriminate|]. intros a [= <-]. discriminate.
  - cbn. split; [exists "go"; split; reflexivity|]. split; [|exact I]. split; [exact I|]. intros a [= <-]. split; [discriminate|reflexivity].
Qed.

(** They disagree in general. A negation is dropped from the SQL; "different" is
    unknown on an absent field; a number never equals a stored text in SQL; two
    numerals of one number are equal in memory only; a text that is no number counts
    as 0 in an SQL range; LIKE ignores case only in SQL; a dotted field name means a
    nested member only in SQL. *)
Theorem filters_agree_refuted :
  Forall (fun '((f, m, sql), mem) => sql_selects integers f m = Ok sql /\ mem_eval integers plain_formats f m = Ok mem /\ sql <> mem)
   [ (XAnd [lang_go; XNot [XCmp CEQ "tier" (GStr "free")]], [("lang", "go"); ("tier", "free")], true, false);
     (XCmp CNE "tier" (GStr "free"), [("lang", "go")], false, true);
     (XCmp CEQ "pages" (GInt 12), [("pages", "12")], false, true);
     (XCmp CEQ "pages" (GStr "012"), [("pages", "12")], false, true);
     (XCmp CLT "pages" (GInt 5), [("pages", "many")], true, false);
     (XLike "lang" "GO%", [("lang", "golang")], true, false);
     (XCmp CEQ "a.b" (GStr "x"), [("a.b", "x")], false, true) ].
Proof. repeat constructor; try (vm_compute; reflexivity); discriminate. Qed.

(** ** C25 *)
(** DeleteByFilter with an expressible filter, when every stored embedding has
    metadata, removes exactly the embeddings that satisfy it. *)
Theorem delete_by_filter_exact_partial :
  forall I N envs ev s f,
  reachable I envs s -> st_closed I s = false -> (forall n, ev_ok ev n = true) -> casts_numerals N ->
  (exists m, expressible N f m) ->
  (forall id e, get_by_id I s id = Ok e -> exists m, e_meta e = Some m /\ expressible N f m) ->
  exists s', delete_by_filter I N ev s (Some f) = (s', Ok tt) /\ st_closed I s' = false /\
    (forall id e m, get_by_id I s id = Ok e -> e_meta e = Some m ->
       (satisfies N f m -> get_by_id I s' id = Err ENotFound) /\ (~ satisfies N f m -> get_by_id I s' id = Ok e)) /\
    (forall id e, get_by_id I s' id = Ok e -> get_by_id I s id = Ok e).
Proof. exact delete_by_filter_effect. Qed.
Definition two_langs : store list_index :=
  filled [OUpsert (emb_meta "a" v10 [("lang", "go")]); OUpsert (emb_meta "b" v01 [("lang", "c")])].
Example delete_by_filter_exact_partial_ex :
  reachable list_index fk_env two_langs /\ (exists m, expressible integers lang_go m) /\
  (forall id e, get_by_id list_index two_langs id = Ok e -> exists m, e_meta e = Some m /\ expressible integers lang_go m) /\
  (let s' := fst (delete_by_filter list_index integers good_env two_langs (Some lang_go)) in
   get_by_id list_index s' "a" = Err ENotFound /\ get_by_id list_index s' "b" = get_by_id list_index two_langs "b").
Proof.
  assert (X : forall m, expressible integers lang_go m) by (intros m; cbn; split; [repeat split; discriminate|eexists; reflexivity]).
  split; [apply filled_reachable|]. split; [exists []; apply X|]. split; [|split; vm_compute; reflexivity].
  intros id e H. destruct (get_ok_inv list_index _ _ _ H) as (r & _ & F & _ & _ & _ & _ & Hr).
  rewrite <- (get_meta list_index two_langs id e r H F).
  assert (A : forall r, In r (t_rows (st_db _ two_langs)) -> exists m, r_meta r = Some m).
  { vm_compute. intros r0 [<-|[<-|[]]]; eexists; reflexivity. }
  destruct (A r Hr) as [m Hm]. exists m. auto.
Qed.

(** A nil filter, a filter without conditions and a pure negation are refused and
    nothing is deleted. *)
Theorem delete_by_filter_refuses_empty :
  forall I N ev s f, (f = None \/ exists f', f = Some f' /\ build_sql f' = Ok []) ->
  exists e, delete_by_filter I N ev s f = (s, Err e).
Proof.
  intros I N ev s f [->|(f' & -> & B)]; unfold delete_by_filter; [eauto|]. destruct (st_closed I s); [eauto|]. rewrite B. eauto.
Qed.
Example delete_by_filter_refuses_empty_ex : build_sql (XAnd []) = Ok [] /\ build_sql XNil = Ok [] /\ build_sql (XNot [lang_go]) = Ok [].
Proof. repeat split. Qed.

(** A call that does not succeed deletes nothing. *)
Theorem delete_by_filter_all_or_nothing :
  forall I N ev s s' f r, delete_by_filter I N ev s f = (s', r) -> r <> Ok tt -> s' = s.
Proof. exact delete_by_filter_unchanged. Qed.
Definition second_fails : env := {| ev_fk := true; ev_ok := fun n => Nat.eqb n 0; ev_noise := fun _ => f_zero |}.
Example delete_by_filter_all_or_nothing_ex : snd (delete_by_filter list_index integers second_fails two_langs (Some lang_go)) = Err EOther.
Proof. vm_compute. reflexivity. Qed.

(** In general DeleteByFilter deletes rows that do not satisfy the filter: a negated
    condition inside a conjunction is dropped, and a text that is no number counts as 0. *)
Theorem delete_by_filter_only_matching_refuted :
  Forall (fun '(f, m) => exists f', f = Some f' /\ ~ satisfies integers f' m /\
    let s := filled [OUpsert (emb_meta "a" v10 m)] in
    let out := delete_by_filter list_index integers good_env s f in
    snd out = Ok tt /\ (exists e, get_by_id list_index s "a" = Ok e /\ e_meta e = Some m) /\ get_by_id list_index (fst out) "a" = Err ENotFound)
   [ (f_not_in (f_equal None "lang" (GStr "go")) "tier" [GStr "gold"], [("lang", "go"); ("tier", "gold")]);
     (f_less None "pages" (GInt 5), [("pages", "many")]) ].
Proof.
  constructor; [|constructor; [|constructor]].
  - eexists. split; [reflexivity|]. split.
    + cbn [f_not_in f_equal combine satisfies]. intros (_ & H & _). apply H. exists "gold", (GStr "gold"). split; [reflexivity|]. split; [left; reflexivity|reflexivity].
    + cbn zeta. split; [vm_compute; reflexivity|]. split; [eexists; split; [vm_compute; reflexivity|reflexivity]|]. vm_compute. reflexivity.
  - eexists. split; [reflexivity|]. split.
    + cbn [f_less combine satisfies]. intros (a & [= <-] & x & y & H & _). vm_compute in H. discriminate.
    + cbn zeta. split; [vm_compute; reflexivity|]. split; [eexists; split; [vm_compute; reflexivity|reflexivity]|]. vm_compute. reflexivity.
Qed.

(** ** C72 *)
(** Success does not mean that the matching rows are gone: one embedding stored
    without metadata before them makes DeleteByFilter do nothing and report success. *)
Definition emb_nometa (id : string) (v : list N) : embedding :=
  {| e_id := id; e_collid := 0; e_coll := ""; e_vec := Some v; e_content := "text"; e_doc := ""; e_meta := None; e_acl := [] |}.
Theorem delete_by_filter_complete_refuted :
  exists s e m,
    reachable list_index fk_env s /\ get_by_id list_index s "b" = Ok e /\ e_meta e = Some m /\
    expressible integers lang_go m /\ satisfies integers lang_go m /\
    delete_by_filter list_index integers good_env s (Some lang_go) = (s, Ok tt).
Proof.
  exists (filled [OUpsert (emb_nometa "a" v10); OUpsert (emb_meta "b" v01 [("lang", "go")])]). eexists. eexists.
  split; [apply filled_reachable|]. split; [vm_compute; reflexivity|]. split; [reflexivity|].
  split; [cbn; split; [repeat split; discriminate|eexists; reflexivity]|]. split; [exists "go"; split; reflexivity|]. vm_compute. reflexivity.
Qed.

(** ** C71 *)
(** Without a pre-filter the search returns, best first, the TopK best (all when TopK
    is not positive) of exactly the stored embeddings in the collection that pass the
    post-filter. *)
Theorem post_filtered_search_exact_partial :
  forall I N fm srt envs sc s q o post,
  sort_ok by_score srt -> reachable I envs s -> st_closed I s = false ->
  (forall id e, get_by_id I s id = Ok e -> not_nan (sc_sim sc q (vec_of e))) ->
  (forall f id e, post = Some f -> get_by_id I s id = Ok e -> evaluable N f (meta_map e)) ->
  exists out all, advanced_search I srt N fm sc s q o None post = Ok out /\
    lists_stored I s (fun e => in_collection o e /\ wanted N post e) (fun e => sc_sim sc q (vec_of e)) all /\
    is_topk by_score (limit_count o all) all out.
Proof. intros I N fm srt envs sc s q o post. exact (advanced_exact I N fm srt sc s envs q o post). Qed.
Example post_filtered_search_exact_partial_ex :
  let s := filled [OUpsert (emb_meta "a" v10 [("lang", "go")]); OUpsert (emb_meta "b" v01 [("lang", "go")]); OUpsert (emb_meta "c" v11 [("lang", "c")])] in
  (forall m, evaluable integers lang_go m) /\
  ids_of (advanced_search list_index (isort by_score) integers plain_formats cosine_scorer s v01 (opts "" 0 [] f_zero) None (Some lang_go)) = ["b"; "a"].
Proof. split; [intros m; exists "go"; split; reflexivity|vm_compute; reflexivity]. Qed.

(** Every search with a pre-filter that has a condition fails, whatever is stored:
    the statement names the column metadata, which both joined tables have. *)
Theorem pre_filtered_search_refuted :
  forall I N fm srt sc s q o f post t,
  st_closed I s = false -> build_sql f = Ok t -> t <> [] ->
  advanced_search I srt N fm sc s q o (Some f) post = Err EOther.
Proof. exact advanced_refused. Qed.
Example pre_filtered_search_refuted_ex :
  build_sql lang_go = Ok [[ALeaf (LCmp CEQ "lang" (GStr "go"))]] /\
  advanced_search list_index (isort by_score) integers plain_formats cosine_scorer two_langs v10 (opts "" 0 [] f_zero) (Some lang_go) None = Err EOther.
Proof. split; vm_compute; reflexivity. Qed.

(** A negated pre-filter is ignored: the search returns an embedding it excludes. *)
Theorem negated_pre_filter_refuted :
  exists f e out, ~ satisfies integers f (meta_map e) /\ get_by_id list_index two_langs "a" = Ok e /\
    advanced_search list_index (isort by_score) integers plain_formats cosine_scorer two_langs v10 (opts "" 1 [] f_zero) (Some f) None = Ok out /\
    In (without_acl e) (map fst out).
Proof.
  exists (XNot [lang_go]). eexists. eexists. split; [|split; [vm_compute; reflexivity|split; [vm_compute; reflexivity|left; reflexivity]]].
  intros H. apply H. exists "go". split; reflexivity.
Qed.

Print Assumptions like_is_pattern_match.
Print Assumptions letters_fold.
Print Assumptions sql_filter_meaning_partial.
Print Assumptions memory_filter_meaning_partial.
Print Assumptions filters_agree_partial.
Print Assumptions filters_agree_refuted.
Print Assumptions delete_by_filter_exact_partial.
Print Assumptions delete_by_filter_refuses_empty.
Print Assumptions delete_by_filter_all_or_nothing.
Print Assumptions delete_by_filter_only_matching_refuted.
Print Assumptions delete_by_filter_complete_refuted.
Print Assumptions post_filtered_search_exact_partial.
Print Assumptions pre_filtered_search_refuted.
Print Assumptions negated_pre_filter_refuted.
