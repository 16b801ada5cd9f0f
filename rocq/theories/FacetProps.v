(** C26, C73, C74: faceted search, for every set of facets, metadata and reachable
    store. *)
From Coq Require Import String Ascii List NArith ZArith Bool Permutation.
From Verif Require Import Base Floats64 TopK EncodingModel DimensionModel SimilarityModel StoreModel StoreSpec StoreProofs StoreInv StoreProofs2 StoreProofs3 StoreProps
  SearchModel SearchSpec SearchProofs SearchProps SqlModel FilterModel FilterSpec FilterProofs FilterProofs2 FilterProps FacetModel FacetSpec FacetProofs.
Import ListNotations.
Open Scope string_scope.
Open Scope list_scope.

(** ** C26 *)
(** The text built for a set of plain facets, none of which is an OR group of several
    alternatives (or for a single facet of any shape), is empty only if all metadata is
    accepted, and otherwise selects a row exactly when all facets accept its metadata. *)
Theorem facet_clause_meaning_partial :
  forall N fs m d r, casts_numerals N -> r_meta r = Some m ->
  Forall (fun kf => plain_field (fst kf) /\ plain_facet N (fst kf) (snd kf) m) fs ->
  Forall (fun kf => ~ or_group (snd kf)) fs \/ length fs = 1 ->
  (facet_where fs = [] -> accepts_all N fs m) /\
  (facet_where fs <> [] -> exists b, clause_of N d (facet_where fs) r = Some b /\ (b = true <-> accepts_all N fs m)).
Proof.
  intros N fs m d r Hc Hm Hp Ho. destruct (where_decides N (coll_name d (r_coll r)) r m fs Hm Hc Hp Ho) as [[A B]|[A (B & C & _)]].
  - split; [auto|]. intros H. congruence.
  - split; [intros H; congruence|]. intros _. unfold clause_of. destruct (eval_text _ _ _ _); try congruence.
    + exists true. split; auto. tauto.
    + exists false. split; auto. split; [discriminate|]. intros H. apply C in H. discriminate.
    + exists false. split; auto. split; [discriminate|]. intros H. apply C in H. discriminate.
Qed.
Definition text (x : string) := GStr x.
Example facet_clause_meaning_partial_ex :
  let fs := [("lang", FNested LNot [FPrefix "c"; FContains "++"]); ("pages", FRange (GInt 5) GNil); ("year", FOther)] in
  casts_numerals integers /\ facet_where fs <> [] /\ Forall (fun kf => plain_field (fst kf) /\ plain_facet integers (fst kf) (snd kf) meta_go) fs /\
  Forall (fun kf => ~ or_group (snd kf)) fs /\ selects (clause_of integers empty_db (facet_where fs)) (row_with meta_go) = true /\
  selects (clause_of integers empty_db (facet_where fs)) (row_with [("lang", "C++"); ("pages", "12")]) = false.
Proof.
  cbv zeta. split; [apply integers_cast|]. split; [discriminate|]. split; [|split; [|split; vm_compute; reflexivity]].
  - assert (P : forall k, k <> "" -> has_char is_quote k = false -> has_char (Ascii.eqb ".") k = false -> plain_field k) by (intros; repeat split; auto).
    constructor; [|constructor; [|constructor; [|constructor]]]; cbn [fst snd]; (split; [apply P; [discriminate|reflexivity..]|]).
    + apply plain_nested. split; [discriminate|]. split; [|intros _; discriminate]. constructor; [|constructor; [|constructor]]; (split; [reflexivity|discriminate]).
    + split; [right|left; reflexivity]. split; [discriminate|]. intros a [= <-]. vm_compute. discriminate.
    + exact Logic.I.
  - repeat constructor; intros [].
Qed.

(** Two alternatives for one field beside another facet: the text lets a row pass that
    the other facet rejects, since OR binds weaker than AND. *)
Theorem facet_or_group_refuted :
  exists fs m, Forall (fun kf => plain_field (fst kf) /\ plain_facet integers (fst kf) (snd kf) m) fs /\
    clause_of integers empty_db (facet_where fs) (row_with m) = Some true /\ ~ accepts_all integers fs m.
Proof.
  exists [("lang", FNested LOr [FEquals [text "go"]; FEquals [text "c"]]); ("kind", FEquals [text "book"])], [("lang", "go"); ("kind", "blog")].
  split; [|split].
  - constructor; [|constructor; [|constructor]]; cbn [fst snd]; (split; [repeat split; try discriminate; reflexivity|]).
    + apply plain_nested. split; [discriminate|]. split; [|discriminate]. repeat constructor; try (eexists; reflexivity); cbn; discriminate.
    + eexists. reflexivity.
  - vm_compute. reflexivity.
  - intros H. inversion H as [|? ? _ H2]; subst. inversion H2 as [|? ? H3 _]; subst. destruct H3 as (a & [= <-] & E). discriminate.
Qed.

(** ** C73 *)
(** Every search with a facet that has a condition, or with a metadata filter, fails,
    whatever is stored. *)
Theorem faceted_search_refuted :
  forall I srt gsrt scan N sc s q o fs want maxv,
  st_closed I s = false -> Exists (fun kf => ~ vacuous (snd kf)) fs \/ o_filter o <> [] ->
  search_facets I srt gsrt scan N sc s q o fs want maxv = Err EOther.
Proof. intros I srt gsrt scan N sc s q o fs want maxv. exact (facets_fail I srt gsrt scan N sc s q o fs want maxv). Qed.
Example faceted_search_refuted_ex :
  reachable list_index fk_env two_langs /\ (exists e m, get_by_id list_index two_langs "a" = Ok e /\ e_meta e = Some m /\ accepts integers "lang" (FEquals [text "go"]) m) /\
  search_facets list_index (isort by_score) (isort more) (fun l => l) integers cosine_scorer two_langs v10 (opts "" 5 [] f_zero)
    [("lang", FEquals [text "go"])] false 0 = Err EOther.
Proof.
  split; [apply filled_reachable|]. split; [|vm_compute; reflexivity]. eexists. eexists. split; [vm_compute; reflexivity|]. split; [reflexivity|].
  exists "go". split; reflexivity.
Qed.

(** Without conditions, and with at most ten times TopK embeddings in the collection
    (or no TopK), the search returns the best of exactly the embeddings of the
    collection that reach the threshold. *)
Theorem faceted_search_exact_partial :
  forall I srt gsrt scan N envs sc s q o fs want maxv,
  sort_ok by_score srt -> (forall l, Permutation l (scan l)) -> reachable I envs s -> st_closed I s = false ->
  (forall id e, get_by_id I s id = Ok e -> not_nan (score sc o q (without_acl e))) ->
  Forall (fun kf => vacuous (snd kf)) fs -> o_filter o = [] ->
  ((0 < o_topk o)%Z -> at_most I s o (Z.to_nat (o_topk o * 10))) ->
  exists out counts all, search_facets I srt gsrt scan N sc s q o fs want maxv = Ok (out, counts) /\
    lists_stored I s (fun e => in_collection o e /\ above_threshold o (score sc o q e)) (score sc o q) all /\
    is_topk by_score (result_count o) all out.
Proof. intros I srt gsrt scan N envs sc s q o fs want maxv. rewrite <- topk_count. exact (vacuous_search I srt gsrt scan N sc s envs q o fs want maxv). Qed.
Definition three : store list_index :=
  filled [OUpsert (emb_meta "a" v10 [("lang", "go")]); OUpsert (emb_meta "b" v01 [("lang", "c")]); OUpsert (emb_meta "c" v01 [("lang", "go")])].
Example faceted_search_exact_partial_ex :
  reachable list_index fk_env three /\
  match search_facets list_index (isort by_score) (isort more) (fun l => l) integers cosine_scorer three v01 (opts "" 0 [] f_zero) [("lang", FOther)] true 0 with
  | Ok (out, counts) => ids_of (Ok out) = ["c"; "b"; "a"] /\ map fr_values counts = [[("go", 2); ("c", 1)]]
  | _ => False
  end.
Proof. split; [apply filled_reachable|]. vm_compute. auto. Qed.

(** With more than ten times TopK embeddings the best one can be missed. *)
Definition eleven : store list_index :=
  filled (map (fun n => OUpsert (emb_meta (String (ascii_of_nat (97 + n)) "") v01 [])) (seq 0 10) ++ [OUpsert (emb_meta "z" v10 [])]).
Theorem faceted_search_limit_refuted :
  exists e0 out counts, reachable list_index fk_env eleven /\ get_by_id list_index eleven "z" = Ok e0 /\
    search_facets list_index (isort by_score) (isort more) (fun l => l) integers cosine_scorer eleven v10 (opts "" 1 [] f_zero) [] false 0 = Ok (out, counts) /\
    Forall (fun x => flt (snd x) (cosine v10 (vec_of e0)) = true) out.
Proof.
  eexists. eexists. eexists. split; [apply filled_reachable|]. split; [vm_compute; reflexivity|]. split; [vm_compute; reflexivity|].
  constructor; [vm_compute; reflexivity|constructor].
Qed.

(** ** C74 *)
(** When every stored embedding has metadata, each facet reported lists the most
    frequent of exactly the values its field has, with the number of embeddings that
    have them, and their sum; a field with a value is not left out. *)
Theorem facet_counts_exact_partial :
  forall I srt gsrt scan N envs sc s q o fs maxv out counts,
  reachable I envs s -> sort_ok more gsrt -> Forall (fun kf => plain_field (fst kf)) fs ->
  (forall id e, get_by_id I s id = Ok e -> e_meta e <> None) ->
  search_facets I srt gsrt scan N sc s q o fs true maxv = Ok (out, counts) ->
  (forall r, In r counts -> In (fr_field r) (map fst fs) /\
     exists all, NoDup (map fst all) /\ (forall v n, In (v, n) all <-> 0 < n /\ counted I s (fr_field r) v n) /\
       is_topk more (if Z.leb maxv 0 then 10 else Z.to_nat maxv) all (fr_values r) /\ fr_total r = list_sum (map snd (fr_values r))) /\
  (forall k v n, In k (map fst fs) -> 0 < n -> counted I s k v n -> exists r, In r counts /\ fr_field r = k).
Proof.
  intros I srt gsrt scan N envs sc s q o fs maxv out counts R Hs Hk Hm H. unfold search_facets in H.
  destruct (st_closed I s) eqn:C; [discriminate|]. destruct (fetch_facets _ _ _ _ _); try discriminate. cbn [bind] in H. injection H as _ <-.
  rewrite Forall_forall in Hk. split.
  - intros r Hr. unfold compute_facets in Hr. apply in_flat_map in Hr as ((k & f) & Hin & Hr). cbn [fst] in Hr.
    destruct (facet_counts_spec I gsrt s envs maxv k R C (Hk _ Hin) Hs Hm) as (all & A & B & D).
    destruct (facet_counts gsrt (st_db I s) maxv k) as [r'|]; [|destruct Hr]. destruct Hr as [<-|[]]. destruct D as (-> & D1 & D2).
    split; [apply in_map_iff; exists (k, f); auto|]. exists all. auto.
  - intros k v n Hin Hn Hcnt. apply in_map_iff in Hin as ((k' & f) & <- & Hin). cbn [fst] in *.
    destruct (facet_counts_spec I gsrt s envs maxv k' R C (Hk _ Hin) Hs Hm) as (all & A & B & D).
    destruct (facet_counts gsrt (st_db I s) maxv k') as [r|] eqn:E.
    + exists r. split; [|apply D]. apply in_flat_map. exists (k', f). split; auto. cbn [fst]. rewrite E. left. reflexivity.
    + assert (X : In (v, n) all) by (apply B; auto). rewrite D in X. destruct X.
Qed.
Example facet_counts_exact_partial_ex :
  match search_facets list_index (isort by_score) (isort more) (fun l => l) integers cosine_scorer three v01 (opts "" 0 [] f_zero) [("lang", FOther)] true 1 with
  | Ok (out, counts) => map fr_values counts = [[("go", 2)]] /\ map fr_total counts = [2]
  | _ => False
  end.
Proof. vm_compute. auto. Qed.

(** One embedding without metadata makes every count disappear. *)
Theorem facet_counts_refuted :
  let s := filled [OUpsert (emb_meta "a" v10 [("lang", "go")]); OUpsert (emb_nometa "b" v01)] in
  reachable list_index fk_env s /\ counted list_index s "lang" "go" 1 /\
  exists out, search_facets list_index (isort by_score) (isort more) (fun l => l) integers cosine_scorer s v01 (opts "" 0 [] f_zero) [("lang", FOther)] true 0 = Ok (out, []).
Proof.
  cbv zeta. set (s := filled _). assert (R : reachable list_index fk_env s) by apply filled_reachable. split; [exact R|]. split.
  - exact (counted_rows list_index s fk_env "lang" "go" R eq_refl).
  - eexists. vm_compute. reflexivity.
Qed.

Print Assumptions facet_clause_meaning_partial.
Print Assumptions facet_or_group_refuted.
Print Assumptions faceted_search_refuted.
Print Assumptions faceted_search_exact_partial.
Print Assumptions faceted_search_limit_refuted.
Print Assumptions facet_counts_exact_partial.
Print Assumptions facet_counts_refuted.
