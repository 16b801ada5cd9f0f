(** Properties of Dump and Load. *)
From Coq Require Import String List NArith ZArith Bool Lia Permutation.
From Verif Require Import Base Floats64 EncodingModel EncodingSpec DimensionModel StoreModel StoreSpec StoreProofs StoreInv StoreProofs2 StoreProps SearchModel SearchSpec SearchProofs SearchProps
  SqlModel FilterModel FilterSpec FilterProofs FilterProofs2 FilterProps IoModel IoSpec IoProofs.
Import ListNotations.
Open Scope string_scope.
Open Scope list_scope.

Definition as_is (s : string) : string := s.
Definition json_opts : dump_opts := {| do_format := FJson; do_vectors := true; do_filter := None |}.
Definition jsonl_opts : dump_opts := {| do_format := FJsonl; do_vectors := true; do_filter := None |}.
Definition csv_opts : dump_opts := {| do_format := FCsv; do_vectors := true; do_filter := None |}.
Definition plain_load (f : format) : load_opts := {| lo_format := f; lo_skip := false |}.
Definition in_order (l : list row) : list row := rev l.
Lemma in_order_perm l : Permutation l (in_order l).
Proof. apply Permutation_rev. Qed.
Definition all_good (n : nat) : env := good_env.

(** C86: a JSON or JSON-lines dump of any reachable store contains exactly the stored
    embeddings that satisfy the filter (all, without one), each once, with everything but
    its access list, and reports their number; provided their texts are valid UTF-8 and
    their numbers, when dumped, are finite. *)
Theorem dump_exact : forall I utf8 Nm scan (s : store I) envs o,
  reachable I envs s -> st_closed I s = false -> do_format o = FJson \/ do_format o = FJsonl ->
  filter_plain I Nm s (do_filter o) -> (forall l, Permutation l (scan l)) ->
  (forall id e, get_by_id I s id = Ok e -> chosen Nm (do_filter o) e -> valid_texts utf8 e /\ (do_vectors o = true -> finite_vector e)) ->
  exists d, dump_store utf8 I Nm scan s o = Ok (d, length (items_of d)) /\
    (do_format o = FJson -> d = DDoc (items_of d)) /\ (do_format o = FJsonl -> d = DLines (items_of d)) /\
    NoDup (map e_id (items_of d)) /\
    forall x, In x (items_of d) <-> exists e, get_by_id I s (e_id x) = Ok e /\ chosen Nm (do_filter o) e /\ x = exported (do_vectors o) e.
Proof.
  intros I utf8 Nm scan s envs o R C Hf Hp Hs Hv.
  destruct (dump_json_ok I utf8 Nm scan s envs o _ R C Hp Hs eq_refl Hf Hv) as (l & E & N & X).
  destruct Hf as [Hf|Hf]; rewrite Hf in *; [exists (DDoc l)|exists (DLines l)]; cbn [items_of]; (split; [exact E|split; [congruence|split; [congruence|auto]]]).
Qed.
Definition small_library : store list_index := filled [OUpsert (emb_meta "a" v10 [("lang", "en")]); OUpsert (emb_meta "b" v01 [("lang", "fr")])].
Lemma small_reachable : reachable list_index fk_env small_library.
Proof. apply filled_reachable. Qed.
Lemma small_embeddings id e : get_by_id _ small_library id = Ok e -> e = {| e_id := "a"; e_collid := 0; e_coll := "default"; e_vec := Some v10; e_content := "text"; e_doc := ""; e_meta := Some [("lang","en")]; e_acl := [] |}
  \/ e = {| e_id := "b"; e_collid := 0; e_coll := "default"; e_vec := Some v01; e_content := "text"; e_doc := ""; e_meta := Some [("lang","fr")]; e_acl := [] |}.
Proof.
  intros H. pose proof (get_ok_inv _ _ _ _ H) as (r & _ & _ & S & _ & _ & _ & Hin). vm_compute in Hin. destruct Hin as [<-|[<-|[]]]; vm_compute in S; injection S as <-; auto.
Qed.
Example dump_exact_ex :
  (forall id e, get_by_id _ small_library id = Ok e -> chosen integers None e -> valid_texts as_is e /\ (do_vectors json_opts = true -> finite_vector e)) /\
  exists d, dump_store as_is _ integers in_order small_library json_opts = Ok (d, 2) /\ map e_id (items_of d) = ["b"; "a"].
Proof.
  split.
  - intros id e H _. split.
    + unfold valid_texts, as_is. auto 10.
    + intros _ v n. destruct (small_embeddings id e H) as [-> | ->]; cbn [e_vec]; intros [= <-] Hin; cbn in Hin; destruct Hin as [<-|[<-|[]]]; vm_compute; reflexivity.
  - eexists. split; vm_compute; reflexivity.
Qed.

(** C86: one NaN or infinity among the dumped vectors and the whole JSON dump is refused. *)
Theorem dump_refuses_non_finite : forall I utf8 Nm scan (s : store I) envs o id e,
  reachable I envs s -> st_closed I s = false -> filter_plain I Nm s (do_filter o) -> (forall l, Permutation l (scan l)) ->
  do_format o = FJson \/ do_format o = FJsonl -> do_vectors o = true ->
  get_by_id I s id = Ok e -> chosen Nm (do_filter o) e -> ~ finite_vector e ->
  dump_store utf8 I Nm scan s o = Err EOther.
Proof. intros. eapply dump_json_refuses; eauto. Qed.
(** Upsert accepts such vectors. *)
Example dump_refuses_non_finite_ex :
  exists e, get_by_id _ (filled [OUpsert (emb "a" v10); OUpsert (emb "n" vnan)]) "n" = Ok e /\ ~ finite_vector e /\
  dump_store as_is _ integers in_order (filled [OUpsert (emb "a" v10); OUpsert (emb "n" vnan)]) json_opts = Err EOther.
Proof.
  eexists. split; [vm_compute; reflexivity|]. split; [|vm_compute; reflexivity].
  intros H. specialize (H vnan 0x7fc00000%N eq_refl (or_introl eq_refl)). vm_compute in H. discriminate.
Qed.

(** C86: a CSV dump has exactly one record per stored embedding that satisfies the filter. *)
Theorem csv_dump_exact : forall I utf8 Nm scan (s : store I) envs o,
  reachable I envs s -> st_closed I s = false -> filter_plain I Nm s (do_filter o) -> (forall l, Permutation l (scan l)) -> do_format o = FCsv ->
  exists l, dump_store utf8 I Nm scan s o = Ok (DCsv l, length l) /\ NoDup (map (fun '(i, _, _, _, _) => i) l) /\
  forall i c dc m v, In (i, c, dc, m, v) l <->
    exists e, get_by_id I s i = Ok e /\ chosen Nm (do_filter o) e /\ c = e_content e /\ dc = e_doc e /\ m = e_meta e /\ v = if do_vectors o then e_vec e else None.
Proof. intros. eapply dump_csv_ok; eauto. Qed.
Example csv_dump_exact_ex : exists l, dump_store as_is _ integers in_order small_library csv_opts = Ok (DCsv l, 2).
Proof. eexists. vm_compute. reflexivity. Qed.

(** C86, C33: whatever Load reports, it has counted every item of its input exactly once,
    as stored, failed or skipped. *)
Theorem load_report_adds_up : forall I evs o (s : store I) i k s' st,
  load_store I evs o s i k = Some (s', Ok st) ->
  (lo_format o = FJson /\ exists items, as_doc i = Some items /\ im_total st + im_failed st + im_skipped st = length items) \/
  (lo_format o = FJsonl /\ im_total st + im_failed st + im_skipped st = length (as_lines i)).
Proof.
  intros I evs o s i k s' st. unfold load_store. destruct (st_closed I s); [discriminate|]. destruct (lo_format o); try discriminate.
  - destruct (as_doc i) as [items|]; [|discriminate]. intros [= H]. left. split; [reflexivity|]. exists items. split; [reflexivity|]. apply load_items_sum in H. cbn in H. lia.
  - destruct (rounds _ _ _ _ _ _) eqn:E; try discriminate. intros [= <- <-]. right. split; [reflexivity|]. apply rounds_sum in E. cbn in E. lia.
Qed.
Definition three_lines : input := {| as_doc := None; as_lines := [JFits (emb "a" v10); JMisfit; JFits (emb "b" v01)]; as_end := JEof |}.
Example load_report_adds_up_ex : exists s', load_store _ all_good (plain_load FJsonl) (filled []) three_lines 10 = Some (s', Ok {| im_total := 2; im_failed := 1; im_skipped := 0 |}).
Proof. eexists. vm_compute. reflexivity. Qed.

(** C34, for JSON documents without null embeddings: Load comes to an error or a report. *)
Theorem load_json_terminates_partial : forall I envs evs o (s : store I) i k,
  reachable I envs s -> lo_format o = FJson -> (forall items, as_doc i = Some items -> ~ In None items) ->
  exists s' r, load_store I evs o s i k = Some (s', r) /\ r <> Panic.
Proof.
  intros I envs evs o s i k R Hf Hn. unfold load_store. destruct (st_closed I s); [do 2 eexists; split; [reflexivity|discriminate]|]. rewrite Hf.
  destruct (as_doc i) as [items|]; [|do 2 eexists; split; [reflexivity|discriminate]]. specialize (Hn items eq_refl).
  pose proof (reachable_dim I envs s R) as D. destruct (load_items I evs o 0 s no_stats items) as [s' r] eqn:E. exists s', r. split; [reflexivity|].
  clear R. revert Hn D E. generalize 0 as n, no_stats as t. revert s. induction items as [|[e|] items IH]; intros s n t Hn D E; cbn [load_items] in E.
  - injection E as <- <-. discriminate.
  - destruct (import_one_fate I evs o n s e D) as [D' F]. destruct (import_one I evs o n s e) as [s1 f]. cbn [fst snd] in *.
    destruct f; [eapply IH; [|exact D'|exact E]|eapply IH; [|exact D'|exact E]|eapply IH; [|exact D'|exact E]|congruence]; intros X; apply Hn; right; exact X.
  - exfalso. apply Hn. left. reflexivity.
Qed.
Example load_json_terminates_partial_ex : ~ In None [Some (emb "a" v10); Some (emb "b" v01)].
Proof. intros [H|[H|[]]]; discriminate. Qed.
(** C34, for JSON lines: Load returns exactly when the input ends properly; after text that
    is not JSON, a value cut off or a read error it loops for ever. *)
Theorem load_jsonl_terminates_partial : forall I envs evs o (s : store I) i,
  reachable I envs s -> st_closed I s = false -> lo_format o = FJsonl ->
  ((exists k s' r, load_store I evs o s i k = Some (s', r)) <-> as_end i = JEof) /\
  (forall k s' r, load_store I evs o s i k = Some (s', r) -> exists st, r = Ok st).
Proof.
  intros I envs evs o s i R C Hf. pose proof (reachable_dim I envs s R) as D.
  assert (ND : forall e k l n s t s', (0 <= st_dim I s)%Z -> rounds I evs o e k (Running I l n s t) <> Dead I s').
  { clear. intros e. induction k as [|k IH]; intros l n s t s' D; [discriminate|]. cbn [rounds]. destruct l as [|[x|] l]; cbn [jsonl_round].
    - destruct e; [rewrite (proj1 (rounds_done I evs o JEof k)); discriminate|apply IH; exact D].
    - destruct (import_one_fate I evs o n s x D) as [D' F]. destruct (import_one I evs o n s x) as [s1 f]. cbn [fst snd] in *. destruct f; try (apply IH; exact D'). congruence.
    - apply IH. exact D. }
  unfold load_store. rewrite C, Hf. split; [split|].
  - intros (k & s' & r & H). destruct (as_end i); [reflexivity|]. destruct (rounds_broken I evs o k (as_lines i) 0 s no_stats) as [(rest & n' & s1 & t' & E)|(s1 & E)]; rewrite E in H; [discriminate|].
    exfalso. exact (ND _ _ _ _ _ _ _ D E).
  - intros E. exists (S (length (as_lines i))). rewrite E. destruct (rounds_eof I evs o (as_lines i) (S (length (as_lines i))) 0 s no_stats) as [(s' & t' & ->)|(s' & E')]; [lia|eauto|].
    exfalso. exact (ND _ _ _ _ _ _ _ D E').
  - intros k s' r. destruct (rounds _ _ _ _ _ _) eqn:E; try discriminate; intros [= <- <-]; [eauto|]. exfalso. exact (ND _ _ _ _ _ _ _ D E).
Qed.
Example load_jsonl_terminates_partial_ex : as_end three_lines = JEof.
Proof. reflexivity. Qed.
(** C34 as stated is false: one malformed byte makes a JSON-lines load run for ever, and a
    null embedding in a JSON document crashes it. *)
Theorem load_terminates_refuted :
  (exists i, as_lines i = [] /\ forall k, load_store list_index all_good (plain_load FJsonl) (filled []) i k = None) /\
  (exists i k s', as_doc i = Some [None] /\ load_store list_index all_good (plain_load FJson) (filled []) i k = Some (s', Panic)).
Proof.
  split.
  - exists {| as_doc := None; as_lines := []; as_end := JBroken |}. split; [reflexivity|]. intros k.
    destruct (load_store _ _ _ _ _ k) as [[s' r]|] eqn:E; [|reflexivity]. exfalso.
    destruct (load_jsonl_terminates_partial list_index fk_env all_good (plain_load FJsonl) (filled []) {| as_doc := None; as_lines := []; as_end := JBroken |}) as [[T _] _]; try reflexivity.
    + apply filled_reachable.
    + discriminate T. exists k, s', r. exact E.
  - exists {| as_doc := Some [None]; as_lines := []; as_end := JEof |}, 0. eexists. split; reflexivity.
Qed.

(** C87, C33: a dump read back into a store without embeddings restores every embedding of
    the source except for its access list, counting all as stored; provided the target has the collections
    and documents the embeddings refer to, all vectors have one dimension which the target
    accepts, and no statement fails. *)
Theorem dump_load_round_trip : forall I utf8 Nm scan evs (s t : store I) envs envt o lo d n dim,
  reachable I envs s -> reachable I envt t -> st_closed I s = false -> st_closed I t = false ->
  (forall l, Permutation l (scan l)) -> (forall i, ev_ok (evs i) 0 = true) ->
  do_vectors o = true -> do_filter o = None -> do_format o = FJson \/ do_format o = FJsonl -> lo_format lo = do_format o ->
  (forall id e, get_by_id I s id = Ok e ->
     valid_texts utf8 e /\ (exists v, e_vec e = Some v /\ length v = dim) /\
     e_coll e <> "" /\ (exists c, get_collection I t (e_coll e) = Ok c) /\
     (e_doc e = "" \/ exists x, get_document I t (e_doc e) = Ok x)) ->
  (forall id, get_by_id I t id = Err ENotFound) -> st_dim I t = 0%Z \/ st_dim I t = Z.of_nat dim ->
  dump_store utf8 I Nm scan s o = Ok (d, n) ->
  exists t', (exists k0, forall k, k0 <= k -> load_store I evs lo t (as_input d) k = Some (t', Ok {| im_total := n; im_failed := 0; im_skipped := 0 |})) /\
    forall id, get_by_id I t' id = match get_by_id I s id with Ok e => Ok (exported true e) | _ => Err ENotFound end.
Proof.
  intros I utf8 Nm scan evs s t envs envt o lo d n dim R Rt C Ct Hs Ho Hv Hfl Hf Hlf Hsrc Hno Hd Hdump.
  assert (Hp : filter_plain I Nm s (do_filter o)) by (rewrite Hfl; exact Logic.I).
  assert (Hfin : forall id e, get_by_id I s id = Ok e -> chosen Nm (do_filter o) e -> valid_texts utf8 e /\ (do_vectors o = true -> finite_vector e)).
  { intros id e G Ch. split; [apply (Hsrc id e G)|]. intros _ v k Ev Hin. destruct (finite_bits k) eqn:F; [reflexivity|]. exfalso.
    rewrite (dump_json_refuses I utf8 Nm scan s envs o id e R C Hp Hs Hf Hv G Ch) in Hdump; [discriminate|]. intros Fv. specialize (Fv v k Ev Hin). congruence. }
  destruct (dump_json_ok I utf8 Nm scan s envs o _ R C Hp Hs eq_refl Hf Hfin) as (l & E & N1 & X). rewrite E in Hdump. injection Hdump as Ed En.
  rewrite Hv, Hfl in X. pose proof (reachable_colls I envt t Rt) as K.
  destruct (load_restores I evs lo dim l Ho N1 0 t no_stats Ct) as (t' & L & A & B).
  - apply K.
  - apply K.
  - exact Hd.
  - intros e He. apply X in He as (e0 & G & _ & ->). destruct (Hsrc _ _ G) as (_ & (v & Ev & Hl) & Hc & (c & Hg) & Hdoc). cbn [exported e_collid e_coll e_acl e_vec e_doc].
    split; [reflexivity|]. split; [exact Hc|]. split; [reflexivity|]. split.
    { destruct (get_vector I envs s _ _ R G) as (v' & Ev' & Hb & Hlen). rewrite Ev in Ev'. injection Ev' as <-. exists v. auto. }
    split.
    { unfold get_collection in Hg. rewrite Ct in Hg. unfold find_coll in Hg. destruct (find _ _) as [c'|] eqn:F; [|discriminate]. apply find_some in F as [Hin Eq]. apply String.eqb_eq in Eq. eauto. }
    destruct Hdoc as [Hdoc|(x & Hx)]; [auto|]. right. unfold get_document in Hx. rewrite Ct in Hx. destruct (find _ _) as [x'|] eqn:F; [|discriminate]. apply find_some in F as [Hin Eq]. apply String.eqb_eq in Eq.
    rewrite <- Eq. apply in_map. exact Hin.
  - intros e _. apply Hno.
  - exists t'. split.
    + exists (S (length l)). intros k Hk. unfold load_store. rewrite Ct, Hlf. subst n. destruct Hf as [Hf|Hf]; rewrite Hf in *; subst d; cbn [as_input as_doc as_lines as_end].
      * rewrite L. cbn [no_stats im_total im_failed im_skipped]. rewrite Nat.add_0_r. reflexivity.
      * rewrite (lines_as_items I evs lo l 0 t no_stats t' _ k Hk L). cbn [no_stats im_total im_failed im_skipped]. rewrite Nat.add_0_r. reflexivity.
    + intros id. destruct (get_by_id I s id) as [e| |] eqn:G.
      * destruct (get_collid I s id e G) as [_ Hi]. assert (Hin : In (exported true e) l) by (apply X; exists e; cbn [exported e_id]; rewrite Hi; split; [exact G|split; [exact Logic.I|reflexivity]]).
        specialize (A _ Hin). cbn [exported e_id] in A. rewrite Hi in A. exact A.
      * rewrite B; [apply Hno|]. intros Hin. apply in_map_iff in Hin as (x & Ex & Hx). apply X in Hx as (e0 & G' & _). rewrite Ex in G'. congruence.
      * rewrite B; [apply Hno|]. intros Hin. apply in_map_iff in Hin as (x & Ex & Hx). apply X in Hx as (e0 & G' & _). rewrite Ex in G'. congruence.
Qed.
Example dump_load_round_trip_ex :
  (forall id e, get_by_id _ small_library id = Ok e ->
     valid_texts as_is e /\ (exists v, e_vec e = Some v /\ length v = 2) /\ e_coll e <> "" /\ (exists c, get_collection _ (filled []) (e_coll e) = Ok c) /\
     (e_doc e = "" \/ exists x, get_document _ (filled []) (e_doc e) = Ok x)) /\
  exists d t', dump_store as_is _ integers in_order small_library jsonl_opts = Ok (d, 2) /\
    load_store _ all_good (plain_load FJsonl) (filled []) (as_input d) 5 = Some (t', Ok {| im_total := 2; im_failed := 0; im_skipped := 0 |}) /\
    get_by_id _ t' "b" = get_by_id _ small_library "b".
Proof.
  split.
  - intros id e H. split; [unfold valid_texts, as_is; auto 10|].
    destruct (small_embeddings id e H) as [-> | ->]; (split; [eexists; split; reflexivity|split; [discriminate|split; [eexists; vm_compute; reflexivity|left; reflexivity]]]).
  - do 2 eexists. split; [vm_compute; reflexivity|]. split; vm_compute; reflexivity.
Qed.

(** C33 as stated is false: the access list of an embedding is not in the dump, so that a
    restricted embedding comes back public. *)
Definition restricted : embedding :=
  {| e_id := "a"; e_collid := 0; e_coll := ""; e_vec := Some v10; e_content := "secret"; e_doc := ""; e_meta := None; e_acl := ["user:alice"] |}.
Theorem dump_load_access_list_refuted :
  exists d t' e e', dump_store as_is list_index integers in_order (filled [OUpsert restricted]) json_opts = Ok (d, 1) /\
    load_store _ all_good (plain_load FJson) (filled []) (as_input d) 0 = Some (t', Ok {| im_total := 1; im_failed := 0; im_skipped := 0 |}) /\
    get_by_id _ (filled [OUpsert restricted]) "a" = Ok e /\ e_acl e = ["user:alice"] /\ get_by_id _ t' "a" = Ok e' /\ e_acl e' = [].
Proof. do 4 eexists. split; [vm_compute; reflexivity|]. split; [vm_compute; reflexivity|]. split; [vm_compute; reflexivity|]. split; [reflexivity|]. split; vm_compute; reflexivity. Qed.
(** Nor does a dump restore into an empty store what belongs to a document or to a
    collection other than the default: those items are counted as failed. *)
Theorem dump_load_empty_target_refuted :
  exists d t' e1 e2, let src := filled [OCreateDoc (doc1 "d"); OUpsert (emb_doc "a" "d" v10); OCreateColl "c" 2; OUpsert (emb_in "b" "c" "" v01)] in
    dump_store as_is list_index integers in_order src json_opts = Ok (d, 2) /\ get_by_id _ src "a" = Ok e1 /\ get_by_id _ src "b" = Ok e2 /\
    load_store _ all_good (plain_load FJson) (filled []) (as_input d) 0 = Some (t', Ok {| im_total := 0; im_failed := 2; im_skipped := 0 |}) /\
    get_by_id _ t' "a" = Err ENotFound /\ get_by_id _ t' "b" = Err ENotFound.
Proof. do 4 eexists. cbv zeta. split; [vm_compute; reflexivity|]. split; [vm_compute; reflexivity|]. split; [vm_compute; reflexivity|]. split; [vm_compute; reflexivity|]. split; vm_compute; reflexivity. Qed.

(** C86: on a closed store both refuse, unknown formats are refused by both, and Load has
    no CSV although Dump writes it. *)
Theorem dump_load_refusals : forall I utf8 Nm scan evs (s : store I) o lo i k,
  (st_closed I s = true -> dump_store utf8 I Nm scan s o = Err EClosed /\ load_store I evs lo s i k = Some (s, Err EClosed)) /\
  (st_closed I s = false -> do_format o = FOtherFormat -> dump_store utf8 I Nm scan s o = Err EOther) /\
  (st_closed I s = false -> lo_format lo = FOtherFormat \/ lo_format lo = FCsv -> load_store I evs lo s i k = Some (s, Err EOther)).
Proof.
  intros. unfold dump_store, load_store. split; [|split].
  - intros ->. auto.
  - intros -> ->. reflexivity.
  - intros -> [-> | ->]; reflexivity.
Qed.
Example dump_load_refusals_ex : st_closed _ (filled [OClose]) = true /\ st_closed _ (filled []) = false.
Proof. split; reflexivity. Qed.

(** C86: with SkipExisting an id that is already stored is counted as skipped and stays as
    it was; without it, it is overwritten. *)
Theorem load_skips_existing : forall I evs o (s : store I) n e e0,
  lo_skip o = true -> get_by_id I s (e_id e) = Ok e0 -> import_one I evs o n s e = (s, Skipped).
Proof. intros I evs o s n e e0 H G. unfold import_one. rewrite H, G. reflexivity. Qed.
(** C86: every other item is upserted, and counted as stored exactly when that succeeds. *)
Theorem load_upserts_the_rest : forall I evs o (s : store I) n e,
  lo_skip o = false \/ (forall e0, get_by_id I s (e_id e) <> Ok e0) ->
  fst (import_one I evs o n s e) = fst (upsert I (evs n) s e) /\
  (snd (import_one I evs o n s e) = Stored <-> snd (upsert I (evs n) s e) = Ok tt) /\
  (snd (import_one I evs o n s e) = Failed <-> exists x, snd (upsert I (evs n) s e) = Err x).
Proof.
  intros I evs o s n e H. unfold import_one. replace (lo_skip o && _) with false.
  2: { destruct H as [-> |H]; [reflexivity|]. destruct (get_by_id I s (e_id e)) as [e0| |]; [destruct (H e0 eq_refl)|..]; rewrite andb_false_r; reflexivity. }
  destruct (upsert I (evs n) s e) as [s' [[]|x|]]; cbn [fst snd]; (split; [reflexivity|split; split; intros K; try discriminate; try (destruct K; discriminate); eauto]).
Qed.
Example load_upserts_the_rest_ex :
  exists s', import_one list_index all_good (plain_load FJson) 0 (filled [OUpsert (emb "a" v01)]) (emb "a" v10) = (s', Stored) /\
  exists e, get_by_id _ s' "a" = Ok e /\ e_vec e = Some v10.
Proof. eexists. split; [vm_compute; reflexivity|]. eexists. split; vm_compute; reflexivity. Qed.
Example load_skips_existing_ex :
  exists s', load_store _ all_good {| lo_format := FJsonl; lo_skip := true |} (filled [OUpsert (emb "a" v01)]) three_lines 10 = Some (s', Ok {| im_total := 1; im_failed := 1; im_skipped := 1 |}) /\
  get_by_id _ s' "a" = get_by_id _ (filled [OUpsert (emb "a" v01)]) "a".
Proof. eexists. split; vm_compute; reflexivity. Qed.

Print Assumptions dump_exact.
Print Assumptions dump_refuses_non_finite.
Print Assumptions csv_dump_exact.
Print Assumptions load_report_adds_up.
Print Assumptions load_json_terminates_partial.
Print Assumptions load_jsonl_terminates_partial.
Print Assumptions load_terminates_refuted.
Print Assumptions dump_load_round_trip.
Print Assumptions dump_load_access_list_refuted.
Print Assumptions dump_load_empty_target_refuted.
Print Assumptions dump_load_refusals.
Print Assumptions load_skips_existing.
Print Assumptions load_upserts_the_rest.
