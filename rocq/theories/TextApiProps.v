(** The text calls of the database object. *)
From Coq Require Import String Ascii List NArith ZArith Bool Lia Permutation Sorted.
From Coq Require Import Floats.SpecFloat.
From Verif Require Import Base Floats64 TopK EncodingModel EncodingSpec DimensionModel SimilarityModel StoreModel StoreSpec StoreProofs StoreInv StoreProofs2 StoreProofs3 StoreProps
  SearchModel SearchSpec SearchProofs SearchProps SqlModel FilterModel FilterSpec FilterProofs FilterProofs2 AdvSearchModel AdvSearchSpec AdvSearchProofs AdvSearchProps
  TextApiModel TextApiSpec PlaceProofs TextApiProofs.
Import ListNotations.
Open Scope string_scope.
Open Scope list_scope.

(** *** inserting one text *)
Theorem text_insert_exact :
  forall I em ev s id text meta s', (forall m v, em = Some m -> em_one m text = Ok (Some v) -> float32_bits v) ->
  insert_text I em ev s id text meta = (s', Ok tt) ->
  exists m v w, em = Some m /\ text <> "" /\ em_one m text = Ok v /\
    stored_vector (ev_noise ev) (st_policy I s) (st_dim I s) (text_row id "" text v meta) w /\
    get_by_id I s' id = Ok (stored_text (st_db I s) id text w meta) /\
    (forall id', id' <> id -> get_by_id I s' id' = get_by_id I s id').
Proof.
  intros I em ev s id text meta s' B H. unfold insert_text in H. destruct em as [m|]; [|discriminate].
  destruct (String.eqb_spec text "") as [E|E]; [discriminate|]. destruct (em_one m text) as [v| |] eqn:Em; try discriminate.
  assert (Bits : emb_bits (text_row id "" text v meta)) by (unfold emb_bits, vec_of; cbn; destruct v as [v|]; [now apply (B m v)|constructor]).
  destruct (get_after_upsert_lemma I ev s _ s' Bits H) as (w & cid & T & V & G & F). exists m, v, w.
  destruct T as [[T _]|[(_ & _ & ->)|(_ & T & _)]]; [cbn in T; congruence| |cbn in T; congruence].
  repeat split; assumption.
Qed.
(** It succeeds for a text with a vector of the store's dimension, and a failure stores nothing. *)
Theorem text_insert_accepts :
  forall I m ev s id text v meta, st_closed I s = false -> ev_ok ev 0 = true -> In 1%Z (map c_id (t_colls (st_db I s))) ->
  text <> "" -> em_one m text = Ok (Some v) -> float32_bits v -> (N.of_nat (length v) <= 2 ^ 31 - 1)%N -> st_dim I s = 0%Z \/ st_dim I s = Z.of_nat (length v) ->
  exists s', insert_text I (Some m) ev s id text meta = (s', Ok tt).
Proof.
  intros I m ev s id text v meta C O H1 T Em B L D. unfold insert_text. destruct (String.eqb_spec text "") as [E|E]; [congruence|]. rewrite Em.
  apply upsert_accepts_lemma; [exact C|exact O| |exact D]. split; [exists v; auto|]. split; [|now left]. exists 1%Z. split; [|exact H1]. right. left. auto.
Qed.
Theorem text_insert_failure :
  forall I em ev s id text meta s' r, insert_text I em ev s id text meta = (s', r) -> r <> Ok tt -> st_db I s' = st_db I s /\ st_ix I s' = st_ix I s.
Proof.
  intros I em ev s id text meta s' r H N. unfold insert_text in H. destruct em as [m|]; [|injection H as <- _; auto].
  destruct (String.eqb text ""); [injection H as <- _; auto|]. destruct (em_one m text); try (injection H as <- _; auto; fail).
  apply upsert_fail in H; tauto.
Qed.

(** *** inserting many *)
Lemma last_with_in id (es : list embedding) e : NoDup (map e_id es) -> In e es -> e_id e = id -> last_with id es = Some e.
Proof.
  induction es as [|x es IH]; intros N H E; [destruct H|]. cbn in N. inversion N as [|? ? N1 N2]; subst. cbn [last_with]. destruct H as [->|H].
  - assert (Z : last_with (e_id e) es = None).
    { clear IH N N2. induction es as [|y es IH]; [reflexivity|]. cbn in *. rewrite IH by tauto. destruct (String.eqb_spec (e_id y) (e_id e)); [tauto|reflexivity]. }
    now rewrite Z, String.eqb_refl.
  - now rewrite (IH N2 H eq_refl).
Qed.
Lemma last_with_out id (es : list embedding) : ~ In id (map e_id es) -> last_with id es = None.
Proof. induction es as [|y es IH]; [reflexivity|]. cbn. intros H. rewrite IH by tauto. destruct (String.eqb_spec (e_id y) id); [tauto|reflexivity]. Qed.
Lemma rows_of_texts (f : string -> list N) meta (kept : list (string * string)) :
  map (fun x => text_row (fst (fst x)) "" (snd (fst x)) (snd x) meta) (List.combine kept (map (fun t => Some (f t)) (map snd kept)))
  = map (fun p => text_row (fst p) "" (snd p) (Some (f (snd p))) meta) kept.
Proof. induction kept as [|[i t] kept IH]; [reflexivity|]. cbn. f_equal. exact IH. Qed.
(** All or nothing; the texts that are not empty are stored under their ids with their own vectors,
    whatever the order of the map; nothing else changes. *)
Theorem text_batch_exact :
  forall I m f ev s texts meta s' r, one_by_one m f -> (forall t, float32_bits (f t)) -> NoDup (map fst texts) ->
  insert_text_batch I (Some m) ev s texts meta = (s', r) ->
  (r <> Ok tt -> s' = s) /\
  (r = Ok tt -> forall id,
     (forall t, In (id, t) texts -> t <> "" -> get_by_id I s' id = Ok (stored_text (st_db I s) id t (f t) meta)) /\
     ((forall t, In (id, t) texts -> t = "") -> get_by_id I s' id = get_by_id I s id)).
Proof.
  intros I m f ev s texts meta s' r O B N H. unfold insert_text_batch in H.
  set (kept := filter (fun p => negb (String.eqb (snd p) "")) texts) in H.
  assert (K : forall id t, In (id, t) kept <-> In (id, t) texts /\ t <> "").
  { intros id t. unfold kept. rewrite filter_In. cbn. destruct (String.eqb_spec t ""); cbn; intuition congruence. }
  assert (Nk : NoDup (map fst kept)) by (apply NoDup_map_filter, N).
  destruct kept as [|p kept'] eqn:Ek.
  - injection H as <- <-. split; [congruence|]. intros _ id. split; [|reflexivity]. intros t Ht Hn. exfalso. now apply (proj2 (K id t)).
  - rewrite <- Ek in *. destruct (em_batch m (map snd kept)) as [vs| |] eqn:Em; [|injection H as <- <-; split; [reflexivity|discriminate]|injection H as <- <-; split; [reflexivity|discriminate]].
    apply O in Em. subst vs. rewrite !map_length in H. rewrite Nat.ltb_irrefl in H.
    rewrite rows_of_texts in H. set (es := map (fun p => text_row (fst p) "" (snd p) (Some (f (snd p))) meta) kept) in H.
    split; [intros Hr; destruct (batch_upsert_atomic I ev s es s' r H); [congruence|assumption]|]. intros -> id.
    assert (Hb : Forall emb_bits es) by (apply Forall_forall; intros e He; apply in_map_iff in He as (q & <- & _); apply B).
    assert (Hi : map e_id es = map fst kept) by (unfold es; rewrite map_map; reflexivity).
    pose proof (batch_upsert_effect I ev s es s' Hb H id) as Eff. split.
    + intros t Ht Hn. assert (Hin : In (id, t) kept) by (apply K; tauto).
      rewrite (last_with_in id es (text_row id "" t (Some (f t)) meta)) in Eff; [|rewrite Hi; exact Nk|apply in_map_iff; exists (id, t); auto|reflexivity].
      destruct Eff as (v & cid & Ev & T & G). cbn in Ev. injection Ev as <-.
      destruct T as [[T _]|[(_ & _ & ->)|(_ & T & _)]]; [cbn in T; congruence|exact G|cbn in T; congruence].
    + intros Hn. rewrite last_with_out in Eff; [exact Eff|]. rewrite Hi. intros Hin. apply in_map_iff in Hin as ([i t] & Ei & Hin). cbn in Ei. subst i.
      apply K in Hin as [Hin Ht]. now apply Ht, Hn.
Qed.
(** It does not fail for texts with vectors when the database accepts the statements. *)
Theorem text_batch_accepts :
  forall I m f ev s texts meta, st_closed I s = false -> (forall n, ev_ok ev n = true) -> In 1%Z (map c_id (t_colls (st_db I s))) ->
  (forall l, em_batch m l = Ok (map (fun t => Some (f t)) l)) -> (forall t, float32_bits (f t) /\ (N.of_nat (length (f t)) <= 2 ^ 31 - 1)%N) ->
  exists s', insert_text_batch I (Some m) ev s texts meta = (s', Ok tt).
Proof.
  intros I m f ev s texts meta C O H1 Em B. unfold insert_text_batch. set (kept := filter (fun p => negb (String.eqb (snd p) "")) texts).
  destruct kept as [|p kept'] eqn:Ek; [now eexists|]. rewrite <- Ek. rewrite Em, !map_length, Nat.ltb_irrefl. rewrite rows_of_texts.
  apply batch_accepts_lemma; auto. intros e He. apply in_map_iff in He as (q & <- & _). split; [exists (f (snd q)); destruct (B (snd q)); auto|]. split; [|now left].
  exists 1%Z. split; [|exact H1]. right. left. auto.
Qed.

(** *** text-only search *)
(** On an open store the answer is the best of the full-text matches that are still stored, in
    the order of the matches, with the score of the place. *)
Theorem text_only_exact :
  forall I srt shuffle envs noise m sc ft s query coll k threshold l,
  sort_ok by_score srt -> (forall l, Permutation l (shuffle l)) -> reachable I envs s -> st_closed I s = false -> query <> "" ->
  l = match ft query with Some h => map fst h | None => [] end ->
  hits_distinct l -> (60 + Z.of_nat (length l) <= 2 ^ 51)%Z ->
  exists n out, (k <= 0 -> n = 10%nat)%Z /\ (0 < k -> n = Z.to_nat k)%Z /\
    search_text_only I srt shuffle noise m sc ft s query coll k threshold = Ok out /\
    Forall2 (fun p (x : scored) => exists e, get_by_id I s (fst p) = Ok e /\ x = (without_acl e, place_score (snd p)))
      (firstn n (stored_places I s (firstn (3 * n) l))) out.
Proof.
  intros I srt shuffle envs noise m sc ft s query coll k th l Hs Hsh R C Q Hl D Len.
  exists (Z.to_nat (if Z.leb k 0 then 10 else k)). eexists. split; [intros H; destruct (Z.leb_spec k 0); [reflexivity|lia]|]. split; [intros H; destruct (Z.leb_spec k 0); [lia|reflexivity]|].
  split; [exact (text_only_lemma I srt shuffle noise m sc ft s envs query coll k th l Hs Hsh R C Q Hl D Len)|].
  set (n := Z.to_nat _). set (ps := firstn n _). assert (P : forall p, In p ps -> is_stored I s (fst p) = true).
  { intros p Hp. unfold ps in Hp. apply in_firstn in Hp. unfold stored_places in Hp. now apply filter_In in Hp as [_ Hp]. }
  clearbody ps. induction ps as [|p ps IH]; cbn [map]; [constructor|]. constructor; [|apply IH; intros q Hq; apply P; now right].
  specialize (P p (or_introl eq_refl)). unfold is_stored in P. unfold entry. destruct (get_by_id I s (fst p)) as [e| |]; try discriminate. eauto.
Qed.
(** A closed store and an empty query are refused. *)
Theorem text_only_refuses :
  forall I srt shuffle noise m sc ft s query coll k threshold, st_closed I s = true \/ query = "" ->
  exists x, search_text_only I srt shuffle noise m sc ft s query coll k threshold = Err x.
Proof.
  intros I srt shuffle noise m sc ft s query coll k th [H| ->]; [|now eexists]. unfold search_text_only. destruct (String.eqb query ""); [now eexists|].
  unfold hybrid_search, fts_search. rewrite H. now eexists.
Qed.

(** *** text search by vector *)
Theorem text_search_exact :
  forall I srt envs em noise sc s coll query k out,
  sort_ok by_score srt -> reachable I envs s ->
  let o := {| o_coll := coll; o_topk := k; o_filter := []; o_threshold := f_zero; o_textw := f_zero; o_qtext := query |} in
  (forall m v, em = Some m -> em_one m query = Ok v -> scores_are_numbers I noise sc o s v) ->
  search_text I srt em noise Linear sc s coll query k = Ok out ->
  exists m v w all, em = Some m /\ query <> "" /\ em_one m query = Ok v /\
    query_used noise (st_policy I s) (st_dim I s) v w /\
    lists_stored I s (fun e => coll = "" \/ e_coll e = coll) (blended sc o w) all /\
    is_topk by_score (if Z.ltb 0 k then Z.to_nat k else 10) all out.
Proof.
  intros I srt envs em noise sc s coll query k out Hs R o Hn H. unfold search_text in H. destruct em as [m|]; [|discriminate].
  destruct (String.eqb_spec query "") as [E|E]; [discriminate|]. destruct (em_one m query) as [v| |] eqn:Em; try discriminate.
  destruct (search_exact I srt envs noise sc s v o out Hs R (Hn m v eq_refl Em) H) as (w & all & Q & [L1 L2] & T).
  exists m, v, w, all. repeat split; try assumption.
  - intros Hin. apply L2 in Hin as (e0 & G & Ee & [(C & _ & _) _] & X). exists e0. rewrite <- score_is_blend. auto.
  - intros (e0 & G & Ee & C & X). apply L2. exists e0. rewrite score_is_blend. split; [exact G|]. split; [exact Ee|]. split; [|exact X].
    split; [split; [exact C|split; [intros a b []|intros a []]]|]. intros F. discriminate F.
Qed.

(** *** examples *)
Definition ex_em : embedder := {| em_one := fun t => Ok (Some (if String.eqb t "x" then v10 else v01)); em_batch := fun l => Ok (map (fun t => Some (if String.eqb t "x" then v10 else v01)) l) |}.
Example text_insert_ex : exists s', insert_text list_index (Some ex_em) good_env two_colls "t1" "x" None = (s', Ok tt) /\
  get_by_id list_index s' "t1" = Ok (stored_text (st_db _ two_colls) "t1" "x" v10 None).
Proof. eexists. split; vm_compute; reflexivity. Qed.
Example text_batch_ex : one_by_one ex_em (fun t => if String.eqb t "x" then v10 else v01) /\
  exists s', insert_text_batch list_index (Some ex_em) good_env two_colls [("t1", "x"); ("t2", ""); ("t3", "y")] None = (s', Ok tt) /\
  get_by_id list_index s' "t3" = Ok (stored_text (st_db _ two_colls) "t3" "y" v01 None).
Proof. split; [intros l vs [= <-]; reflexivity|]. eexists. split; vm_compute; reflexivity. Qed.
Definition ex_ft : scored_fts := fun t => if String.eqb t "go" then Some [(Some "in", f64_of_Z (-3)); (None, f64_of_Z (-2)); (Some "pub", f64_of_Z (-1))] else None.
Example text_only_ex : reachable list_index fk_env two_colls /\ hits_distinct [Some "in"; None; Some "pub"] /\
  search_text_only list_index (isort by_score) (fun l => l) no_noise Linear cosine_scorer ex_ft two_colls "go" "" 1 f_zero
  = Ok (map (entry list_index two_colls) [("in", 1)]).
Proof.
  split; [apply filled_reachable|]. split; [|vm_compute; reflexivity]. intros i j id Hi Hj. destruct i as [|[|[|i]]], j as [|[|[|j]]]; cbn in *; try congruence; destruct i + destruct j; discriminate.
Qed.

(** *** findings *)
(** SearchTextOnly returns a match of another collection, below the threshold. *)
Theorem text_only_scope_refuted :
  exists e x, reachable list_index fk_env two_colls /\ get_by_id list_index two_colls "pub" = Ok e /\ e_coll e <> "c2" /\
    (exists out, search_text_only list_index (isort by_score) (fun l => l) no_noise Linear cosine_scorer ex_ft two_colls "go" "c2" 5 (f64_div f_one (f64_of_Z 2)) = Ok out /\ In (without_acl e, x) out) /\
    flt x (f64_div f_one (f64_of_Z 2)) = true.
Proof.
  eexists. exists (place_score 3). split; [apply filled_reachable|]. split; [vm_compute; reflexivity|]. split; [discriminate|]. split; [|vm_compute; reflexivity].
  eexists. split; [vm_compute; reflexivity|]. right. left. vm_compute. reflexivity.
Qed.
(** Fewer vectors than texts end the program; empty texts are dropped without an error by the
    batch, refused by InsertText and stored by Quick's AddText. *)
Theorem text_batch_panic_refuted :
  forall I ev s, insert_text_batch I (Some {| em_one := fun _ => Ok None; em_batch := fun _ => Ok [] |}) ev s [("a", "x")] None = (s, Panic).
Proof. reflexivity. Qed.
Theorem text_empty_refuted :
  (exists s', insert_text_batch list_index (Some ex_em) good_env two_colls [("t1", "")] None = (s', Ok tt) /\ get_by_id list_index s' "t1" = Err ENotFound) /\
  snd (insert_text list_index (Some ex_em) good_env two_colls "t1" "" None) <> Ok tt /\
  (exists s', quick_add_text list_index (Some ex_em) good_env two_colls "t1" "" "" None = (s', Ok tt) /\ get_by_id list_index s' "t1" = Ok (stored_text (st_db _ two_colls) "t1" "" v01 None)).
Proof.
  split; [|split].
  - eexists. split; vm_compute; reflexivity.
  - vm_compute. discriminate.
  - eexists. split; vm_compute; reflexivity.
Qed.
(** A query that is not valid full-text syntax is answered with nothing instead of an error. *)
Theorem text_only_malformed_refuted :
  forall I srt shuffle envs noise m sc ft s query coll k threshold, sort_ok by_score srt -> (forall l, Permutation l (shuffle l)) -> reachable I envs s ->
  st_closed I s = false -> query <> "" -> ft query = None -> search_text_only I srt shuffle noise m sc ft s query coll k threshold = Ok [].
Proof.
  intros I srt shuffle envs noise m sc ft s query coll k th Hs Hsh R C Q F.
  rewrite (text_only_lemma I srt shuffle noise m sc ft s envs query coll k th []); auto; [|now rewrite F| |cbn; lia].
  - rewrite firstn_nil. unfold stored_places. cbn. now rewrite firstn_nil.
  - intros [|i] j id Hi; discriminate.
Qed.
(** A batch of vectors of a wrong dimension is stored although the one-text call refuses it. *)
Theorem text_batch_dimension_refuted : exists s s' texts,
  reachable list_index fk_env s /\ insert_text_batch list_index (Some {| em_one := fun _ => Ok (Some [0%N]); em_batch := fun l => Ok (map (fun _ => Some [0%N]) l) |}) good_env s texts None = (s', Ok tt) /\
  get_by_id list_index s' "a" = Ok (stored_text (st_db _ s) "a" "x" [0%N] None) /\ st_dim _ s = 2%Z.
Proof.
  exists two_colls. eexists. exists [("a", "x")]. split; [apply filled_reachable|]. split; [vm_compute; reflexivity|]. split; vm_compute; reflexivity.
Qed.

Print Assumptions text_insert_exact.
Print Assumptions text_batch_exact.
Print Assumptions text_only_exact.
Print Assumptions text_search_exact.
Print Assumptions text_only_malformed_refuted.
Print Assumptions text_insert_accepts.
Print Assumptions text_insert_failure.
Print Assumptions text_batch_accepts.
Print Assumptions text_only_refuses.
Print Assumptions text_only_scope_refuted.
Print Assumptions text_empty_refuted.
Print Assumptions text_batch_panic_refuted.
Print Assumptions text_batch_dimension_refuted.
