(** C35, C83-C85: chat sessions and messages, for every history of calls, including
    failing ones, closing and reopening. *)
From Coq Require Import String List NArith ZArith Bool Permutation Sorted Lia.
From Coq Require Import Floats.SpecFloat.
From Verif Require Import Base Floats64 TopK EncodingModel EncodingSpec SimilarityModel StoreModel SearchProps ChatModel ChatSpec ChatProofs.
Import ListNotations.
Open Scope string_scope.
Open Scope list_scope.

(** *** examples *)
Definition at_time (t : Z) : cenv := {| ce_fk := true; ce_ok := true; ce_now := t |}.
Definition say (id s text : string) (v : list N) : cop :=
  CAdd {| g_id := id; g_session := s; g_role := "user"; g_content := text; g_vec := v; g_meta := None; g_time := 0 |}.
Definition talk : list (cenv * cop) :=
  [(at_time 1, CCreate {| se_id := "s"; se_user := "u"; se_meta := None |}); (at_time 2, CCreate {| se_id := "t"; se_user := "u"; se_meta := None |});
   (at_time 3, say "m1" "s" "one" v10); (at_time 4, say "m2" "t" "two" v01); (at_time 5, say "m3" "s" "three" []);
   (at_time 6, say "m1" "s" "again" v10); (at_time 7, CReopen); (at_time 8, say "m4" "s" "four" v11); (at_time 9, say "m5" "nowhere" "five" v11)].
Definition msg_ids (r : outcome (list message)) : list string := match r with Ok l => map g_id l | _ => [] end.
Lemma talk_floats : float_vectors talk.
Proof.
  intros ev m H. cbn in H. repeat (destruct H as [H|H]; [first [discriminate|injection H as <- <-; repeat constructor]|]). destruct H.
Qed.

(** ** C35 *)
(** A history of n messages consists of the newest n messages added to that session (all
    of them for negative n), oldest first, exactly as they were added; whatever the clock
    did. *)
Theorem history_newest :
  forall srt h id n out, float_vectors h -> sort_ok later srt -> session_history srt (crun empty_chat h) id n = Ok out ->
  let mine := filter (fun m => String.eqb (g_session m) id) (added empty_chat h) in
  is_topk newer (if (n <? 0)%Z then length mine else Z.to_nat n) mine (rev out).
Proof.
  intros srt h id n out F K H. destruct (crun_spec h empty_chat empty_ok F) as (_ & A & _). cbn [empty_chat c_msgs map app] in A.
  pose proof (history_topk srt _ id n out K H) as T. cbv zeta in T. rewrite A in T. exact T.
Qed.
(** When no two messages of the session were added at the same clock reading and the clock
    went forward, these are the last n added, in the order of the calls. *)
Theorem history_last_added :
  forall srt h id n out, float_vectors h -> sort_ok later srt -> session_history srt (crun empty_chat h) id n = Ok out ->
  let mine := filter (fun m => String.eqb (g_session m) id) (added empty_chat h) in
  StronglySorted (fun a b => (g_time a < g_time b)%Z) mine ->
  out = if (n <? 0)%Z then mine else last_n (Z.to_nat n) mine.
Proof.
  intros srt h id n out F K H mine S. pose proof (history_newest srt h id n out F K H) as T. cbv zeta in T. fold mine in T.
  apply (is_topk_perm newer _ _ (rev mine)) in T; [|apply Permutation_rev]. apply topk_strict in T; [|apply rev_strict; exact S].
  rewrite <- (rev_involutive out), T, last_n_rev. destruct (n <? 0)%Z; auto. unfold last_n. rewrite Nat.sub_diag. reflexivity.
Qed.
(** It fails only on a closed store. *)
Theorem history_available : forall srt c id n, c_closed c = false -> exists out, session_history srt c id n = Ok out.
Proof. intros srt c id n H. unfold session_history. rewrite H. eexists. reflexivity. Qed.
Example history_ex :
  msg_ids (session_history (isort later) (crun empty_chat talk) "s" 2) = ["m3"; "m4"] /\
  msg_ids (session_history (isort later) (crun empty_chat talk) "s" (-1)) = ["m1"; "m3"; "m4"] /\ map g_id (added empty_chat talk) = ["m1"; "m2"; "m3"; "m4"] /\
  StronglySorted (fun a b => (g_time a < g_time b)%Z) (filter (fun m => String.eqb (g_session m) "s") (added empty_chat talk)).
Proof.
  split; [vm_compute; reflexivity|]. split; [vm_compute; reflexivity|]. split; [vm_compute; reflexivity|].
  cbn. repeat constructor.
Qed.
(** Finding: a clock that stands still between two messages (or goes back) makes their
    order arbitrary, and an older message can be returned instead of a newer one. *)
Theorem history_order_of_calls_refuted :
  exists srt h, sort_ok later srt /\ float_vectors h /\ map g_id (added empty_chat h) = ["m1"; "m2"] /\
    msg_ids (session_history srt (crun empty_chat h) "s" 1) = ["m1"].
Proof.
  exists (go_isort later), [(at_time 1, CCreate {| se_id := "s"; se_user := "u"; se_meta := None |}); (at_time 2, say "m1" "s" "one" []); (at_time 2, say "m2" "s" "two" [])].
  split; [apply go_isort_ok|]. split; [|split; vm_compute; reflexivity].
  intros ev m H. cbn in H. repeat (destruct H as [H|H]; [first [discriminate|injection H as <- <-; constructor]|]). destruct H.
Qed.

(** ** C83 *)
(** Which calls succeed, and what they change: a message is refused exactly when the store
    is closed, its id is taken, the statement fails, its vector is too long, or its session
    is missing where foreign keys are enforced; a refused call changes nothing. *)
Theorem add_message_decides :
  forall ev h m, float_vectors h ->
  let c := crun empty_chat h in
  (N.of_nat (length (g_vec m)) <= 2 ^ 31 - 1)%N ->
  (snd (add_message ev c m) = Ok tt <->
   c_closed c = false /\ ce_ok ev = true /\ (forall x, In x (added empty_chat h) -> g_id x <> g_id m) /\
   (ce_fk ev = true -> exists x, In x (created empty_chat h) /\ se_id x = g_session m)) /\
  (snd (add_message ev c m) <> Ok tt -> fst (add_message ev c m) = c).
Proof.
  intros ev h m F c L. destruct (crun_spec h empty_chat empty_ok F) as (_ & A & B). cbn [empty_chat c_msgs c_sessions map app] in A, B. fold c in A, B. split.
  - unfold add_message. destruct (c_closed c); [split; [discriminate|intros (? & _); discriminate]|].
    assert (exists o, msg_blob (g_vec m) = Ok o) as (o & ->).
    { unfold msg_blob. destruct (g_vec m) as [|x v] eqn:E; [eexists; reflexivity|]. unfold encode_vector. rewrite <- E.
      destruct (N.ltb_spec max_int32 (N.of_nat (length (g_vec m)))) as [X|X]; [exfalso; revert L X; unfold max_int32; rewrite E; lia|]. cbn. eexists. reflexivity. }
    rewrite <- B, <- A. destruct (_ && _) eqn:E.
    + split; auto. intros _. apply andb_true_iff in E as [E E3]. apply andb_true_iff in E as [E1 E2]. split; auto. split; auto. split.
      * intros x Hx Hid. apply in_map_iff in Hx as (w & <- & Hw). apply negb_true_iff in E2. cbn in Hid.
        assert (existsb (fun y => String.eqb (w_id y) (g_id m)) (c_msgs c) = true); [|congruence]. apply existsb_exists. exists w. rewrite Hid, String.eqb_refl. auto.
      * intros Hf. rewrite Hf in E3. cbn in E3. apply existsb_exists in E3 as (x & Hx & Hq). apply String.eqb_eq in Hq. eauto.
    + split; [discriminate|]. intros (_ & E1 & E2 & E3). exfalso. rewrite E1 in E. cbn in E.
      assert (existsb (fun y => String.eqb (w_id y) (g_id m)) (c_msgs c) = false) as X.
      { destruct (existsb _ _) eqn:Q; auto. apply existsb_exists in Q as (w & Hw & Hq). apply String.eqb_eq in Hq. exfalso. apply (E2 (read_msg w)); auto. apply in_map; auto. }
      rewrite X in E. cbn in E. destruct (ce_fk ev); [|discriminate]. cbn in E. destruct (E3 eq_refl) as (x & Hx & Hq).
      assert (existsb (fun y => String.eqb (se_id y) (g_session m)) (c_sessions c) = true); [|congruence]. apply existsb_exists. exists x. rewrite Hq, String.eqb_refl. auto.
  - intros Hn. destruct (add_message ev c m) as [c' r] eqn:E. apply (add_message_fail ev c m c' r); auto.
Qed.
Example add_message_decides_ex :
  snd (add_message (at_time 9) (crun empty_chat talk) {| g_id := "m9"; g_session := "s"; g_role := ""; g_content := ""; g_vec := v10; g_meta := None; g_time := 0 |}) = Ok tt.
Proof. vm_compute. reflexivity. Qed.
(** Sessions: reading one returns what was created under that id, and ids are unique. *)
Theorem get_session_exact :
  forall h id, float_vectors h -> c_closed (crun empty_chat h) = false ->
  NoDup (map se_id (created empty_chat h)) /\
  (forall x, get_session (crun empty_chat h) id = Ok x <-> In x (created empty_chat h) /\ se_id x = id) /\
  (get_session (crun empty_chat h) id = Err ENotFound <-> forall x, In x (created empty_chat h) -> se_id x <> id).
Proof.
  intros h id F C. destruct (crun_spec h empty_chat empty_ok F) as ((_ & _ & N) & _ & B). cbn [empty_chat c_sessions app] in B. rewrite B in N. split; auto.
  unfold get_session. rewrite C, B. destruct (find _ _) as [y|] eqn:E.
  - pose proof (find_some _ _ E) as [Hy Hq]. apply String.eqb_eq in Hq. split.
    + intros x. split; [intros [= <-]; auto|]. intros [Hx Hid]. f_equal. clear -N Hy Hq Hx Hid. induction (created empty_chat h) as [|z l IH]; [destruct Hx|].
      cbn in N. inversion N as [|? ? Hn N']; subst. destruct Hy as [->|Hy], Hx as [->|Hx]; auto; exfalso; apply Hn; [rewrite <- Hid|rewrite Hid]; apply in_map; auto.
    + split; [discriminate|]. intros H. exfalso. eapply H; eauto.
  - split; [intros x; split; [discriminate|]|split; auto].
    + intros [Hx Hid]. pose proof (find_none _ _ E x Hx) as Q. cbv beta in Q. rewrite Hid, String.eqb_refl in Q. discriminate.
    + intros _ x Hx Hid. pose proof (find_none _ _ E x Hx) as Q. cbv beta in Q. rewrite Hid, String.eqb_refl in Q. discriminate.
Qed.
Example get_session_ex : exists x, get_session (crun empty_chat talk) "t" = Ok x /\ se_user x = "u".
Proof. eexists. split; vm_compute; reflexivity. Qed.

(** ** C84 *)
(** Semantic search in a session returns its limit most similar messages that carry a
    vector, most similar first; across the sessions of a user likewise (limit 10 when not
    positive), leaving out the excluded session. *)
Theorem search_chat_exact :
  forall sim h q id n out, float_vectors h ->
  let mine := filter (fun m => String.eqb (g_session m) id && negb (match g_vec m with [] => true | _ => false end)) (added empty_chat h) in
  (forall m, In m mine -> not_nan (f32_of_f64 (sim q (g_vec m)))) ->
  search_chat sim (crun empty_chat h) q id n = Ok out ->
  (0 <= n)%Z /\ is_topk (more_similar sim q) (Z.to_nat n) mine out.
Proof.
  intros sim h q id n out F mine Hn H. destruct (crun_spec h empty_chat empty_ok F) as ((G & _) & A & _). cbn [empty_chat c_msgs map app] in A.
  unfold search_chat in H. destruct (c_closed _); [discriminate|]. destruct (Z.ltb_spec n 0); [discriminate|]. injection H as <-. split; auto.
  rewrite score_rows_spec; [|intros w Hw; apply filter_In in Hw as [Hw _]; auto].
  assert (E : filter (fun m => negb (match g_vec m with [] => true | _ => false end)) (map read_msg (filter (fun w => String.eqb (w_session w) id) (c_msgs (crun empty_chat h)))) = mine).
  { rewrite <- (filter_read (fun x => String.eqb x id)), filter_filter, A. apply filter_ext. intros m. reflexivity. }
  rewrite E. apply sorted_scores. exact Hn.
Qed.
Theorem search_by_user_exact :
  forall sim scan h user q exclude n out, float_vectors h -> (forall l, Permutation (scan l) l) -> user <> "" -> q <> [] ->
  (forall m, In m (added empty_chat h) -> not_nan (f32_of_f64 (sim q (g_vec m)))) ->
  search_by_user sim scan (crun empty_chat h) user q exclude n = Ok out ->
  exists all, NoDup (map g_id all) /\
    (forall m, In m all <-> In m (added empty_chat h) /\ visible (created empty_chat h) user exclude m /\ g_vec m <> []) /\
    is_topk (more_similar sim q) (if (n <=? 0)%Z then 10 else Z.to_nat n) all out.
Proof.
  intros sim scan h user q exclude n out F Hs Hu Hq Hn H. destruct (crun_spec h empty_chat empty_ok F) as ((G & Nm & Ns) & A & B). cbn [empty_chat c_msgs c_sessions map app] in A, B.
  unfold search_by_user in H. destruct (String.eqb_spec user ""); [congruence|]. destruct q as [|q0 q]; [congruence|]. cbn [orb] in H. destruct (c_closed _); [discriminate|]. injection H as <-.
  pose proof (user_rows_spec scan (crun empty_chat h) user exclude Hs Ns) as P. set (rows := user_rows _ _ _ _) in *.
  assert (Gr : forall w, In w rows -> good_row w). { intros w Hw. eapply Permutation_in in Hw; [|exact P]. apply filter_In in Hw as [Hw _]. auto. }
  rewrite score_user_rows_spec by auto. exists (filter (fun m => negb (match g_vec m with [] => true | _ => false end)) (map read_msg rows)).
  assert (Hin : forall m, In m (filter (fun m => negb (match g_vec m with [] => true | _ => false end)) (map read_msg rows)) <->
                In m (added empty_chat h) /\ visible (created empty_chat h) user exclude m /\ g_vec m <> []).
  { intros m. rewrite filter_In, in_map_iff, <- A, <- B, <- sees_visible. split.
    - intros [(w & <- & Hw) Hv]. eapply Permutation_in in Hw; [|exact P]. apply filter_In in Hw as [Hw Hx]. split; [apply in_map; auto|]. split; auto. intros E. rewrite E in Hv. discriminate.
    - intros (Hm & Hx & Hv). apply in_map_iff in Hm as (w & <- & Hw). split; [|destruct (g_vec (read_msg w)); congruence || reflexivity]. exists w. split; auto. eapply Permutation_in; [apply Permutation_sym; exact P|]. apply filter_In. auto. }
  split; [|split; [exact Hin|]].
  - apply NoDup_map_filter. rewrite map_map. cbn. eapply Permutation_NoDup; [apply Permutation_map, Permutation_sym, P|]. apply NoDup_map_filter. exact Nm.
  - apply sorted_scores. intros m Hm. apply Hn. apply Hin. exact Hm.
Qed.
Theorem search_by_user_empty_query : forall sim scan c user q exclude n, user = "" \/ q = [] -> search_by_user sim scan c user q exclude n = Ok [].
Proof. intros sim scan c user q exclude n [->| ->]; unfold search_by_user; [reflexivity|rewrite orb_true_r; reflexivity]. Qed.
Example search_chat_ex :
  msg_ids (search_chat cosine (crun empty_chat talk) v10 "s" 5) = ["m1"; "m4"] /\
  msg_ids (search_by_user cosine (fun l => l) (crun empty_chat talk) "u" v10 "" 2) = ["m1"; "m4"] /\
  msg_ids (search_by_user cosine (fun l => l) (crun empty_chat talk) "u" v10 "s" 0) = ["m2"].
Proof. split; [vm_compute; reflexivity|]. split; vm_compute; reflexivity. Qed.
(** Finding: a negative limit panics. *)
Theorem search_chat_negative_limit_refuted :
  exists h, float_vectors h /\ c_closed (crun empty_chat h) = false /\ search_chat cosine (crun empty_chat h) v10 "s" (-1) = Panic.
Proof. exists talk. split; [apply talk_floats|]. split; vm_compute; reflexivity. Qed.

(** ** C85 *)
(** Keyword search returns, in the order of the full-text index, the first limit (10 when
    not positive) of the matching messages in sessions of the user other than the
    excluded one. *)
Theorem keyword_search_exact :
  forall ft h query user exclude n ps, float_vectors h -> query <> "" -> user <> "" -> c_closed (crun empty_chat h) = false ->
  ft query (map g_content (added empty_chat h)) = Some ps ->
  exists all, keyword_search ft (crun empty_chat h) query user exclude n = Ok (firstn (if (n <=? 0)%Z then 10 else Z.to_nat n) all) /\
    forall keep : message -> bool, (forall m, keep m = true <-> visible (created empty_chat h) user exclude m) ->
    all = filter keep (flat_map (fun p => match nth_error (added empty_chat h) p with Some m => [m] | None => [] end) ps).
Proof.
  intros ft h query user exclude n ps F Hq Hu C Hf. destruct (crun_spec h empty_chat empty_ok F) as ((G & Nm & Ns) & A & B). cbn [empty_chat c_msgs c_sessions map app] in A, B.
  unfold keyword_search. destruct (String.eqb_spec query ""); [congruence|]. destruct (String.eqb_spec user ""); [congruence|]. cbn [orb]. rewrite C.
  assert (Ec : map w_content (c_msgs (crun empty_chat h)) = map g_content (added empty_chat h)) by (rewrite <- A, map_map; reflexivity). rewrite Ec, Hf.
  cbv zeta. set (rows := flat_map _ ps). exists (map read_msg rows). split; [rewrite firstn_map; reflexivity|].
  intros keep Hk. unfold rows. clear rows Hf. rewrite <- A. induction ps as [|p ps IH]; cbn [flat_map]; auto. rewrite map_app, filter_app, IH. f_equal.
  rewrite nth_error_map. destruct (nth_error (c_msgs (crun empty_chat h)) p) as [w|]; cbn [option_map]; auto.
  unfold user_rows. cbn [c_msgs c_sessions flat_map]. rewrite app_nil_r, joined by auto. cbn [filter].
  assert (keep (read_msg w) = sees (c_sessions (crun empty_chat h)) user exclude (w_session w)) as ->.
  { apply eq_true_iff_eq. rewrite Hk, <- B. symmetry. apply (sees_visible _ _ _ (read_msg w)). }
  destruct (sees _ _ _ _); reflexivity.
Qed.
Example keyword_search_ex :
  msg_ids (keyword_search (fun _ _ => Some [3; 1; 0]) (crun empty_chat talk) "o" "u" "t" 1) = ["m4"].
Proof. vm_compute. reflexivity. Qed.

Print Assumptions history_newest.
Print Assumptions history_last_added.
Print Assumptions history_available.
Print Assumptions history_order_of_calls_refuted.
Print Assumptions add_message_decides.
Print Assumptions get_session_exact.
Print Assumptions search_chat_exact.
Print Assumptions search_by_user_exact.
Print Assumptions search_by_user_empty_query.
Print Assumptions search_chat_negative_limit_refuted.
Print Assumptions keyword_search_exact.
