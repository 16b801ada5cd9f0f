(** Proofs about chat sessions. *)
From Coq Require Import String List NArith ZArith Bool Permutation Sorted Lia.
From Verif Require Import Base Floats64 TopK EncodingModel EncodingSpec EncodingProofs StoreModel StoreProofs ChatModel ChatSpec.
Import ListNotations.
Open Scope string_scope.
Open Scope list_scope.

(** *** the tables *)
Definition good_row (w : mrow) : Prop :=
  match w_blob w with None => row_vec w = [] | Some b => b <> [] /\ row_vec w <> [] /\ decode_vector b = Ok (row_vec w) end.
Lemma encode_nonempty v b : encode_vector v = Ok b -> b <> [].
Proof. destruct v as [v|]; cbn; [|discriminate]. destruct (N.ltb _ _); [discriminate|]. intros [= <-]. discriminate. Qed.
Lemma msg_blob_spec v o w : float32_bits v -> msg_blob v = Ok o -> w_blob w = o -> row_vec w = v /\ good_row w.
Proof.
  unfold good_row, row_vec. destruct v as [|x v]; cbn [msg_blob].
  - intros _ [= <-] ->. auto.
  - intros F H Ew. destruct (encode_vector (Some (x :: v))) as [b| |] eqn:E; cbn [bind] in H; try discriminate. injection H as <-. rewrite Ew.
    pose proof (encode_nonempty _ _ E) as Hb. pose proof (encode_ok_decode _ _ F E) as D. destruct b as [|b0 b]; [congruence|]. rewrite D. split; auto. split; auto. split; [discriminate|reflexivity].
Qed.
Lemma add_message_ok ev c m c' : add_message ev c m = (c', Ok tt) -> exists o, msg_blob (g_vec m) = Ok o /\ c_closed c = false /\
  c_sessions c' = c_sessions c /\ ~ In (g_id m) (map w_id (c_msgs c)) /\
  c_msgs c' = c_msgs c ++ [{| w_id := g_id m; w_session := g_session m; w_role := g_role m; w_content := g_content m; w_blob := o; w_meta := g_meta m; w_time := ce_now ev |}].
Proof.
  unfold add_message. destruct (c_closed c); [discriminate|]. destruct (msg_blob (g_vec m)) as [o| |]; try discriminate.
  destruct (_ && _) eqn:E; [|discriminate]. intros [= <-]. exists o. repeat (split; auto).
  apply andb_true_iff in E as [E _]. apply andb_true_iff in E as [_ E]. apply negb_true_iff in E. intros Hin. apply in_map_iff in Hin as (y & Hy & Hin).
  assert (existsb (fun y => String.eqb (w_id y) (g_id m)) (c_msgs c) = true); [|congruence].
  apply existsb_exists. exists y. split; auto. rewrite Hy. apply String.eqb_refl.
Qed.
Lemma add_message_fail ev c m c' r : add_message ev c m = (c', r) -> r <> Ok tt -> c' = c.
Proof.
  unfold add_message. destruct (c_closed c); [intros [= <- <-]; auto|]. destruct (msg_blob (g_vec m)); try (intros [= <- <-]; auto; fail).
  destruct (_ && _); intros [= <- <-]; auto. congruence.
Qed.
Lemma create_session_cases ev c x c' r : create_session ev c x = (c', r) ->
  (r <> Ok tt /\ c' = c) \/
  (r = Ok tt /\ c_closed c = false /\ c_closed c' = false /\ c_msgs c' = c_msgs c /\ c_sessions c' = c_sessions c ++ [x] /\ ~ In (se_id x) (map se_id (c_sessions c))).
Proof.
  unfold create_session. destruct (c_closed c); [intros [= <- <-]; left; split; [discriminate|auto]|]. destruct (_ && _) eqn:E; intros [= <- <-]; [|left; split; [discriminate|auto]].
  right. cbn. repeat (split; [reflexivity|]). apply andb_true_iff in E as [_ E]. apply negb_true_iff in E. intros Hin. apply in_map_iff in Hin as (y & Hy & Hin).
  assert (existsb (fun y => String.eqb (se_id y) (se_id x)) (c_sessions c) = true); [|congruence].
  apply existsb_exists. exists y. split; auto. rewrite Hy. apply String.eqb_refl.
Qed.
Definition ok_tables (c : chat) : Prop :=
  (forall w, In w (c_msgs c) -> good_row w) /\ NoDup (map w_id (c_msgs c)) /\ NoDup (map se_id (c_sessions c)).
Lemma nodup_snoc {A} (l : list A) x : NoDup l -> ~ In x l -> NoDup (l ++ [x]).
Proof. intros N H. apply NoDup_app_intro; auto; [repeat constructor; tauto|]. intros y Hy [<-|[]]. auto. Qed.
Lemma crun_spec h : forall c, ok_tables c -> float_vectors h ->
  ok_tables (crun c h) /\ map read_msg (c_msgs (crun c h)) = map read_msg (c_msgs c) ++ added c h /\ c_sessions (crun c h) = c_sessions c ++ created c h.
Proof.
  induction h as [|[ev o] h IH]; intros c K F; cbn [added created]; [rewrite !app_nil_r; auto|].
  unfold crun. cbn [fold_left fst snd]. fold (crun (fst (cstep ev c o)) h).
  assert (F' : float_vectors h) by (intros e m Hin; apply (F e m); right; auto).
  assert (S1 : ok_tables (fst (cstep ev c o)) /\
    map read_msg (c_msgs (fst (cstep ev c o))) = map read_msg (c_msgs c) ++
      match o, snd (cstep ev c o) with
      | CAdd m, Ok _ => [{| g_id := g_id m; g_session := g_session m; g_role := g_role m; g_content := g_content m; g_vec := g_vec m; g_meta := g_meta m; g_time := ce_now ev |}]
      | _, _ => [] end /\
    c_sessions (fst (cstep ev c o)) = c_sessions c ++ match o, snd (cstep ev c o) with CCreate x, Ok _ => [x] | _, _ => [] end).
  { destruct o as [x|m| |]; cbn [cstep].
    - destruct (create_session ev c x) as [c' r] eqn:E. cbn [fst snd]. destruct (create_session_cases _ _ _ _ _ E) as [[Hr ->]|(-> & _ & _ & A & B & D)].
      + assert (match r with Ok _ => [x] | _ => [] end = []) as -> by (destruct r as [[]| |]; congruence). rewrite !app_nil_r. auto.
      + rewrite A, B, app_nil_r. split; auto. destruct K as (K1 & K2 & K3). unfold ok_tables. rewrite A, B, map_app. split; auto. split; auto. cbn. apply nodup_snoc; auto.
    - destruct (add_message ev c m) as [c' r] eqn:E. cbn [fst snd]. destruct r as [[]|x|].
      + apply add_message_ok in E as (b & Hb & _ & A & D & B).
        set (w := {| w_id := g_id m; w_blob := b |}) in B. destruct (msg_blob_spec (g_vec m) b w) as [Hv Hg]; auto; [eapply F; left; reflexivity|].
        rewrite A, B, app_nil_r, map_app. split; [|split; auto].
        * destruct K as (K1 & K2 & K3). unfold ok_tables. rewrite A, B, map_app. split; [|split; auto].
          -- intros w' Hw. apply in_app_or in Hw as [Hw|[<-|[]]]; auto.
          -- cbn. apply nodup_snoc; auto.
        * f_equal. cbn [map]. unfold read_msg at 1. rewrite Hv. reflexivity.
      + apply add_message_fail in E as ->; [|discriminate]. rewrite !app_nil_r. auto.
      + apply add_message_fail in E as ->; [|discriminate]. rewrite !app_nil_r. auto.
    - rewrite !app_nil_r. auto.
    - rewrite !app_nil_r. auto. }
  destruct S1 as (A & B & C). destruct (IH _ A F') as (A' & B' & C'). split; auto. rewrite B', B, C', C, !app_assoc. destruct o; auto.
Qed.
Lemma empty_ok : ok_tables empty_chat.
Proof. split; [intros w []|]. split; constructor. Qed.

(** *** the newest messages *)
Lemma topk_strict (all out : list message) : forall n, StronglySorted (fun a b => newer a b = true) all -> is_topk newer n all out -> out = firstn n all.
Proof.
  revert out. induction all as [|x all IH]; intros out n Hs (rest & P & L & S & T).
  - apply Permutation_nil in P. apply app_eq_nil in P as [-> _]. rewrite firstn_nil. reflexivity.
  - destruct n as [|n]; [destruct out; [reflexivity|discriminate]|]. destruct out as [|y out]; [discriminate|]. cbn [firstn].
    inversion Hs as [|? ? Hs' Hx]; subst. rewrite Forall_forall in Hx.
    assert (Hy : y = x).
    { assert (Hin : In y (x :: all)) by (eapply Permutation_in; [apply Permutation_sym; exact P|left; auto]). destruct Hin as [|Hin]; auto. exfalso.
      specialize (Hx y Hin). assert (Hxin : In x ((y :: out) ++ rest)) by (eapply Permutation_in; [exact P|left; auto]).
      cbn in Hxin. destruct Hxin as [->|Hxin]; [unfold newer in Hx; rewrite Z.ltb_irrefl in Hx; discriminate|].
      apply in_app_or in Hxin as [Ho|Hr].
      + inversion S as [|? ? _ Hf]; subst. rewrite Forall_forall in Hf. specialize (Hf x Ho). cbv beta in Hf. congruence.
      + specialize (T y x (or_introl eq_refl) Hr). congruence. }
    subst y. f_equal. apply (IH out n Hs'). exists rest. cbn in P. apply Permutation_cons_inv in P. split; auto. cbn in L. split; [lia|]. inversion S; subst. split; auto. intros a b Ha Hb. apply T; [right|]; auto.
Qed.
Lemma rev_strict (l : list message) : StronglySorted (fun a b => Z.lt (g_time a) (g_time b)) l -> StronglySorted (fun a b => newer a b = true) (rev l).
Proof.
  induction 1 as [|x l S IH F]; cbn; [constructor|]. clear S. rewrite Forall_forall in F.
  assert (F' : forall y, In y (rev l) -> newer y x = true) by (intros y Hy; apply in_rev in Hy; unfold newer; apply Z.ltb_lt; auto).
  clear F. induction (rev l) as [|z r IHr]; cbn; [repeat constructor|]. inversion IH as [|? ? A B]; subst. constructor.
  - apply IHr; auto. intros y Hy. apply F'. right. auto.
  - apply Forall_forall. intros y Hy. apply in_app_or in Hy as [Hy|[<-|[]]]; [|apply F'; left; auto]. rewrite Forall_forall in B. auto.
Qed.
Lemma last_n_rev {A} n (l : list A) : rev (firstn n (rev l)) = last_n n l.
Proof. unfold last_n. rewrite firstn_rev, rev_involutive. reflexivity. Qed.

Lemma later_weak l : weak_order_on later l.
Proof. split; unfold later; intros; [apply Z.ltb_lt in H1; apply Z.ltb_ge; lia|]. rewrite Z.ltb_ge in *. lia. Qed.
Lemma filter_read p l : filter (fun m => p (g_session m)) (map read_msg l) = map read_msg (filter (fun w => p (w_session w)) l).
Proof. induction l as [|w l IH]; cbn; auto. rewrite IH. destruct (p (w_session w)); reflexivity. Qed.

Definition hist_count (n : Z) (l : list message) : nat := if Z.ltb n 0 then length l else Z.to_nat n.
Lemma history_topk srt c id n out : sort_ok later srt -> session_history srt c id n = Ok out ->
  let mine := filter (fun m => String.eqb (g_session m) id) (map read_msg (c_msgs c)) in
  is_topk newer (hist_count n mine) mine (rev out).
Proof.
  intros Ks H. cbv zeta. unfold session_history in H. destruct (c_closed c); [discriminate|]. injection H as <-. rewrite rev_involutive, (filter_read (fun x => String.eqb x id)).
  set (rows := filter _ _). apply (is_topk_map read_msg later newer); [reflexivity|]. unfold hist_count, sql_limit. rewrite map_length.
  destruct (Z.ltb n 0).
  - pose proof (topk_of_sort later srt (length rows) rows Ks (later_weak _)) as H. rewrite (Permutation_length (proj1 (Ks rows))) in H at 2. rewrite firstn_all in H. exact H.
  - apply topk_of_sort; auto. apply later_weak.
Qed.

(** *** similarity *)
Lemma score_rows_spec sim q rows : (forall w, In w rows -> good_row w) ->
  score_rows sim q rows = map (fun m => (m, f32_of_f64 (sim q (g_vec m)))) (filter (fun m => negb (match g_vec m with [] => true | _ => false end)) (map read_msg rows)).
Proof.
  induction rows as [|w rows IH]; intros G; [reflexivity|]. unfold score_rows. cbn [flat_map map filter]. fold (score_rows sim q rows). rewrite IH by (intros; apply G; right; auto). specialize (G w (or_introl eq_refl)). unfold good_row in G.
  destruct (w_blob w) as [[|b bs]|] eqn:E.
  - destruct G as [G _]. congruence.
  - destruct G as (_ & G & _). cbn [read_msg g_vec]. destruct (row_vec w) eqn:Ev; [congruence|]. cbn. rewrite Ev. reflexivity.
  - cbn. rewrite G. reflexivity.
Qed.
Lemma score_user_rows_spec sim q rows : (forall w, In w rows -> good_row w) ->
  score_user_rows sim q rows = map (fun m => (m, f32_of_f64 (sim q (g_vec m)))) (filter (fun m => negb (match g_vec m with [] => true | _ => false end)) (map read_msg rows)).
Proof.
  induction rows as [|w rows IH]; intros G; [reflexivity|]. unfold score_user_rows. cbn [flat_map map filter]. fold (score_user_rows sim q rows). rewrite IH by (intros; apply G; right; auto). specialize (G w (or_introl eq_refl)). unfold good_row in G.
  destruct (w_blob w) as [[|b bs]|] eqn:E.
  - destruct G as [G _]. congruence.
  - destruct G as (_ & G & D). rewrite D. cbn [read_msg g_vec]. destruct (row_vec w) eqn:Ev; [congruence|]. cbn. rewrite Ev. reflexivity.
  - cbn. rewrite G. reflexivity.
Qed.
Lemma sorted_scores sim q k (l : list message) : (forall m, In m l -> not_nan (f32_of_f64 (sim q (g_vec m)))) ->
  is_topk (more_similar sim q) k l (map fst (firstn k (ex_sort by_msg_score (map (fun m => (m, f32_of_f64 (sim q (g_vec m)))) l)))).
Proof.
  intros Hn. set (f := fun m => (m, f32_of_f64 (sim q (g_vec m)))).
  assert (H : is_topk by_msg_score k (map f l) (firstn k (ex_sort by_msg_score (map f l)))).
  { apply topk_of_sort; [apply ex_sort_ok|]. apply (weak_order_desc snd). intros x Hx. apply in_map_iff in Hx as (m & <- & Hm). apply Hn; auto. }
  set (o := firstn k _) in *.
  assert (Ho : o = map f (map fst o)).
  { rewrite map_map. rewrite <- (map_id o) at 1. apply map_ext_in. intros x Hx. apply (is_topk_in _ _ _ _ _ H) in Hx. apply in_map_iff in Hx as (m & <- & _). reflexivity. }
  rewrite Ho in H. clearbody o. clear Ho. destruct H as (rest & P & L & S & T).
  assert (Hr : rest = map f (map fst rest)).
  { rewrite map_map. rewrite <- (map_id rest) at 1. apply map_ext_in. intros x Hx.
    assert (Hx' : In x (map f l)) by (eapply Permutation_in; [apply Permutation_sym; exact P|apply in_or_app; auto]). apply in_map_iff in Hx' as (m & <- & _). reflexivity. }
  rewrite Hr in P, T. rewrite <- map_app in P. apply (Permutation_map fst) in P. rewrite !map_map in P. cbn [f fst] in P. rewrite !map_id in P.
  exists (map fst rest). split; auto. rewrite !map_length in L. rewrite map_length. split; auto. split.
  - clear -S. induction (map fst o) as [|m ms IH]; cbn in *; [constructor|]. inversion S as [|? ? A B]; subst. constructor; auto.
    apply Forall_forall. intros y Hy. rewrite Forall_forall in B. apply (B (f y)). apply in_map; auto.
  - intros x y Hx Hy. apply (T (f x) (f y)); apply in_map; auto.
Qed.
Definition sees (ss : list session) (user exclude : string) (id : string) : bool :=
  existsb (fun x => String.eqb (se_id x) id && String.eqb (se_user x) user) ss && (String.eqb exclude "" || negb (String.eqb id exclude)).
Lemma sees_visible ss user exclude m : sees ss user exclude (g_session m) = true <-> visible ss user exclude m.
Proof.
  unfold sees, visible. rewrite andb_true_iff, existsb_exists, orb_true_iff, negb_true_iff, String.eqb_eq, String.eqb_neq.
  split; intros [(x & A & B) C]; (split; [exists x|auto]).
  - apply andb_true_iff in B as [B B']. apply String.eqb_eq in B, B'. auto.
  - destruct B as [-> ->]. rewrite !String.eqb_refl. auto.
Qed.
Lemma joined ss user exclude (w : mrow) : NoDup (map se_id ss) ->
  map (fun _ => w) (filter (fun x => String.eqb (se_id x) (w_session w) && String.eqb (se_user x) user && (String.eqb exclude "" || negb (String.eqb (w_session w) exclude))) ss) =
  if sees ss user exclude (w_session w) then [w] else [].
Proof.
  unfold sees. destruct (String.eqb exclude "" || _); [|rewrite andb_false_r; rewrite filter_none; auto; intros; apply andb_false_r]. rewrite andb_true_r.
  induction ss as [|x ss IH]; cbn; auto. intros N. inversion N as [|? ? Hn N']; subst. rewrite andb_true_r.
  destruct (String.eqb_spec (se_id x) (w_session w)) as [E|E]; cbn; [|apply IH; auto].
  assert (Hnone : forall y, In y ss -> (String.eqb (se_id y) (w_session w) && String.eqb (se_user y) user) = false).
  { intros y Hy. destruct (String.eqb_spec (se_id y) (w_session w)) as [E'|]; auto. exfalso. apply Hn. rewrite E, <- E'. apply in_map; auto. }
  destruct (String.eqb (se_user x) user); cbn.
  - rewrite filter_none; auto. intros y Hy. rewrite (Hnone y Hy). reflexivity.
  - rewrite filter_none; [|intros y Hy; rewrite (Hnone y Hy); reflexivity]. destruct (existsb _ ss) eqn:Ex; auto. apply existsb_exists in Ex as (y & Hy & Ht). rewrite (Hnone y Hy) in Ht. discriminate.
Qed.
Lemma user_rows_spec scan c user exclude : (forall l, Permutation (scan l) l) -> NoDup (map se_id (c_sessions c)) ->
  Permutation (user_rows scan c user exclude) (filter (fun w => sees (c_sessions c) user exclude (w_session w)) (c_msgs c)).
Proof.
  intros Hs N. unfold user_rows. eapply perm_trans; [apply Hs|]. induction (c_msgs c) as [|w ws IH]; cbn [flat_map filter]; [constructor|].
  rewrite joined by auto. destruct (sees _ _ _ _); cbn; auto.
Qed.
