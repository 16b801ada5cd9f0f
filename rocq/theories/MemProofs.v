(** Proofs about memories. *)
From Coq Require Import String List NArith ZArith Bool Lia Permutation.
From Coq Require Import Floats.SpecFloat.
From Verif Require Import Base Floats64 TopK EncodingModel EncodingSpec EncodingProofs StoreModel StoreProofs MultiVecProofs MemModel MemSpec.
Import ListNotations.
Open Scope string_scope.
Open Scope list_scope.

(** * Buckets *)
Definition bucket_of (p : place) : string :=
  match p with
  | PGlobal n => ("memory:global:" ++ n)%string
  | PUser u n => ("memory:user:" ++ u ++ ":" ++ n)%string
  | PSession s n => ("memory:session:" ++ s ++ ":" ++ n)%string
  end.
Lemma colon_split u u' n n' : no_colon u -> no_colon u' -> (u ++ ":" ++ n)%string = (u' ++ ":" ++ n')%string -> u = u' /\ n = n'.
Proof.
  revert u'. induction u as [|c u IH]; intros [|c' u'] A B E; cbn in E.
  - injection E as ->. auto.
  - injection E as <- E. destruct (B "" u'). cbn. reflexivity.
  - injection E as -> E. destruct (A "" u). cbn. reflexivity.
  - injection E as -> E. destruct (IH u') as [-> ->]; auto.
    + intros a b H. apply (A (String c' a) b). cbn. rewrite H. reflexivity.
    + intros a b H. apply (B (String c' a) b). cbn. rewrite H. reflexivity.
Qed.
Lemma bucket_inj p q : no_colon (owner p) -> no_colon (owner q) -> bucket_of p = bucket_of q -> p = q.
Proof.
  intros A B E. destruct p, q; cbn in E; try discriminate E; cbn in A, B.
  - injection E as ->. reflexivity.
  - injection E as E. destruct (colon_split _ _ _ _ A B E) as [-> ->]. reflexivity.
  - injection E as E. destruct (colon_split _ _ _ _ A B E) as [-> ->]. reflexivity.
Qed.
Lemma bucket_memory p : exists s, bucket_of p = ("memory:" ++ s)%string.
Proof. destruct p; cbn; eexists; reflexivity. Qed.

Section Mem.
Variables (trim lower : string -> string).
Notation addressed := (addressed trim lower).
Notation resolve := (resolve trim lower).
Lemma blank_iff s : blank trim s = true <-> trim s = "".
Proof. apply String.eqb_eq. Qed.
Lemma blank_false s : blank trim s = false <-> trim s <> "".
Proof. apply String.eqb_neq. Qed.
Lemma normal_ns_iff ns n : ((trim ns = "" /\ n = "default") \/ (trim ns <> "" /\ n = trim ns)) <-> n = normal_ns trim ns.
Proof.
  unfold normal_ns. destruct (blank trim ns) eqn:B; [apply blank_iff in B|apply blank_false in B]; (split; [intros [[A1 A2]|[A1 A2]]; [tauto|tauto]|intros ->; tauto]).
Qed.
Lemma resolve_some scope user session ns sc b : resolve scope user session ns = Some (sc, b) ->
  exists p, addressed scope user session ns p /\ sc = scope_name p /\ b = bucket_of p /\ namespace p = normal_ns trim ns.
Proof.
  intros R. unfold MemModel.resolve in R. set (n := normal_ns trim ns) in *. set (s := lower (trim scope)) in *.
  assert (N : forall x, x = n -> (trim ns = "" /\ x = "default") \/ (trim ns <> "" /\ x = trim ns)) by (intros x; apply normal_ns_iff).
  set (t := if String.eqb s "" then _ else s) in R.
  assert (T : (s = "" /\ trim session <> "" /\ t = "session") \/ (s = "" /\ trim session = "" /\ trim user <> "" /\ t = "user") \/
              (s = "" /\ trim session = "" /\ trim user = "" /\ t = "global") \/ (s <> "" /\ t = s)).
  { unfold t. destruct (String.eqb s "") eqn:E; [apply String.eqb_eq in E|apply String.eqb_neq in E; auto].
    destruct (blank trim session) eqn:B1; [apply blank_iff in B1|apply blank_false in B1; auto]. destruct (blank trim user) eqn:B2; [apply blank_iff in B2|apply blank_false in B2]; auto 8. }
  clearbody t. destruct (String.eqb t "global") eqn:G.
  { apply String.eqb_eq in G. subst t. injection R as <- <-. exists (PGlobal n). split; [|auto]. split; [apply N; reflexivity|]. cbn. fold s. destruct T as [(A & B & C)|[(A & B & C & D)|[(A & B & C & D)|[A B]]]]; try discriminate; auto. }
  destruct (String.eqb t "user") eqn:U.
  { apply String.eqb_eq in U. subst t. destruct (blank trim user) eqn:B; [discriminate|]. apply blank_false in B. injection R as <- <-. exists (PUser user n). split; [|auto]. split; [apply N; reflexivity|].
    cbn. fold s. split; [reflexivity|]. split; [exact B|]. destruct T as [(A & B' & C)|[(A & B' & C & D)|[(A & B' & C & D)|[A B']]]]; try discriminate; auto. }
  destruct (String.eqb t "session") eqn:S; [|discriminate].
  apply String.eqb_eq in S. subst t. destruct (blank trim session) eqn:B; [discriminate|]. apply blank_false in B. injection R as <- <-. exists (PSession session n). split; [|auto]. split; [apply N; reflexivity|].
  cbn. fold s. split; [reflexivity|]. split; [exact B|]. destruct T as [(A & B' & C)|[(A & B' & C & D)|[(A & B' & C & D)|[A B']]]]; try discriminate; auto.
Qed.
Lemma addressed_unique scope user session ns p q : addressed scope user session ns p -> addressed scope user session ns q -> p = q.
Proof.
  intros [A1 A2] [B1 B2]. apply normal_ns_iff in A1, B1. destruct p, q; cbn in *; repeat match goal with H : _ /\ _ |- _ => destruct H end; subst; try reflexivity; exfalso;
    repeat match goal with H : _ /\ _ |- _ => destruct H end; repeat match goal with H : _ \/ _ |- _ => destruct H end;
    repeat match goal with H : _ /\ _ |- _ => destruct H end; try congruence; match goal with A : lower (trim scope) = ?x, B : lower (trim scope) = ?y |- _ => rewrite A in B; discriminate B end.
Qed.

(** * The tables against the items *)
Definition vec_ok (o : option (list N)) (w : mem) : Prop :=
  match o with None => has_vec w = false | Some v => has_vec w = true /\ (float32_bits v -> mem_vec w = v) end.
Lemma embed_vec_ok ev t b w : embed_content ev t = Ok b -> me_blob w = b -> vec_ok (embedded ev t) w.
Proof using Type.
  clear trim lower. unfold embed_content, embedded, vec_ok. destruct (mv_embed ev) as [f|]; [|intros [= <-] E; unfold has_vec; rewrite E; reflexivity].
  destruct (f t) as [v|]; [|discriminate]. destruct (encode_vector (Some v)) as [bs|e|] eqn:E; cbn [bind]; try discriminate. intros [= <-] B.
  assert (L : (N.of_nat (length v) <= max_int32)%N). { unfold encode_vector in E. destruct (N.ltb_spec max_int32 (N.of_nat (length v))); [discriminate|]. assumption. }
  assert (Nz : exists x l, bs = x :: l). { unfold encode_vector in E. destruct (N.ltb max_int32 (N.of_nat (length v))); [discriminate|]. injection E as <-. cbn. eauto. }
  destruct Nz as (x & l & ->). unfold has_vec, mem_vec. rewrite B. split; [reflexivity|]. intros F. destruct (encode_decode v [] L F) as (b' & E' & _ & D). rewrite app_nil_r in D. rewrite E in E'. injection E' as <-. rewrite D. reflexivity.
Qed.
Definition good_row (h : list (menv * mcall)) (st : items) (w : mem) : Prop :=
  exists i, st (me_id w) = Some i /\ (forall u, shows i (to_record u w)) /\
  match it_place i with
  | Some p => me_bucket w = bucket_of p
  | None => exists ev x, In (ev, MMessage x) h /\ me_bucket w = me_bucket x
  end /\ (forall k, In k own_keys -> it_extra i k = None) /\ (it_place i <> None -> vec_ok (it_vec i) w).
Definition agrees (h : list (menv * mcall)) (db : memdb) (st : items) : Prop :=
  NoDup (map me_id (md_rows db)) /\
  (forall w, In w (md_rows db) -> good_row h st w /\ assoc (me_bucket w) (md_sessions db) <> None) /\
  (forall id i, st id = Some i -> exists w, In w (md_rows db) /\ me_id w = id).

Lemma row_find db id w : NoDup (map me_id (md_rows db)) -> (find_row db id = Some w <-> In w (md_rows db) /\ me_id w = id).
Proof using Type. clear trim lower.
  intros N. unfold find_row. split.
  - intros H. apply find_some in H as [H E]. apply String.eqb_eq in E. auto.
  - intros [H <-]. induction (md_rows db) as [|x l IH]; [destruct H|]. cbn [map] in N. apply NoDup_cons_iff in N as [N1 N2]. cbn [find]. destruct H as [->|H]; [rewrite String.eqb_refl; reflexivity|].
    destruct (String.eqb (me_id x) (me_id w)) eqn:E; [|apply IH; auto]. apply String.eqb_eq in E. destruct N1. rewrite E. apply in_map. exact H.
Qed.
Lemma load_ok h db st id w : agrees h db st -> id <> "" -> In w (md_rows db) -> me_id w = id -> exists u, load db id = Ok (w, to_record u w).
Proof using Type. clear trim lower.
  intros (N & G & _) I H E. unfold load. apply String.eqb_neq in I. rewrite I. rewrite (proj2 (row_find db id w N)) by auto.
  destruct (assoc (me_bucket w) (md_sessions db)) as [u|] eqn:A; [eauto|]. destruct (G w H) as [_ X]. destruct (X A).
Qed.
Lemma load_some h db st id w r : agrees h db st -> load db id = Ok (w, r) -> id <> "" /\ In w (md_rows db) /\ me_id w = id /\ exists u, r = to_record u w.
Proof using Type. clear trim lower.
  intros (N & G & _) L. unfold load in L. destruct (String.eqb id "") eqn:I; [discriminate|]. apply String.eqb_neq in I. destruct (find_row db id) as [x|] eqn:F; [|discriminate].
  apply (row_find db id x N) in F as [F1 F2]. destruct (assoc (me_bucket x) (md_sessions db)) as [u|]; [|discriminate]. injection L as -> <-. eauto 6.
Qed.
Lemma load_none h db st id : agrees h db st -> id <> "" -> st id = None -> load db id = Err ENotFound.
Proof using Type. clear trim lower.
  intros (N & G & _) I S. unfold load. apply String.eqb_neq in I. rewrite I. destruct (find_row db id) as [w|] eqn:F; [|reflexivity].
  apply (row_find db id w N) in F as [F1 F2]. destruct (G w F1) as [(i & X & _) _]. congruence.
Qed.

(** * Metadata *)
Lemma given_filter m k : assoc k (filter (fun kv => negb (StoreModel.mem (fst kv) reserved)) m) = given m k.
Proof using Type. clear trim lower.
  unfold given. change own_keys with reserved. destruct (in_dec string_dec k reserved) as [I|I].
  - induction m as [|[k' v] m IH]; [reflexivity|]. cbn [filter fst]. destruct (StoreModel.mem k' reserved) eqn:E; cbn [negb]; auto. cbn [assoc].
    destruct (String.eqb k k') eqn:F; auto. apply String.eqb_eq in F. subst k'. apply mem_In in I. congruence.
  - induction m as [|[k' v] m IH]; [reflexivity|]. cbn [filter fst assoc]. destruct (String.eqb k k') eqn:F.
    + apply String.eqb_eq in F. subst k'. destruct (StoreModel.mem k reserved) eqn:E; [apply mem_In in E; tauto|]. cbn [negb assoc]. rewrite String.eqb_refl. reflexivity.
    + destruct (StoreModel.mem k' reserved); cbn [negb assoc]; auto. rewrite F. auto.
Qed.
Lemma assoc_app {V} k (a b : list (string * V)) : assoc k (a ++ b) = match assoc k a with Some v => Some v | None => assoc k b end.
Proof using Type. clear trim lower. induction a as [|[k' v] a IH]; auto. cbn [app assoc]. destruct (String.eqb k k'); auto. Qed.
Lemma merge_assoc old new k : assoc k (merge_meta old new) = match assoc k new with Some v => Some v | None => assoc k old end.
Proof using Type. clear trim lower.
  unfold merge_meta. rewrite assoc_app. destruct (assoc k new) as [v|] eqn:A; auto. apply assoc_none in A. induction old as [|[k' v] old IH]; [reflexivity|]. cbn [filter fst assoc].
  destruct (existsb (String.eqb k') (map fst new)) eqn:E; cbn [negb assoc].
  - destruct (String.eqb k k') eqn:F; auto. apply String.eqb_eq in F. subst k'. apply existsb_exists in E as (x & Hx & E). apply String.eqb_eq in E. subst x. tauto.
  - destruct (String.eqb k k'); auto.
Qed.
Lemma expiry_spec now ttl :
  ((ttl <= 0)%Z -> expiry now ttl = None) /\
  ((0 < ttl)%Z -> exists e, expiry now ttl = Some e /\ (e * 1000000000 <= now + ttl * 1000000000)%Z /\
     ((ttl * 1000000000 < 2 ^ 63)%Z -> (now + ttl * 1000000000 < (e + 1) * 1000000000)%Z)).
Proof using Type.
  clear trim lower. unfold expiry, giga. split; intros H; [assert (E : Z.ltb 0 ttl = false) by (apply Z.ltb_ge; lia); rewrite E; reflexivity|].
  assert (E : Z.ltb 0 ttl = true) by (apply Z.ltb_lt; lia). rewrite E. eexists. split; [reflexivity|].
  assert (W : (wrap_int64 (ttl * 1000000000) <= ttl * 1000000000)%Z).
  { unfold wrap_int64. assert (X := Z.mod_le (ttl * 1000000000 + 2 ^ 63) (2 ^ 64) ltac:(lia) ltac:(lia)). lia. }
  pose proof (Z.mul_div_le (now + wrap_int64 (ttl * 1000000000)) 1000000000 ltac:(lia)). split; [lia|]. intros B.
  assert (Ew : wrap_int64 (ttl * 1000000000) = (ttl * 1000000000)%Z).
  { unfold wrap_int64. rewrite Z.mod_small by lia. lia. }
  rewrite Ew in *. pose proof (Z.mul_succ_div_gt (now + ttl * 1000000000) 1000000000 ltac:(lia)). lia.
Qed.

(** * One call *)
Lemma agrees_more h h' db st : agrees h db st -> (forall x, In x h -> In x h') -> agrees h' db st.
Proof using Type. clear trim lower.
  intros (A & B & C) S. split; [exact A|]. split; [|exact C]. intros w H. destruct (B w H) as [(i & B1 & B2 & B3) B4]. split; [|exact B4]. exists i. split; [exact B1|]. split; [exact B2|].
  destruct B3 as (B3 & B5 & B6). split; [|split; [exact B5|exact B6]]. destruct (it_place i); auto. destruct B3 as (ev & x & X & Y). exists ev, x. auto.
Qed.
Lemma agrees_sessions h db st b u : agrees h db st -> agrees h {| md_sessions := md_sessions db ++ [(b, u)]; md_rows := md_rows db |} st.
Proof using Type. clear trim lower.
  intros (A & B & C). split; [exact A|]. split; [|exact C]. intros w H. destruct (B w H) as [B1 B2]. split; [exact B1|]. cbn [md_sessions]. rewrite assoc_app. destruct (assoc (me_bucket w) (md_sessions db)); congruence.
Qed.
Lemma agrees_ext h db st st' : agrees h db st -> (forall x, st' x = st x) -> agrees h db st'.
Proof using Type. clear trim lower.
  intros (A & B & C) E. split; [exact A|]. split.
  - intros w H. destruct (B w H) as [(i & B1 & B2) B3]. split; [|exact B3]. exists i. rewrite E. auto.
  - intros id i H. rewrite E in H. eauto.
Qed.
Lemma put_ids rows w : map me_id (put_row rows w) = if existsb (fun x => String.eqb (me_id x) (me_id w)) rows then map me_id rows else map me_id rows ++ [me_id w].
Proof using Type. clear trim lower.
  unfold put_row. destruct (existsb _ rows); [|apply map_app]. rewrite map_map. apply map_ext. intros x. destruct (String.eqb (me_id x) (me_id w)); reflexivity.
Qed.
Lemma put_in rows w x : NoDup (map me_id rows) -> (In x (put_row rows w) <->
  (In x rows /\ me_id x <> me_id w) \/
  (me_id x = me_id w /\ exists t, x = {| me_id := me_id w; me_bucket := me_bucket w; me_role := me_role w; me_content := me_content w; me_blob := me_blob w; me_meta := me_meta w; me_time := t |} /\
     ((exists y, In y rows /\ me_id y = me_id w /\ t = me_time y) \/ ((forall y, In y rows -> me_id y <> me_id w) /\ t = me_time w)))).
Proof using Type. clear trim lower.
  intros N. unfold put_row. destruct (existsb (fun x => String.eqb (me_id x) (me_id w)) rows) eqn:E.
  - apply existsb_exists in E as (y0 & Y0 & E0). apply String.eqb_eq in E0. rewrite in_map_iff. split.
    + intros (y & <- & Y). destruct (String.eqb (me_id y) (me_id w)) eqn:F.
      * apply String.eqb_eq in F. right. cbn [me_id]. split; [exact F|]. exists (me_time y). rewrite F. split; [reflexivity|]. left. exists y. auto.
      * apply String.eqb_neq in F. left. auto.
    + intros [[H D]|[H (t & -> & [(y & Y & E1 & ->)|[No _]])]].
      * exists x. apply String.eqb_neq in D. rewrite D. auto.
      * exists y. rewrite E1, String.eqb_refl. auto.
      * destruct (No y0 Y0 E0).
  - assert (No : forall y, In y rows -> me_id y <> me_id w).
    { intros y Y X. assert (Z : existsb (fun x => String.eqb (me_id x) (me_id w)) rows = true); [|congruence]. apply existsb_exists. exists y. split; [exact Y|]. apply String.eqb_eq. exact X. }
    rewrite in_app_iff. split.
    + intros [H|[<-|[]]]; [left; auto|]. right. split; [reflexivity|]. exists (me_time w). split; [destruct w; reflexivity|]. auto.
    + intros [[H _]|[H (t & -> & [(y & Y & E1 & _)|[_ ->]])]]; [auto|destruct (No y Y E1)|]. right. left. destruct w; reflexivity.
Qed.

Lemma changes_same st ev c x : (forall i, c <> MDelete i) -> (forall w, c <> MMessage w) -> forall st' , (forall y, st' y = st y) -> changes_items trim lower st ev c (Err x) st'.
Proof using Type. intros D M st' H. destruct c; cbn; auto. Qed.
Lemma changes_panic st ev c : (forall i, c <> MDelete i) -> (forall w, c <> MMessage w) -> forall st', (forall y, st' y = st y) -> changes_items trim lower st ev c Panic st'.
Proof using Type. intros D M st' H. destruct c; cbn; auto. Qed.

Lemma save_step h db st ev q : agrees h db st -> let (db', o) := mstep trim lower ev db (MSave q) in
  exists st', changes_items trim lower st ev (MSave q) o st' /\ agrees h db' st'.
Proof using Type.
  intros A. cbn [mstep]. unfold save.
  assert (Same : forall db', agrees h db' st -> forall x, exists st', changes_items trim lower st ev (MSave q) (Err x) st' /\ agrees h db' st') by (intros db' A' x; exists st; split; [cbn; auto|exact A']).
  destruct (String.eqb (sv_id q) "") eqn:I; [cbn [bind]; apply Same; exact A|]. apply String.eqb_neq in I.
  destruct (blank trim (sv_content q)) eqn:Bc; [apply Same; exact A|].
  destruct (resolve (sv_scope q) (sv_user q) (sv_session q) (sv_ns q)) as [[sc b]|] eqn:R; [|apply Same; exact A].
  destruct (resolve_some _ _ _ _ _ _ R) as (p & P & -> & -> & Np).
  destruct (ensure_bucket ev db (bucket_of p) (sv_user q)) as [db1|] eqn:En; [|apply Same; exact A].
  assert (A1 : agrees h db1 st /\ md_rows db1 = md_rows db /\ assoc (bucket_of p) (md_sessions db1) <> None).
  { unfold ensure_bucket in En. destruct (assoc (bucket_of p) (md_sessions db)) eqn:As.
    - injection En as <-. split; [exact A|]. split; [reflexivity|congruence].
    - destruct (mv_ok ev 0); [|discriminate]. injection En as <-. split; [apply agrees_sessions; exact A|]. split; [reflexivity|]. cbn [md_sessions]. rewrite assoc_app, As. cbn. rewrite String.eqb_refl. discriminate. }
  destruct A1 as (A1 & Rw & Se). clear En.
  destruct (embed_content ev (sv_content q)) as [blob|e|] eqn:Em; cbn [bind]; [|apply Same; exact A1|exists st; split; [cbn; auto|exact A1]].
  destruct (finite_number (sv_importance q) && mv_ok ev 1); cbn [bind]; [|apply Same; exact A1].
  set (w := {| me_id := sv_id q; me_bucket := bucket_of p; me_role := _; me_content := _; me_blob := _; me_meta := _; me_time := _ |}).
  set (db2 := {| md_sessions := md_sessions db1; md_rows := put_row (md_rows db1) w |}).
  pose (it := {| it_place := Some p; it_role := if string_dec (trim (sv_role q)) "" then "user" else sv_role q; it_content := sv_content q;
        it_importance := sv_importance q; it_ttl := sv_ttl q; it_extra := given (sv_meta q); it_vec := embedded ev (sv_content q);
        it_created := match st (sv_id q) with Some i => it_created i | None => mv_now ev end; it_written := mv_now ev |}).
  pose (st' := with_item st (sv_id q) (Some it)).
  assert (A2 : agrees h db2 st').
  { destruct A1 as (N & G & C). split; [|split].
    - cbn [md_rows db2]. rewrite put_ids. destruct (existsb _ _) eqn:E; [exact N|]. apply NoDup_app_intro; [exact N|repeat constructor; cbn; tauto|].
      intros x Hx [<-|[]]. apply in_map_iff in Hx as (y & Ey & Y). assert (Z : existsb (fun x => String.eqb (me_id x) (me_id w)) (md_rows db1) = true); [|congruence].
      apply existsb_exists. exists y. split; [exact Y|]. apply String.eqb_eq. exact Ey.
    - intros x Hx. cbn [md_rows db2] in Hx. apply put_in in Hx; [|exact N]. destruct Hx as [[Hx D]|[Ix (t & -> & T)]].
      + destruct (G x Hx) as [(i & G1 & G2) G3]. split; [|exact G3]. exists i. split; [|exact G2]. unfold st', with_item. destruct (string_dec (me_id x) (sv_id q)); [destruct (D e)|exact G1].
      + split; [|exact Se]. exists it. split; [unfold st', with_item; cbn [me_id w]; destruct (string_dec (sv_id q) (sv_id q)); [reflexivity|congruence]|]. split; [|split; [reflexivity|split; [intros k K; cbn [it it_extra]; unfold given; destruct (in_dec string_dec k own_keys); [reflexivity|tauto]|intros _; eapply embed_vec_ok; [exact Em|reflexivity]]]].
        intros u. unfold shows. cbn -[given string_dec Z.mul Z.pow].
        assert (Ro : (if blank trim (sv_role q) then "user" else sv_role q) = if string_dec (trim (sv_role q)) "" then "user" else sv_role q).
        { destruct (blank trim (sv_role q)) eqn:B; [apply blank_iff in B|apply blank_false in B]; destruct (string_dec (trim (sv_role q)) ""); congruence. }
        assert (Ti : t = match st (sv_id q) with Some i => it_created i | None => mv_now ev end).
        { destruct T as [(y & Y1 & Y2 & ->)|[No ->]].
          - destruct (G y Y1) as [(i & G1 & G2 & _) _]. cbn [me_id w] in Y2. rewrite Y2 in G1. rewrite G1. destruct (G2 "") as (_ & _ & _ & _ & _ & X & _). exact X.
          - destruct (st (sv_id q)) as [i|] eqn:S; [|reflexivity]. destruct (C _ _ S) as (y & Y1 & Y2). destruct (No y Y1 Y2). }
        pose proof (expiry_spec (mv_now ev) (sv_ttl q)) as [X1 X2].
        split; [exact Ro|]. split; [reflexivity|]. split; [reflexivity|]. split; [reflexivity|]. split; [intros k; apply given_filter|]. split; [exact Ti|].
        split; [reflexivity|]. split; [symmetry; exact Np|]. split; [exact X1|exact X2].
    - intros id i. unfold st', with_item. destruct (string_dec id (sv_id q)) as [->|D].
      + intros _. assert (In (sv_id q) (map me_id (put_row (md_rows db1) w))) as X.
        { rewrite put_ids. destruct (existsb (fun x => String.eqb (me_id x) (me_id w)) (md_rows db1)) eqn:E; [|apply in_or_app; right; left; reflexivity].
          apply existsb_exists in E as (y & Y & E). apply String.eqb_eq in E. cbn [me_id w] in E. rewrite <- E. apply in_map. exact Y. }
        apply in_map_iff in X as (y & E & Y). exists y. auto.
      + intros S. destruct (C id i S) as (y & Y & E). exists y. split; [|exact E]. cbn [md_rows db2]. apply put_in; [exact N|]. left. cbn [me_id w]. split; [exact Y|congruence]. }
  assert (L : exists y, In y (md_rows db2) /\ me_id y = sv_id q).
  { destruct A2 as (_ & _ & C). apply (C (sv_id q) it). unfold st', with_item. destruct (string_dec (sv_id q) (sv_id q)); [reflexivity|congruence]. }
  destruct L as (y & Y & Ey). destruct (load_ok h db2 st' (sv_id q) y A2 I Y Ey) as (u & ->). cbn [bind].
  exists st'. split; [|exact A2]. cbn. exists p. split; [exact P|]. intros x. reflexivity.
Qed.

Lemma update_step h db st ev q : agrees h db st -> let (db', o) := mstep trim lower ev db (MUpdate q) in
  exists st', changes_items trim lower st ev (MUpdate q) o st' /\ agrees h db' st'.
Proof using Type.
  intros A. cbn [mstep]. unfold update.
  assert (Same : forall x, exists st', changes_items trim lower st ev (MUpdate q) (Err x) st' /\ agrees h db st') by (intros x; exists st; split; [cbn; auto|exact A]).
  destruct (String.eqb (up_id q) "") eqn:I; [cbn [bind]; apply Same|]. apply String.eqb_neq in I.
  destruct (load db (up_id q)) as [[w c]|e|] eqn:L; cbn [bind]; [|apply Same|exists st; split; [cbn; auto|exact A]].
  destruct (load_some _ _ _ _ _ _ A L) as (_ & W & Wi & u & ->).
  match goal with |- context [match ?m with Ok _ => _ | Err _ => _ | Panic => _ end] => set (body := m) end.
  destruct body as [[content blob]|e|] eqn:Bd; cbn [bind]; [|apply Same|exists st; split; [cbn; auto|exact A]].
  destruct A as (N & G & C). destruct (G w W) as [(i & G1 & G2 & G3 & G5 & G6) G4]. specialize (G2 "") as Sh. destruct Sh as (S1 & S2 & S3 & S4 & S5 & S6 & S7 & S8 & _).
  set (imp := match up_importance q with Some _ => _ | None => _ end). set (ttl := match up_ttl q with Some _ => _ | None => _ end).
  destruct (finite_number imp && mv_ok ev 0); cbn [bind]; [|apply Same].
  set (m := build_meta _ _ _ _ imp ttl). set (db2 := {| md_sessions := _; md_rows := _ |}).
  pose (it := {| it_place := it_place i; it_role := it_role i;
        it_content := match up_content q with Some t => t | None => it_content i end;
        it_importance := match up_importance q with Some f => f | None => it_importance i end;
        it_ttl := match up_ttl q with Some t => t | None => it_ttl i end;
        it_extra := fun k => match given (up_meta q) k with Some v => Some v | None => it_extra i k end;
        it_vec := match up_content q with Some t => embedded ev t | None => it_vec i end;
        it_created := it_created i; it_written := mv_now ev |}).
  pose (st' := with_item st (up_id q) (Some it)).
  assert (Uniq : forall x, In x (md_rows db) -> me_id x = up_id q -> x = w).
  { intros x X E. assert (F1 : find_row db (up_id q) = Some x) by (apply row_find; auto). assert (F2 : find_row db (up_id q) = Some w) by (apply row_find; auto). congruence. }
  assert (Ids : map me_id (md_rows db2) = map me_id (md_rows db)).
  { cbn [md_rows db2]. rewrite map_map. apply map_ext. intros x. destruct (String.eqb (me_id x) (up_id q)); reflexivity. }
  assert (A2 : agrees h db2 st').
  { split; [rewrite Ids; exact N|]. split.
    - intros x Hx. cbn [md_rows db2] in Hx. apply in_map_iff in Hx as (y & <- & Y). destruct (String.eqb (me_id y) (up_id q)) eqn:E.
      + apply String.eqb_eq in E. assert (y = w) by (apply Uniq; auto). subst y. cbn [me_bucket md_sessions db2]. split; [|exact G4]. exists it. cbn [me_id]. split; [unfold st', with_item; rewrite Wi; destruct (string_dec (up_id q) (up_id q)); [reflexivity|congruence]|].
        split; [|split; [cbn [it_place it me_bucket]; exact G3|split; [intros k K; cbn [it it_extra]; rewrite (G5 k K); unfold given; destruct (in_dec string_dec k own_keys); [reflexivity|tauto]|]]].
        2: { cbn [it_place it it_vec]. intros P. unfold body in Bd. destruct (up_content q) as [t|]; [|injection Bd as _ <-; apply G6; exact P]. destruct (blank trim t); [discriminate|].
             destruct (embed_content ev t) eqn:Em; cbn [bind] in Bd; try discriminate. injection Bd as _ <-. eapply embed_vec_ok; [exact Em|reflexivity]. }
        intros u'. unfold shows. cbn -[given merge_meta Z.mul Z.pow].
        split; [exact S1|]. split.
        { unfold body in Bd. destruct (up_content q) as [t|]; [|injection Bd as <- _; exact S2]. destruct (blank trim t); [discriminate|]. destruct (embed_content ev t); cbn [bind] in Bd; try discriminate. injection Bd as <- _. reflexivity. }
        assert (T : ttl = match up_ttl q with Some t => t | None => it_ttl i end) by (unfold ttl; destruct (up_ttl q); [reflexivity|exact S4]).
        split; [unfold imp; destruct (up_importance q); [reflexivity|exact S3]|]. split; [exact T|]. split.
        { intros k. cbn in S5. rewrite given_filter. unfold given. pose proof (S5 k) as S5k. destruct (in_dec string_dec k own_keys) as [K|K].
          - symmetry. apply G5. exact K.
          - rewrite merge_assoc. destruct (assoc k (up_meta q)); auto. }
        split; [exact S6|]. split; [exact S7|]. split; [exact S8|]. rewrite <- T. apply expiry_spec.
      + apply String.eqb_neq in E. destruct (G y Y) as [(j & J1 & J2) J3]. split; [|exact J3]. exists j. split; [|exact J2]. unfold st', with_item. destruct (string_dec (me_id y) (up_id q)); [congruence|exact J1].
    - intros id j. unfold st', with_item. destruct (string_dec id (up_id q)) as [->|D]; intros Sj.
      + assert (X : In (up_id q) (map me_id (md_rows db2))) by (rewrite Ids; rewrite <- Wi; apply in_map; exact W). apply in_map_iff in X as (y & E & Y). eauto.
      + destruct (C id j Sj) as (y & Y & E). assert (X : In id (map me_id (md_rows db2))) by (rewrite Ids, <- E; apply in_map; exact Y). apply in_map_iff in X as (z & E2 & Z). eauto. }
  destruct A2 as (N2 & G2' & C2). assert (A2 : agrees h db2 st') by (split; auto). clear N2 G2'.
  destruct (C2 (up_id q) it) as (y & Y & Ey); [unfold st', with_item; destruct (string_dec (up_id q) (up_id q)); [reflexivity|congruence]|].
  destruct (load_ok h db2 st' (up_id q) y A2 I Y Ey) as (u' & ->). cbn [bind]. exists st'. split; [|exact A2]. cbn. exists i. rewrite Wi in G1. split; [exact G1|]. intros x. reflexivity.
Qed.

Lemma delete_step h db st ev id : agrees h db st -> let (db', o) := mstep trim lower ev db (MDelete id) in
  exists st', changes_items trim lower st ev (MDelete id) o st' /\ agrees h db' st'.
Proof using Type.
  intros A. cbn [mstep]. unfold delete.
  assert (Same : forall x, exists st', changes_items trim lower st ev (MDelete id) (Err x) st' /\ agrees h db st') by (intros x; exists st; split; [cbn; auto|exact A]).
  destruct (String.eqb id "") eqn:I; [apply Same|]. apply String.eqb_neq in I.
  destruct (load db id) as [[w c]|e|] eqn:L; [|apply Same|exists st; split; [cbn; auto|exact A]].
  destruct (load_some _ _ _ _ _ _ A L) as (_ & W & Wi & u & ->).
  destruct (mv_ok ev 0) eqn:K0; cbn [negb]; [|apply Same]. set (rows := filter _ (md_rows db)).
  pose (st' := with_item st id None). destruct A as (N & G & C).
  assert (X : forall ss, (forall x, In x rows -> assoc (me_bucket x) ss <> None) -> agrees h {| md_sessions := ss; md_rows := rows |} st').
  { intros ss S. split; [|split].
    - cbn [md_rows]. unfold rows. clear -N. induction (md_rows db) as [|x l IH]; [constructor|]. cbn [map] in N. apply NoDup_cons_iff in N as [N1 N2]. cbn [filter]. destruct (negb _); [|apply IH; exact N2].
      cbn [map]. apply NoDup_cons_iff. split; [|apply IH; exact N2]. intros H. apply N1. apply in_map_iff in H as (y & <- & Y). apply filter_In in Y as [Y _]. apply in_map. exact Y.
    - intros x Hx. cbn [md_rows md_sessions] in *. split; [|apply S; exact Hx]. unfold rows in Hx. apply filter_In in Hx as [Hx D]. apply negb_true_iff, String.eqb_neq in D. destruct (G x Hx) as [(i & G1 & G2) _].
      exists i. split; [|exact G2]. unfold st', with_item. destruct (string_dec (me_id x) id); [congruence|exact G1].
    - intros j i. unfold st', with_item. destruct (string_dec j id) as [->|D]; [discriminate|]. intros H. destruct (C j i H) as (y & Y & E). exists y. split; [|exact E]. cbn [md_rows]. unfold rows. apply filter_In. split; [exact Y|].
      apply negb_true_iff, String.eqb_neq. congruence. }
  assert (X1 : agrees h {| md_sessions := md_sessions db; md_rows := rows |} st').
  { apply X. intros x Hx. apply filter_In in Hx as [Hx _]. apply (G x Hx). }
  assert (O : changes_items trim lower st ev (MDelete id) (Ok tt) st').
  { cbn. split; [|intros x; reflexivity]. destruct (G w W) as [(i & G1 & _) _]. rewrite Wi in G1. congruence. }
  destruct (mv_ok ev 1); cbn [negb].
  - destruct (existsb (fun x => String.eqb (me_bucket x) (me_bucket w)) rows) eqn:E; [exists st'; auto|]. exists st'. split; [exact O|]. apply X.
    intros x Hx Z. assert (D : me_bucket x <> me_bucket w).
    { intros B. assert (existsb (fun x => String.eqb (me_bucket x) (me_bucket w)) rows = true); [|congruence]. apply existsb_exists. exists x. split; [exact Hx|]. apply String.eqb_eq. exact B. }
    apply filter_In in Hx as [Hx _]. destruct (G x Hx) as [_ S]. apply S. clear -Z D. induction (md_sessions db) as [|[k v] l IH]; [reflexivity|]. cbn [filter fst] in Z. cbn [assoc].
    destruct (String.eqb k (me_bucket w)) eqn:Ek; cbn [negb] in Z.
    + apply String.eqb_eq in Ek. subst k. apply String.eqb_neq in D. rewrite D. auto.
    + cbn [assoc] in Z. destruct (String.eqb (me_bucket x) k); [discriminate|auto].
  - exists st'. split; [|exact X1]. cbn. right. intros x. reflexivity.
Qed.

Lemma message_step h db st ev w : agrees h db st -> let (db', o) := mstep trim lower ev db (MMessage w) in
  exists st', changes_items trim lower st ev (MMessage w) o st' /\ agrees (h ++ [(ev, MMessage w)]) db' st'.
Proof using Type.
  intros A. cbn [mstep]. unfold chat_message. assert (A' : agrees (h ++ [(ev, MMessage w)]) db st) by (eapply agrees_more; [exact A|intros x Hx; apply in_or_app; auto]).
  destruct (assoc (me_bucket w) (md_sessions db)) as [u|] eqn:S; [|exists st; split; [cbn; auto|exact A']].
  destruct (existsb (fun x => String.eqb (me_id x) (me_id w)) (md_rows db)) eqn:E; [exists st; split; [cbn; auto|exact A']|].
  assert (No : forall y, In y (md_rows db) -> me_id y <> me_id w).
  { intros y Y X. assert (Z : existsb (fun x => String.eqb (me_id x) (me_id w)) (md_rows db) = true); [|congruence]. apply existsb_exists. exists y. split; [exact Y|]. apply String.eqb_eq. exact X. }
  destruct A' as (N & G & C).
  assert (Free : st (me_id w) = None) by (destruct (st (me_id w)) as [i|] eqn:F; [|reflexivity]; destruct (C _ _ F) as (y & Y & Ey); destruct (No y Y Ey)).
  eexists. split; [right; split; [exact Free|intros x; reflexivity]|]. split; [|split].
  - cbn [md_rows]. rewrite map_app. apply NoDup_app_intro; [exact N|repeat constructor; cbn; tauto|]. intros x Hx [<-|[]]. apply in_map_iff in Hx as (y & Ey & Y). destruct (No y Y Ey).
  - intros x Hx. cbn [md_rows] in Hx. apply in_app_or in Hx as [Hx|[<-|[]]].
    + destruct (G x Hx) as [(i & G1 & G2) G3]. split; [|exact G3]. exists i. split; [|exact G2]. unfold with_item. destruct (string_dec (me_id x) (me_id w)) as [D|D]; [destruct (No x Hx D)|exact G1].
    + cbn [me_bucket md_sessions]. split; [|congruence]. eexists. cbn [me_id]. split; [unfold with_item; destruct (string_dec (me_id w) (me_id w)); [reflexivity|congruence]|]. split; [|split].
      * intros u'. unfold shows. cbn -[Z.mul Z.pow]. repeat (split; [reflexivity|]). intros H. inversion H.
      * cbn. exists ev, w. split; [apply in_or_app; right; left; reflexivity|reflexivity].
      * split; [intros k _; reflexivity|]. intros X. destruct X. reflexivity.
  - intros id i. unfold with_item. destruct (string_dec id (me_id w)) as [->|D]; intros H.
    + eexists. cbn [md_rows]. split; [apply in_or_app; right; left; reflexivity|reflexivity].
    + destruct (C id i H) as (y & Y & Ey). exists y. split; [cbn [md_rows]; apply in_or_app; left; exact Y|exact Ey].
Qed.

Lemma any_step h db st ev c : agrees h db st -> let (db', o) := mstep trim lower ev db c in
  exists st', changes_items trim lower st ev c o st' /\ agrees (h ++ [(ev, c)]) db' st'.
Proof using Type.
  intros A. assert (M : forall d s, agrees h d s -> agrees (h ++ [(ev, c)]) d s) by (intros d s X; eapply agrees_more; [exact X|intros x Hx; apply in_or_app; auto]).
  destruct c as [q|q|id|id u|w].
  - pose proof (save_step h db st ev q A) as H. destruct (mstep trim lower ev db (MSave q)) as [db' o]. destruct H as (st' & H1 & H2). eauto.
  - pose proof (update_step h db st ev q A) as H. destruct (mstep trim lower ev db (MUpdate q)) as [db' o]. destruct H as (st' & H1 & H2). eauto.
  - pose proof (delete_step h db st ev id A) as H. destruct (mstep trim lower ev db (MDelete id)) as [db' o]. destruct H as (st' & H1 & H2). eauto.
  - cbn [mstep]. exists st. split; [cbn; auto|]. apply M. unfold chat_session. destruct (assoc id (md_sessions db)); [exact A|apply agrees_sessions; exact A].
  - apply message_step. exact A.
Qed.
Lemma run_from h1 h2 : forall db st os1, agrees h1 db st -> leads trim lower h1 os1 st ->
  exists st', leads trim lower (h1 ++ h2) (os1 ++ snd (mrun trim lower db h2)) st' /\ agrees (h1 ++ h2) (fst (mrun trim lower db h2)) st'.
Proof using Type.
  revert h1. induction h2 as [|[ev c] h2 IH]; intros h1 db st os1 A L; [cbn; rewrite !app_nil_r; eauto|]. cbn [mrun].
  pose proof (any_step h1 db st ev c A) as H. destruct (mstep trim lower ev db c) as [db1 o] eqn:E. destruct H as (st1 & H1 & H2).
  destruct (IH (h1 ++ [(ev, c)]) db1 st1 (os1 ++ [o]) H2) as (st' & L' & A'); [eapply leads_call; eauto|]. destruct (mrun trim lower db1 h2) as [db2 os]. cbn [fst snd] in *. rewrite <- !app_assoc in *. cbn [app] in *. eauto.
Qed.
Lemma run_agrees h : exists st, leads trim lower h (snd (mrun trim lower empty_mem h)) st /\ agrees h (fst (mrun trim lower empty_mem h)) st.
Proof using Type.
  apply (run_from [] h empty_mem (fun _ => None) []); [|constructor]. split; [constructor|]. split; [intros w []|intros id i H; discriminate H].
Qed.
End Mem.
