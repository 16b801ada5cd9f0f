(** Theorems on the graph tools: writing entities and relations. *)
From Coq Require Import String Ascii List NArith ZArith Bool Permutation Sorted Lia ZifyBool ZifyNat.
From Coq Require Import Floats.SpecFloat Numbers.DecimalString.
From Verif Require Import Base Floats64 TopK StoreModel HindModel HindProofs3 RagModel RagSpec RagProps GraphModel GraphSpec GraphProofs GraphBatchProps ToolGraphModel ToolGraphSpec ToolGraphProofs.
Import ListNotations.
Open Scope string_scope.
Open Scope list_scope.

Definition no_failure (ev : env) : Prop := forall n, ev_ok ev n = true.

Lemma reported_map trim slug es : reported trim slug es (map (fun e => resolve trim slug (te_id e) (te_name e)) (filter (usable trim) es)).
Proof.
  induction es as [|e es IH]; [constructor|]. cbn [filter]. destruct (usable trim e) eqn:U.
  - cbn [map]. apply reported_more; [apply usable_iff; exact U|apply resolve_iff; reflexivity|exact IH].
  - apply reported_skip; [intros H; apply usable_iff in H; congruence|exact IH].
Qed.
Lemma stored_same y x : feq (ge_weight y) f_zero = false -> (stored_edge y x <-> x = y).
Proof.
  intros W. unfold stored_edge. rewrite W. destruct x, y. cbn. split; [intros (-> & -> & -> & -> & -> & -> & ->); reflexivity|intros [= -> -> -> -> -> -> ->]; repeat split].
Qed.
Lemma one_not_zero : feq (f64_of_Z 1) f_zero = false.
Proof. reflexivity. Qed.
Lemma mention_weight c n : feq (ge_weight (mention c n)) f_zero = false.
Proof. exact one_not_zero. Qed.

(** UpsertEntities: the ids reported are those of the entities with a name or an id, in
    order; each such entity is stored (the last one under an id wins) with its type, text
    and properties; the mention edges stored are those whose chunk is a stored node, and
    everything else is untouched. *)
Theorem entities_written_exact : forall trim slug vec evn eve d es,
  (forall t, vec t <> []) -> es <> [] -> no_failure evn -> no_failure eve -> ev_fk eve = true ->
  (forall e, In e es -> NoDup (map fst (te_meta e))) ->
  exists d' ids ps, upsert_entities trim slug vec true evn eve d es = (d', Ok (ids, Z.of_nat (length ps))) /\
    reported trim slug es ids /\ asked trim slug es ps /\
    (forall n, In n (g_nodes d') -> (exists e, last_entity trim slug es e (n_id n) /\ entity_stored trim slug vec e n) \/ (In n (g_nodes d) /\ unnamed_by trim slug es (n_id n))) /\
    (forall e id, last_entity trim slug es e id -> exists n, In n (g_nodes d') /\ n_id n = id /\ entity_stored trim slug vec e n) /\
    (forall n, In n (g_nodes d) -> unnamed_by trim slug es (n_id n) -> In n (g_nodes d')) /\
    forall x, In x (g_edges d') <->
      (exists l1 c n l2, ps = l1 ++ (c, n) :: l2 /\ has_node d' c /\ mentions c n x /\ forall c' n', In (c', n') l2 -> has_node d' c' -> mention_id c' n' <> mention_id c n) \/
      (In x (g_edges d) /\ forall c n, In (c, n) ps -> has_node d' c -> ge_id x <> mention_id c n).
Proof.
  intros trim slug vec evn eve d es Hvec Ne On Oe Fk Meta. unfold upsert_entities. destruct es as [|e0 es0] eqn:Ees; [congruence|]. rewrite <- Ees in *. clear Ees e0 es0 Ne.
  cbn [negb]. set (us := filter (usable trim) es).
  assert (Us : forall e, In e us -> named_or_id trim e) by (intros e He; apply filter_In in He as [_ He]; apply usable_iff; exact He).
  pose proof (nodes_batch_exact evn d (map (fun e => Some (entity_gnode trim slug vec e)) us)) as B1.
  destruct (upsert_nodes_batch evn d _) as [d1 [r1| |]]; [|destruct B1 as [_ [n N]]; rewrite On in N; discriminate|destruct B1].
  destruct B1 as (l' & _ & Same & _ & _ & Ge & Gn). specialize (Same On). subst l'.
  rewrite all_mentions. set (ps := flat_map (pairs_of trim slug) us).
  pose proof (edges_batch_exact eve d1 (map Some (map (fun p => mention (fst p) (snd p)) ps)) Fk) as B2.
  destruct (upsert_edges_batch eve d1 _) as [d2 [r2| |]]; [|destruct B2 as [_ [n N]]; rewrite Oe in N; discriminate|destruct B2].
  destruct B2 as (l' & _ & Same & _ & _ & Gn2 & Ge2). specialize (Same Oe). subst l'. rewrite map_length.
  exists d2, (map (fun e => resolve trim slug (te_id e) (te_name e)) us), ps. split; [reflexivity|]. split; [apply reported_map|]. split; [apply asked_pairs|].
  assert (Un : forall id, unnamed_by trim slug es id <-> forall e, In e us -> resolve trim slug (te_id e) (te_name e) <> id).
  { intros id. split.
    - intros H e He E. apply (H e); [apply filter_In in He; tauto|auto|apply resolve_iff; exact E].
    - intros H e He U K. apply (H e); [apply filter_In; split; [exact He|apply usable_iff; exact U]|apply resolve_iff; exact K]. }
  assert (Last : forall x, last_accepted node_acceptable n_id (map (fun e => Some (entity_gnode trim slug vec e)) us) x <-> exists e, last_entity trim slug es e (n_id x) /\ x = entity_gnode trim slug vec e).
  { intros x. rewrite last_accepted_map. split.
    - intros (l1 & e & l2 & E & -> & _ & R). exists e. split; [|reflexivity]. apply last_usable. exists l1, l2. split; [exact E|]. split; [reflexivity|].
      intros e' He. apply R; [exact He|]. apply entity_accepted; [exact Hvec|]. apply Us. rewrite E. apply in_or_app. right. right. exact He.
    - intros (e & L & ->). apply last_usable in L as (l1 & l2 & E & _ & R). exists l1, e, l2. split; [exact E|]. split; [reflexivity|].
      split; [apply entity_accepted; [exact Hvec|]; apply Us; unfold us; rewrite E; apply in_or_app; right; left; reflexivity|]. intros e' He _. apply R. exact He. }
  assert (None1 : forall k, none_accepted node_acceptable n_id (map (fun e => Some (entity_gnode trim slug vec e)) us) k <-> unnamed_by trim slug es k).
  { intros k. rewrite none_accepted_map, Un. split; [intros H e He; apply (H e He); apply entity_accepted; auto|intros H e He _; apply H; exact He]. }
  assert (Old : forall e, (exists id, last_entity trim slug es e id) -> In e es) by (intros e (id & l1 & l2 & -> & _); apply in_or_app; right; left; reflexivity).
  rewrite Gn2. split; [|split; [|split]].
  - intros n Hn. apply Gn in Hn as [Hn|[Hn Hk]]; [left|right; split; [exact Hn|apply None1; exact Hk]].
    apply Last in Hn as (e & L & E). exists e. split; [exact L|]. rewrite E. apply gnode_stored. apply Meta, Old. eauto.
  - intros e id L. exists (entity_gnode trim slug vec e). assert (Ei : n_id (entity_gnode trim slug vec e) = id). { apply last_usable in L as (l1 & l2 & _ & E & _). exact E. }
    split; [|split; [exact Ei|apply gnode_stored; apply Meta, Old; eauto]]. apply Gn. left. apply Last. exists e. rewrite Ei. split; [exact L|reflexivity].
  - intros n Hn Hu. apply Gn. right. split; [exact Hn|apply None1; exact Hu].
  - assert (Has : forall id, has_node d2 id <-> has_node d1 id) by (intros id; unfold has_node; rewrite Gn2; reflexivity).
    assert (Acc : forall c n, In (c, n) ps -> (edge_acceptable d1 (Some (mention c n)) <-> has_node d2 c)).
    { intros c n Hp. rewrite Has. destruct (pairs_nonblank trim slug us c n Us Hp) as (C & N & e & He & En). split.
      - intros (x & Ex & _ & _ & _ & F & _). injection Ex as <-. exact F.
      - intros F. exists (mention c n). split; [reflexivity|]. split; [discriminate|]. split; [exact C|]. split; [exact N|]. split; [exact F|]. cbn [ge_to mention].
        destruct (in_split _ _ He) as (a & b & Eab). 
        assert (L : exists e', last_entity trim slug es e' n).
        { clear -He En Us. subst n. set (k := resolve trim slug (te_id e) (te_name e)).
          assert (G : forall l, (exists e, In e l /\ resolve trim slug (te_id e) (te_name e) = k) -> exists l1 e' l2, l = l1 ++ e' :: l2 /\ resolve trim slug (te_id e') (te_name e') = k /\ forall e'', In e'' l2 -> resolve trim slug (te_id e'') (te_name e'') <> k).
          { clear. induction l as [|x l IH]; intros (e1 & He1 & Ek1); [destruct He1|].
            destruct (existsb (fun y => String.eqb (resolve trim slug (te_id y) (te_name y)) k) l) eqn:X.
            - apply existsb_exists in X as (y & Hy & Ey). apply String.eqb_eq in Ey. destruct IH as (l1 & e' & l2 & -> & E' & R); [eauto|]. exists (x :: l1), e', l2. auto.
            - assert (Nx : forall y, In y l -> resolve trim slug (te_id y) (te_name y) <> k).
              { intros y Hy Ey. assert (existsb (fun y => String.eqb (resolve trim slug (te_id y) (te_name y)) k) l = true) by (apply existsb_exists; exists y; split; [exact Hy|apply String.eqb_eq; exact Ey]). congruence. }
              exists [], x, l. split; [reflexivity|]. split; [|exact Nx]. destruct He1 as [->|He1]; [exact Ek1|]. destruct (Nx e1 He1 Ek1). }
          destruct (G us) as (l1 & e' & l2 & E & Ek & R); [eauto|]. exists e'. apply last_usable. exists l1, l2. auto. }
        destruct L as (e' & L). exists (entity_gnode trim slug vec e').
        assert (Ei : n_id (entity_gnode trim slug vec e') = n) by (apply last_usable in L as (l1 & l2 & _ & E & _); exact E).
        split; [|exact Ei]. apply Gn. left. apply Last. exists e'. rewrite Ei. split; [exact L|reflexivity]. }
    assert (EM : map Some (map (fun p => mention (fst p) (snd p)) ps) = map (fun p => Some (mention (fst p) (snd p))) ps) by (rewrite map_map; reflexivity).
    intros x. rewrite Ge2, EM, Ge. split; (intros [H|[H1 H2]]; [left|right]).
    + destruct H as (y & L & S). apply last_accepted_map in L as (l1 & [c n] & l2 & E & -> & A & R). cbn [fst snd] in *. apply (stored_same _ x (mention_weight c n)) in S. subst x.
      exists l1, c, n, l2. assert (Hp : In (c, n) ps) by (rewrite E; apply in_or_app; right; left; reflexivity). split; [exact E|]. split; [apply (Acc c n Hp); exact A|]. split; [apply mention_ok|].
      intros c' n' Hp' Hc'. apply (R (c', n') Hp'). cbn [fst snd]. apply Acc; [rewrite E; apply in_or_app; right; right; exact Hp'|exact Hc'].
    + split; [exact H1|]. intros c n Hp Hc. rewrite none_accepted_map in H2. specialize (H2 (c, n) Hp (proj2 (Acc c n Hp) Hc)). cbn [fst snd] in H2. intros E. apply H2. symmetry. exact E.
    + destruct H as (l1 & c & n & l2 & E & Hc & Mx & R). apply mention_unique in Mx. subst x. assert (Hp : In (c, n) ps) by (rewrite E; apply in_or_app; right; left; reflexivity).
      exists (mention c n). split; [|apply stored_same; [apply mention_weight|reflexivity]]. apply last_accepted_map. exists l1, (c, n), l2. split; [exact E|]. split; [reflexivity|]. split; [apply Acc; auto|].
      intros [c' n'] Hp' A. cbn [fst snd] in *. apply (R c' n' Hp'). apply (Acc c' n'); [rewrite E; apply in_or_app; right; right; exact Hp'|exact A].
    + split; [exact H1|]. apply none_accepted_map. intros [c n] Hp A. cbn [fst snd] in *. intros E. apply (H2 c n Hp); [apply (Acc c n Hp); exact A|]. rewrite <- E. reflexivity.
Qed.
Print Assumptions entities_written_exact.

(** *** Relations *)
Lemma digits_no_colon n : has_colon (SearchModel.fmt_d (Z.of_nat n)) = false.
Proof. destruct (digits_shape n) as (u & E & _). unfold digits in E. rewrite E. apply uint_no_colon. Qed.
Lemma digits_inj n m : SearchModel.fmt_d (Z.of_nat n) = SearchModel.fmt_d (Z.of_nat m) -> n = m.
Proof.
  intros H. destruct (digits_shape n) as (u & E & V), (digits_shape m) as (u' & E' & V'). unfold digits in *. rewrite E, E' in H.
  assert (u = u') by (assert (Some u = Some u') by (rewrite <- !NilEmpty.usu; f_equal; exact H); congruence). subst. lia.
Qed.
Lemma relation_drawn trim slug il doc : forall rs i, (forall r, In r rs -> NoDup (map fst (tl_meta r))) -> drawn trim slug il doc i rs (relation_edges trim slug il doc i rs).
Proof.
  induction rs as [|r rs IH]; intros i N; [constructor|]. cbn [relation_edges]. unfold relation_edge.
  assert (T : drawn trim slug il doc (S i) rs (relation_edges trim slug il doc (S i) rs)) by (apply IH; intros; apply N; right; auto).
  destruct (String.eqb_spec (resolve trim slug "" (tl_from r)) "") as [E|E]; cbn [orb].
  { apply drawn_skip; [left; apply resolve_iff; exact E|exact T]. }
  destruct (String.eqb_spec (resolve trim slug "" (tl_to r)) "") as [E'|E'].
  { apply drawn_skip; [right; apply resolve_iff; exact E'|exact T]. }
  apply drawn_more; [exact E|exact E'| |exact T]. unfold relation_stored. cbn [ge_from ge_to ge_type ge_id ge_weight ge_vec ge_props].
  split; [apply resolve_iff; reflexivity|]. split; [apply resolve_iff; reflexivity|]. split; [apply first_iff; reflexivity|]. split; [reflexivity|]. split; [reflexivity|]. split; [reflexivity|].
  apply overrides_set; [apply N; left; reflexivity|reflexivity].
Qed.
Lemma drawn_position trim slug il doc i rs xs x : drawn trim slug il doc i rs xs -> In x xs -> exists j a, i <= j /\ ge_id x = (a ++ ":" ++ SearchModel.fmt_d (Z.of_nat j))%string.
Proof.
  induction 1 as [i|i r rs l _ D IH|i r rs y l _ _ S D IH]; intros Hx; [destruct Hx| |].
  - destruct (IH Hx) as (j & a & L & E). exists j, a. split; [lia|exact E].
  - destruct Hx as [<-|Hx]; [|destruct (IH Hx) as (j & a & L & E); exists j, a; split; [lia|exact E]].
    destruct S as (_ & _ & _ & E & _). exists i, ("edge:relation:" ++ ge_from y ++ ":" ++ ge_to y ++ ":" ++ ge_type y)%string. split; [lia|]. rewrite E, !sapp_assoc. reflexivity.
Qed.
Lemma drawn_distinct trim slug il doc i rs xs : drawn trim slug il doc i rs xs -> NoDup (map ge_id xs).
Proof.
  induction 1 as [i|i r rs l _ D IH|i r rs y l _ _ S D IH]; [constructor|exact IH|]. cbn [map]. apply NoDup_cons_iff. split; [|exact IH].
  intros Hi. apply in_map_iff in Hi as (x & E & Hx). destruct (drawn_position _ _ _ _ _ _ _ _ D Hx) as (j & a & L & Ex).
  destruct S as (_ & _ & _ & Ey & _). rewrite Ex, Ey in E.
  assert (E2 : (a ++ ":" ++ SearchModel.fmt_d (Z.of_nat j))%string = (("edge:relation:" ++ ge_from y ++ ":" ++ ge_to y ++ ":" ++ ge_type y) ++ ":" ++ SearchModel.fmt_d (Z.of_nat i))%string) by (rewrite E, !sapp_assoc; reflexivity).
  apply last_colon in E2 as [_ E2]; [|apply digits_no_colon|apply digits_no_colon]. apply digits_inj in E2. lia.
Qed.
Lemma drawn_weight trim slug il doc i rs xs x : drawn trim slug il doc i rs xs -> In x xs -> feq (ge_weight x) f_zero = false /\ ge_from x <> "" /\ ge_to x <> "" /\ ge_id x <> "".
Proof.
  induction 1 as [i|i r rs l _ D IH|i r rs y l F T S D IH]; intros Hx; [destruct Hx|auto|]. destruct Hx as [<-|Hx]; [|auto].
  destruct S as (_ & _ & _ & E & W & _). split; [|split; [exact F|split; [exact T|]]].
  - rewrite W. destruct (feq (tl_weight r) f_zero) eqn:Q; [apply one_not_zero|exact Q].
  - rewrite E. discriminate.
Qed.

(** UpsertRelations: one edge per relation that names both ends, all under different ids;
    stored are exactly those whose two entities are stored, replacing edges of the same id. *)
Theorem relations_written_exact : forall trim slug il ev d doc rs,
  rs <> [] -> no_failure ev -> ev_fk ev = true -> (forall r, In r rs -> NoDup (map fst (tl_meta r))) ->
  exists d' xs, upsert_relations trim slug il true ev d doc rs = (d', Ok (map ge_id xs)) /\
    drawn trim slug il doc 0 rs xs /\ NoDup (map ge_id xs) /\ g_nodes d' = g_nodes d /\
    forall x, In x (g_edges d') <-> (In x xs /\ both_ends d x) \/ (In x (g_edges d) /\ forall y, In y xs -> both_ends d y -> ge_id y <> ge_id x).
Proof.
  intros trim slug il ev d doc rs Ne On Fk Meta. unfold upsert_relations. destruct rs as [|r0 rs0] eqn:E0; [congruence|]. rewrite <- E0 in *. clear E0 r0 rs0 Ne. cbn [negb].
  pose proof (relation_drawn trim slug il doc rs 0 Meta) as D. set (xs := relation_edges trim slug il doc 0 rs) in *.
  pose proof (edges_batch_exact ev d (map Some xs) Fk) as B. destruct (upsert_edges_batch ev d _) as [d' [r| |]]; [|destruct B as [_ [n N]]; rewrite On in N; discriminate|destruct B].
  destruct B as (l' & _ & Same & _ & _ & Gn & Ge). specialize (Same On). subst l'.
  exists d', xs. split; [reflexivity|]. split; [exact D|]. pose proof (drawn_distinct _ _ _ _ _ _ _ D) as Nd. split; [exact Nd|]. split; [exact Gn|].
  assert (Acc : forall y, In y xs -> (edge_acceptable d (Some y) <-> both_ends d y)).
  { intros y Hy. destruct (drawn_weight _ _ _ _ _ _ _ _ D Hy) as (_ & F & T & I). split.
    - intros (z & Ez & _ & _ & _ & B1 & B2). injection Ez as <-. split; auto.
    - intros [B1 B2]. exists y. tauto. }
  intros x. rewrite Ge. split; (intros [H|[H1 H2]]; [left|right]).
  - destruct H as (y & L & S). apply (last_accepted_map (fun z => z)) in L as (l1 & b & l2 & E & Ey & A & R). cbn beta in *. subst y. assert (Hb : In b xs) by (rewrite E; apply in_or_app; right; left; reflexivity).
    apply (stored_same b x) in S; [|apply (drawn_weight _ _ _ _ _ _ _ _ D Hb)]. subst x. split; [exact Hb|apply Acc; auto].
  - split; [exact H1|]. intros y Hy By. apply (H2 y); [apply in_map; exact Hy|apply Acc; auto].
  - destruct H as [Hx Bx]. exists x. split; [|apply stored_same; [apply (drawn_weight _ _ _ _ _ _ _ _ D Hx)|reflexivity]].
    apply (last_accepted_map (fun z => z)). destruct (in_split _ _ Hx) as (l1 & l2 & E). exists l1, x, l2. split; [exact E|]. split; [reflexivity|]. split; [apply Acc; auto|].
    intros b' Hb _ Eb. rewrite E, map_app in Nd. cbn [map] in Nd. apply NoDup_remove_2 in Nd. apply Nd. apply in_or_app. right. rewrite <- Eb. apply in_map. exact Hb.
  - split; [exact H1|]. intros w Hw A. apply in_map_iff in Hw as (y & Ey & Hy). injection Ey as <-. apply (H2 y Hy). apply (Acc y Hy). exact A.
Qed.
Print Assumptions relations_written_exact.

(** *** Concrete cases *)
Definition ent (id name : string) (cs : list string) (m : smap) : tentity := {| te_id := id; te_name := name; te_type := ""; te_desc := ""; te_chunks := cs; te_meta := m |}.
Definition rel (a b ty : string) : trelation := {| tl_from := a; tl_to := b; tl_type := ty; tl_weight := f_zero; tl_chunks := ["c1"]; tl_meta := [] |}.
Definition fine : env := {| ev_fk := true; ev_ok := fun _ => true; ev_noise := fun _ => f_zero |}.
Definition chunk_node (id : string) : gnode := {| n_id := id; n_vec := [0%N]; n_content := ""; n_type := "chunk"; n_props := None |}.
Definition tg0 : gdb := {| g_nodes := [chunk_node "c1"]; g_edges := [] |}.
Definition es0 := [ent "" "ada" ["c1"; "c9"; ""] [("born", "1815")]; ent "" "" ["c1"] []; ent "entity:bob" "Bob" [] [("name", "Robert")]].
Definition same (s : string) : string := s.
Definition one_vec (s : string) : list N := [1%N].
Definition comma (l : list string) : string := String.concat "," l.
Example entities_written_ex :
  (forall t, one_vec t <> []) /\ es0 <> [] /\ no_failure fine /\ ev_fk fine = true /\ (forall e, In e es0 -> NoDup (map fst (te_meta e))) /\
  upsert_entities same same one_vec true fine fine tg0 es0 =
    ({| g_nodes := [chunk_node "c1"; {| n_id := "entity:ada"; n_vec := [1%N]; n_content := "ada"; n_type := "entity"; n_props := Some [("name", "ada"); ("born", "1815")] |};
                    {| n_id := "entity:bob"; n_vec := [1%N]; n_content := "Bob"; n_type := "entity"; n_props := Some [("name", "Robert")] |}];
        g_edges := [mention "c1" "entity:ada"] |}, Ok (["entity:ada"; "entity:bob"], 2%Z)).
Proof.
  split; [discriminate|]. split; [discriminate|]. split; [intros n; reflexivity|]. split; [reflexivity|]. split.
  - intros e [<-|[<-|[<-|[]]]]; cbn; repeat constructor; intros [].
  - vm_compute. reflexivity.
Qed.
(** The number of mention edges reported is the number asked for, not the number stored. *)
Theorem mention_count_refuted : exists d es d' ids n,
  upsert_entities same same one_vec true fine fine d es = (d', Ok (ids, n)) /\ n = 1%Z /\ g_edges d' = [].
Proof. exists tg0, [ent "" "ada" ["c9"] []]. vm_compute. repeat eexists. Qed.
Print Assumptions mention_count_refuted.
(** A call that fails may have stored its entities. *)
Definition late : env := {| ev_fk := true; ev_ok := fun n => match n with 0 => false | _ => true end; ev_noise := fun _ => f_zero |}.
Theorem entities_atomic_refuted : exists d es d' e,
  upsert_entities same same one_vec true fine late d es = (d', Err e) /\ has_node d' "entity:ada" /\ ~ has_node d "entity:ada".
Proof.
  exists tg0, [ent "" "ada" ["c1"] []]. do 2 eexists. split; [vm_compute; reflexivity|]. split.
  - eexists. split; [right; left; reflexivity|reflexivity].
  - intros (n & [<-|[]] & E). discriminate.
Qed.
Print Assumptions entities_atomic_refuted.
(** What holds of a failing call: no mention edge was stored, and no other node was touched. *)
Theorem entities_failure_partial : forall trim slug vec ready evn eve d es d' e, ev_fk eve = true ->
  upsert_entities trim slug vec ready evn eve d es = (d', Err e) ->
  g_edges d' = g_edges d /\ (ready = false \/ ~ no_failure evn \/ ~ no_failure eve) /\
  forall n, unnamed_by trim slug es (n_id n) -> (In n (g_nodes d') <-> In n (g_nodes d)).
Proof.
  intros trim slug vec ready evn eve d es d' e Fk. unfold upsert_entities. destruct es as [|e0 es0] eqn:Ees; [discriminate|]. rewrite <- Ees in *. clear Ees e0 es0.
  destruct ready; cbn [negb]; [|intros [= <- <-]; split; [reflexivity|split; [auto|reflexivity]]].
  pose proof (nodes_batch_exact evn d (map (fun e => Some (entity_gnode trim slug vec e)) (filter (usable trim) es))) as B1.
  destruct (upsert_nodes_batch evn d _) as [d1 [r1|e1|]]; [| |destruct B1].
  - destruct B1 as (l' & Lost & _ & _ & _ & Ge & Gn).
    pose proof (edges_batch_exact eve d1 (map Some (flat_map (mentions_of trim slug) (filter (usable trim) es))) Fk) as B2.
    destruct (upsert_edges_batch eve d1 _) as [d2 [r2|e2|]]; [discriminate| |destruct B2]. destruct B2 as [-> [k K]]. intros [= <- <-].
    split; [exact Ge|]. split; [right; right; intros H; rewrite H in K; discriminate|]. intros n U.
    assert (In' : forall w, In (Some w) l' -> In (Some w) (map (fun e => Some (entity_gnode trim slug vec e)) (filter (usable trim) es))).
    { intros w Hw. clear -Lost Hw. induction Lost as [|x y l m E _ IH]; [destruct Hw|]. destruct Hw as [->|Hw]; [destruct E as [<-|E]; [left; reflexivity|discriminate]|right; auto]. }
    assert (No : forall w, In (Some w) l' -> n_id w <> n_id n).
    { intros w Hw E. apply In' in Hw. apply in_map_iff in Hw as (u & Eu & Hu). injection Eu as <-. apply filter_In in Hu as [Hu Uu].
      apply (U u Hu); [apply usable_iff; exact Uu|apply resolve_iff; exact E]. }
    rewrite Gn. split; [intros [(a & b & E & _)|[H _]]; [|exact H]|intros H; right; split; [exact H|intros w Hw _; apply No; exact Hw]].
    destruct (No n); [rewrite E; apply in_or_app; right; left; reflexivity|reflexivity].
  - destruct B1 as [-> [k K]]. intros [= <- <-]. split; [reflexivity|]. split; [right; left; intros H; rewrite H in K; discriminate|reflexivity].
Qed.
Print Assumptions entities_failure_partial.
Example entities_failure_ex : ev_fk late = true /\ exists d' e, upsert_entities same same one_vec true fine late tg0 es0 = (d', Err e).
Proof. split; [reflexivity|]. do 2 eexists. vm_compute. reflexivity. Qed.

Definition rs0 := [rel "ada" "entity:bob" ""; rel " " "" "knows"; rel "ada" "entity:bob" "knows"; rel "ada" "zoe" ""].
Definition tg1 : gdb := fst (upsert_entities same same one_vec true fine fine tg0 es0).
Example relations_written_ex :
  rs0 <> [] /\ no_failure fine /\ ev_fk fine = true /\ (forall r, In r rs0 -> NoDup (map fst (tl_meta r))) /\
  let p := upsert_relations same same comma true fine tg1 "doc" rs0 in
  snd p = Ok ["edge:relation:entity:ada:entity:bob:related_to:0"; "edge:relation:entity:ada:entity:bob:knows:2"; "edge:relation:entity:ada:entity:zoe:related_to:3"] /\
  map ge_id (g_edges (fst p)) = ["edge:mention:c1:entity:ada"; "edge:relation:entity:ada:entity:bob:related_to:0"; "edge:relation:entity:ada:entity:bob:knows:2"].
Proof.
  split; [discriminate|]. split; [intros n; reflexivity|]. split; [reflexivity|]. split.
  - intros r Hr. cbn in Hr. destruct Hr as [<-|[<-|[<-|[<-|[]]]]]; constructor.
  - vm_compute. auto.
Qed.
(** Every edge id reported is stored — refuted: an edge to an unknown entity is dropped. *)
Theorem relations_reported_refuted : exists d rs d' ids id,
  upsert_relations same same comma true fine d "" rs = (d', Ok ids) /\ In id ids /\ ~ In id (map ge_id (g_edges d')).
Proof. exists tg1, [rel "ada" "zoe" ""]. do 3 eexists. split; [vm_compute; reflexivity|]. split; [left; reflexivity|]. vm_compute. intros [E|[]]. discriminate. Qed.
Print Assumptions relations_reported_refuted.
(** Writing the same relation again changes nothing — refuted: its id depends on its place
    in the request, so one sent with another before it is stored a second time. *)
Theorem relation_rewrite_refuted : exists d r r', 
  let d1 := fst (upsert_relations same same comma true fine d "" [r]) in
  let d2 := fst (upsert_relations same same comma true fine d1 "" [r'; r]) in
  length (g_edges d1) = 2 /\ length (filter (fun e => String.eqb (ge_type e) "knows") (g_edges d1)) = 1 /\
  length (filter (fun e => String.eqb (ge_type e) "knows") (g_edges d2)) = 2.
Proof. exists tg1, (rel "ada" "entity:bob" "knows"), (rel "ada" "entity:bob" "likes"). vm_compute. auto. Qed.
Print Assumptions relation_rewrite_refuted.
(** Written again at the same place it changes nothing. *)
Theorem relations_rewrite_partial : forall trim slug il ev ev' d doc rs d1 ids1 d2 ids2,
  rs <> [] -> no_failure ev -> no_failure ev' -> ev_fk ev = true -> ev_fk ev' = true -> (forall r, In r rs -> NoDup (map fst (tl_meta r))) ->
  upsert_relations trim slug il true ev d doc rs = (d1, Ok ids1) -> upsert_relations trim slug il true ev' d1 doc rs = (d2, Ok ids2) ->
  ids2 = ids1 /\ g_nodes d2 = g_nodes d1 /\ forall x, In x (g_edges d2) <-> In x (g_edges d1).
Proof.
  intros trim slug il ev ev' d doc rs d1 ids1 d2 ids2 Ne O O' F F' M H1 H2.
  destruct (relations_written_exact trim slug il ev d doc rs Ne O F M) as (a & xs & E & D & N & Gn & Ge).
  assert (Exs : ids1 = map ge_id (relation_edges trim slug il doc 0 rs) /\ ids2 = map ge_id (relation_edges trim slug il doc 0 rs)).
  { clear -H1 H2. unfold upsert_relations in *. destruct rs as [|r rs]; [injection H1 as <- <-; injection H2 as <- <-; auto|]. cbn [negb] in *.
    destruct (upsert_edges_batch ev d _) as [? [?| |]] eqn:B; try discriminate. destruct (upsert_edges_batch ev' d1 _) as [? [?| |]] eqn:B'; try discriminate.
    injection H1 as <- <-. injection H2 as <- <-. auto. }
  destruct Exs as [-> ->]. split; [reflexivity|].
  pose proof (edges_batch_exact ev d (map Some (relation_edges trim slug il doc 0 rs)) F) as B1.
  pose proof (edges_batch_exact ev' d1 (map Some (relation_edges trim slug il doc 0 rs)) F') as B2.
  pose proof (relation_drawn trim slug il doc rs 0 M) as D0. pose proof (drawn_distinct _ _ _ _ _ _ _ D0) as N0.
  unfold upsert_relations in H1, H2. destruct rs as [|r0 rs0] eqn:E0; [congruence|]. rewrite <- E0 in *. clear E0 r0 rs0. cbn [negb] in *.
  set (es := relation_edges trim slug il doc 0 rs) in *.
  destruct (upsert_edges_batch ev d (map Some es)) as [? [?| |]]; try discriminate. injection H1 as ->.
  destruct (upsert_edges_batch ev' d1 (map Some es)) as [? [?| |]]; try discriminate. injection H2 as ->.
  destruct B1 as (l1 & _ & S1 & _ & _ & G1 & E1). specialize (S1 O). subst l1. destruct B2 as (l2 & _ & S2 & _ & _ & G2 & E2). specialize (S2 O'). subst l2.
  split; [exact G2|]. intros x. rewrite E2.
  assert (A : forall o, edge_acceptable d1 o <-> edge_acceptable d o) by (intros o; unfold edge_acceptable, has_node; rewrite G1; reflexivity).
  assert (L : forall y, last_accepted (edge_acceptable d1) ge_id (map Some es) y <-> last_accepted (edge_acceptable d) ge_id (map Some es) y).
  { intros y. unfold last_accepted. split; intros (u1 & v1 & Ea & Ab & R); exists u1, v1; (split; [exact Ea|]); (split; [apply A; exact Ab|]); intros w Hw Aw; apply R; auto; apply A; exact Aw. }
  assert (K : forall k, none_accepted (edge_acceptable d1) ge_id (map Some es) k <-> none_accepted (edge_acceptable d) ge_id (map Some es) k).
  { intros k. unfold none_accepted. split; intros R w Hw Aw; apply R; auto; apply A; exact Aw. }
  rewrite K, E1. split.
  - intros [(y & Ly & Sy)|[H _]]; [left; exists y; split; [apply L; exact Ly|exact Sy]|exact H].
  - intros [(y & Ly & Sy)|[H1 H2]]; [left; exists y; split; [apply L; exact Ly|exact Sy]|right; split; [right; auto|exact H2]].
Qed.
Print Assumptions relations_rewrite_partial.
Example relations_rewrite_ex : exists d1 ids1 d2 ids2,
  upsert_relations same same comma true fine tg1 "doc" rs0 = (d1, Ok ids1) /\ upsert_relations same same comma true fine d1 "doc" rs0 = (d2, Ok ids2) /\ length (g_edges d2) = 3.
Proof. do 4 eexists. split; [vm_compute; reflexivity|]. split; [vm_compute; reflexivity|]. reflexivity. Qed.
