(** Theorems about graph batches: C51 (storage part). *)
From Coq Require Import String List NArith ZArith Bool Lia Permutation.
From Coq Require Import Floats.SpecFloat.
From Verif Require Import Base Floats64 StoreModel StoreSpec GraphModel GraphSpec GraphProofs GraphBfsProofs GraphTravProofs GraphNeighborProofs GraphProps.
Import ListNotations.
Open Scope string_scope.
Open Scope list_scope.
From Coq Require Import ZifyBool ZifyNat ZifyN.

Lemma node_valid_iff n : node_valid n = true <-> node_acceptable (Some n).
Proof.
  unfold node_valid, node_acceptable. destruct (String.eqb_spec (n_id n) ""); cbn.
  - split; [discriminate|]. intros [x [E [H _]]]. injection E as <-. contradiction.
  - destruct (n_vec n) eqn:V; split; try discriminate; auto.
    + intros [x [E [_ H]]]. injection E as <-. congruence.
    + intros _. exists n. split; auto. split; auto. congruence.
Qed.
Lemma edge_valid_iff ev d e : ev_fk ev = true -> (edge_valid e && edge_fk ev d e = true <-> edge_acceptable d (Some e)).
Proof.
  intros F. unfold edge_valid, edge_fk, edge_acceptable. rewrite F. cbn [negb orb]. rewrite !andb_true_iff, !negb_true_iff, orb_false_iff, !(stored_iff d).
  split.
  - intros [[A [B C]] [D E]]. exists e. split; auto. split; [intros H; rewrite H in A; discriminate|]. split; [intros H; rewrite H in B; discriminate|].
    split; [intros H; rewrite H in C; discriminate|]. auto.
  - intros [x [E [A [B [C [D G]]]]]]. injection E as <-. split; auto. split; [apply String.eqb_neq; auto|]. split; apply String.eqb_neq; auto.
Qed.
Lemma stored_edge_default e : stored_edge e (default_weight e).
Proof. unfold stored_edge, default_weight. destruct (feq (ge_weight e) f_zero); cbn; repeat split. Qed.
Lemma stored_edge_unique x y z : stored_edge x y -> stored_edge x z -> y = z.
Proof. intros [A [B [C [D [E [F G]]]]]] [A' [B' [C' [D' [E' [F' G']]]]]]. destruct y, z. cbn in *. congruence. Qed.

Lemma last_accepted_cons {A} acc (id : A -> string) x l v :
  last_accepted acc id (x :: l) v <-> last_accepted acc id l v \/ (x = Some v /\ acc (Some v) /\ none_accepted acc id l (id v)).
Proof.
  unfold last_accepted, none_accepted. split.
  - intros [l1 [l2 [E [Ha Hl]]]]. destruct l1 as [|y l1]; cbn in E.
    + injection E as -> ->. right. auto.
    + injection E as _ E. left. exists l1, l2. auto.
  - intros [[l1 [l2 [E [Ha Hl]]]]|[E [Ha Hl]]].
    + exists (x :: l1), l2. subst. auto.
    + exists [], l. subst. auto.
Qed.
Lemma none_accepted_cons {A} (acc : option A -> Prop) (id : A -> string) x l k :
  none_accepted acc id (x :: l) k <-> none_accepted acc id l k /\ (forall w, x = Some w -> acc (Some w) -> id w <> k).
Proof.
  unfold none_accepted. split.
  - intros H. split; [intros w Hw; exact (H w (or_intror Hw))|]. intros w -> Hw. exact (H w (or_introl eq_refl) Hw).
  - intros [H1 H2] w [->|Hw] Ha.
    + exact (H2 w eq_refl Ha).
    + exact (H1 w Hw Ha).
Qed.

Lemma nodes_loop_spec ev l : forall i d b, exists l',
  some_lost l l' /\ ((forall n, ev_ok ev n = true) -> l' = l) /\
  g_edges (fst (nodes_loop ev i d b l)) = g_edges d /\
  (forall x, In x (g_nodes (fst (nodes_loop ev i d b l))) <->
     last_accepted node_acceptable n_id l' x \/ (In x (g_nodes d) /\ none_accepted node_acceptable n_id l' (n_id x))) /\
  (exists k, counted node_acceptable l' k /\ br_ok (snd (nodes_loop ev i d b l)) = (br_ok b + k)%Z) /\
  (br_ok (snd (nodes_loop ev i d b l)) + br_failed (snd (nodes_loop ev i d b l)) = br_ok b + br_failed b + Z.of_nat (length l))%Z.
Proof.
  induction l as [|x l IH]; intros i d b.
  { exists []. split; [constructor|]. split; auto. split; auto. split.
    - intros x. cbn. split; [intros H; right; split; auto; intros w []|]. intros [[l1 [l2 [E _]]]|[H _]]; auto. destruct l1; discriminate.
    - split; [exists 0%Z; split; [constructor|cbn; lia]|cbn; lia]. }
  (* an entry that is not stored *)
  assert (Skip : ~ node_acceptable x \/ ev_ok ev i = false ->
     nodes_loop ev i d b (x :: l) = nodes_loop ev (S i) d (failed_one b) l ->
     exists l', some_lost (x :: l) l' /\ ((forall n, ev_ok ev n = true) -> l' = x :: l) /\
       g_edges (fst (nodes_loop ev i d b (x :: l))) = g_edges d /\
       (forall y, In y (g_nodes (fst (nodes_loop ev i d b (x :: l)))) <->
          last_accepted node_acceptable n_id l' y \/ (In y (g_nodes d) /\ none_accepted node_acceptable n_id l' (n_id y))) /\
       (exists k, counted node_acceptable l' k /\ br_ok (snd (nodes_loop ev i d b (x :: l))) = (br_ok b + k)%Z) /\
       (br_ok (snd (nodes_loop ev i d b (x :: l))) + br_failed (snd (nodes_loop ev i d b (x :: l))) = br_ok b + br_failed b + Z.of_nat (length (x :: l)))%Z).
  { intros Why ->. destruct (IH (S i) d (failed_one b)) as [l' [L [A [Ge [I [[k [C K]] T]]]]]].
    assert (Hd : exists y, (y = x \/ y = None) /\ ((forall n, ev_ok ev n = true) -> y = x) /\ ~ node_acceptable y).
    { destruct Why as [N|Fl]; [exists x; auto|]. exists None. split; auto. split; [intros Q; rewrite Q in Fl; discriminate|]. intros [z [E _]]. discriminate. }
    destruct Hd as [y [Hy1 [Hy2 Ny]]]. exists (y :: l').
    split; [constructor; auto|]. split; [intros Q; rewrite (Hy2 Q), (A Q); auto|]. split; auto. split; [|split].
    - intros z. rewrite I, last_accepted_cons, none_accepted_cons. split.
      + intros [H|[H1 H2]]; [auto|right]. split; auto. split; auto. intros w -> Hw. contradiction.
      + intros [[H|[-> [H _]]]|[H1 [H2 _]]]; auto; contradiction.
    - exists k. split; [constructor; auto|]. rewrite K. cbn. lia.
    - rewrite T. cbn [failed_one br_ok br_failed length]. lia. }
  destruct x as [n|].
  2: { apply Skip; [left; intros [z [E _]]; discriminate|reflexivity]. }
  destruct (node_valid n) eqn:V.
  2: { apply Skip; [left; intros H; apply node_valid_iff in H; congruence|]. cbn [nodes_loop]. rewrite V. reflexivity. }
  destruct (ev_ok ev i) eqn:O.
  2: { apply Skip; [right; auto|]. cbn [nodes_loop]. rewrite V, O. reflexivity. }
  clear Skip. cbn [nodes_loop]. rewrite V, O. cbn [negb].
  pose proof (proj1 (node_valid_iff n) V) as Va.
  destruct (IH (S i) (set_nodes d (put_node n (g_nodes d))) (ok_one b)) as [l' [L [A [Ge [I [[k [C K]] T]]]]]].
  exists (Some n :: l'). split; [constructor; auto|]. split; [intros Q; rewrite (A Q); auto|]. split; auto. split; [|split].
  - intros z. rewrite I, last_accepted_cons, none_accepted_cons. cbn [set_nodes g_nodes]. rewrite put_node_in. split.
    + intros [H|[[->|[H1 H2]] H3]]; [auto|left; right; auto|right]. split; auto. split; auto. intros w E _. injection E as <-. auto.
    + intros [[H|[E [H1 H2]]]|[H1 [H2 H3]]]; [auto| |].
      * injection E as ->. right. auto.
      * right. split; auto. right. split; auto. intros E. apply (H3 n); auto.
  - exists (k + 1)%Z. split; [constructor; auto|]. rewrite K. cbn. lia.
  - rewrite T. cbn [ok_one br_ok br_failed length]. lia.
Qed.

Lemma edges_loop_nodes ev l : forall i d b, g_nodes (fst (edges_loop ev i d b l)) = g_nodes d.
Proof.
  induction l as [|[e|] l IH]; intros i d b; cbn [edges_loop fst]; auto.
  destruct (negb (edge_valid e)); auto. destruct (_ && _); rewrite IH; auto.
Qed.
Lemma edge_acceptable_nodes d d' e : g_nodes d = g_nodes d' -> edge_acceptable d e -> edge_acceptable d' e.
Proof. intros E [x [H1 [H2 [H3 [H4 [[n [N1 N2]] [m [M1 M2]]]]]]]]. exists x. repeat (split; auto); [exists n|exists m]; rewrite <- E; auto. Qed.

Lemma last_accepted_ext {A} (acc acc' : option A -> Prop) (id : A -> string) l v :
  (forall x, acc x <-> acc' x) -> last_accepted acc id l v <-> last_accepted acc' id l v.
Proof.
  intros H. unfold last_accepted. split; intros [l1 [l2 [E [Ha Hl]]]]; exists l1, l2; (split; [auto|]); (split; [apply H; auto|]);
    intros w Hw Hw'; apply Hl; auto; apply H; auto.
Qed.
Lemma none_accepted_ext {A} (acc acc' : option A -> Prop) (id : A -> string) l k :
  (forall x, acc x <-> acc' x) -> none_accepted acc id l k <-> none_accepted acc' id l k.
Proof. intros H. unfold none_accepted. split; intros Hl w Hw Ha; apply Hl; auto; apply H; auto. Qed.
Lemma counted_ext {A} (p q : A -> Prop) l n : (forall x, p x <-> q x) -> counted p l n -> counted q l n.
Proof. intros H. induction 1; constructor; auto; [apply H|rewrite <- H]; auto. Qed.

Lemma edges_loop_spec ev l : ev_fk ev = true -> forall i d b, exists l',
  some_lost l l' /\ ((forall n, ev_ok ev n = true) -> l' = l) /\
  (forall x, In x (g_edges (fst (edges_loop ev i d b l))) <->
     (exists y, last_accepted (edge_acceptable d) ge_id l' y /\ stored_edge y x) \/ (In x (g_edges d) /\ none_accepted (edge_acceptable d) ge_id l' (ge_id x))) /\
  (exists k, counted (edge_acceptable d) l' k /\ br_ok (snd (edges_loop ev i d b l)) = (br_ok b + k)%Z) /\
  (br_ok (snd (edges_loop ev i d b l)) + br_failed (snd (edges_loop ev i d b l)) = br_ok b + br_failed b + Z.of_nat (length l))%Z.
Proof.
  intros F. induction l as [|x l IH]; intros i d b.
  { exists []. split; [constructor|]. split; auto. split.
    - intros x. cbn. split; [intros H; right; split; auto; intros w []|]. intros [[y [[l1 [l2 [E _]]] _]]|[H _]]; auto. destruct l1; discriminate.
    - split; [exists 0%Z; split; [constructor|cbn; lia]|cbn; lia]. }
  assert (Skip : ~ edge_acceptable d x \/ ev_ok ev i = false ->
     edges_loop ev i d b (x :: l) = edges_loop ev (S i) d (failed_one b) l ->
     exists l', some_lost (x :: l) l' /\ ((forall n, ev_ok ev n = true) -> l' = x :: l) /\
       (forall z, In z (g_edges (fst (edges_loop ev i d b (x :: l)))) <->
          (exists y, last_accepted (edge_acceptable d) ge_id l' y /\ stored_edge y z) \/ (In z (g_edges d) /\ none_accepted (edge_acceptable d) ge_id l' (ge_id z))) /\
       (exists k, counted (edge_acceptable d) l' k /\ br_ok (snd (edges_loop ev i d b (x :: l))) = (br_ok b + k)%Z) /\
       (br_ok (snd (edges_loop ev i d b (x :: l))) + br_failed (snd (edges_loop ev i d b (x :: l))) = br_ok b + br_failed b + Z.of_nat (length (x :: l)))%Z).
  { intros Why ->. destruct (IH (S i) d (failed_one b)) as [l' [L [A [I [[k [C K]] T]]]]].
    assert (Hd : exists y, (y = x \/ y = None) /\ ((forall n, ev_ok ev n = true) -> y = x) /\ ~ edge_acceptable d y).
    { destruct Why as [N|Fl]; [exists x; auto|]. exists None. split; auto. split; [intros Q; rewrite Q in Fl; discriminate|]. intros [z [E _]]. discriminate. }
    destruct Hd as [y [Hy1 [Hy2 Ny]]]. exists (y :: l').
    split; [constructor; auto|]. split; [intros Q; rewrite (Hy2 Q), (A Q); auto|]. split; [|split].
    - intros z. rewrite I, none_accepted_cons. split.
      + intros [[u [H Hs]]|[H1 H2]]; [left; exists u; rewrite last_accepted_cons; auto|right]. split; auto. split; auto. intros w -> Hw. contradiction.
      + intros [[u [H Hs]]|[H1 [H2 _]]]; auto. apply last_accepted_cons in H as [H|[-> [H _]]]; [eauto|contradiction].
    - exists k. split; [constructor; auto|]. rewrite K. cbn. lia.
    - rewrite T. cbn [failed_one br_ok br_failed length]. lia. }
  destruct x as [e|].
  2: { apply Skip; [left; intros [z [E _]]; discriminate|reflexivity]. }
  destruct (edge_valid e) eqn:V.
  2: { apply Skip; [left; intros H; apply (edge_valid_iff ev d e F) in H; rewrite V in H; discriminate|]. cbn [edges_loop]. rewrite V. reflexivity. }
  destruct (edge_fk ev d e) eqn:Fk.
  2: { apply Skip; [left; intros H; apply (edge_valid_iff ev d e F) in H; rewrite V, Fk in H; discriminate|]. cbn [edges_loop]. rewrite V, Fk, andb_false_r. reflexivity. }
  destruct (ev_ok ev i) eqn:O.
  2: { apply Skip; [right; auto|]. cbn [edges_loop]. rewrite V, O. reflexivity. }
  clear Skip. cbn [edges_loop]. rewrite V, O, Fk. cbn [negb andb].
  assert (Va : edge_acceptable d (Some e)) by (apply (edge_valid_iff ev d e F); rewrite V, Fk; auto).
  destruct (IH (S i) (set_edges d (put_edge (default_weight e) (g_edges d))) (ok_one b)) as [l' [L [A [I [[k [C K]] T]]]]].
  set (d1 := set_edges d (put_edge (default_weight e) (g_edges d))) in *.
  assert (Ext : forall x, edge_acceptable d1 x <-> edge_acceptable d x) by (intros x; split; apply edge_acceptable_nodes; reflexivity).
  destruct (default_weight_keys e) as [K1 _].
  exists (Some e :: l'). split; [constructor; auto|]. split; [intros Q; rewrite (A Q); auto|]. split; [|split].
  - intros z. rewrite I, none_accepted_cons, (none_accepted_ext _ _ _ _ _ Ext). cbn [d1 set_edges g_edges]. rewrite put_edge_in, K1. split.
    + intros [[u [H Hs]]|[[->|[H1 H2]] H3]].
      * left. exists u. rewrite last_accepted_cons. apply (last_accepted_ext _ _ _ _ _ Ext) in H. auto.
      * left. exists e. split; [|apply stored_edge_default]. apply last_accepted_cons. right. rewrite K1 in H3. auto.
      * right. split; auto. split; auto. intros w E _. injection E as <-. auto.
    + intros [[u [H Hs]]|[H1 [H2 H3]]].
      * apply last_accepted_cons in H as [H|[E [H1 H2]]].
        -- left. exists u. split; [apply (last_accepted_ext _ _ _ _ _ Ext); exact H|exact Hs].
        -- injection E as ->. right. rewrite (stored_edge_unique u z (default_weight u)); auto using stored_edge_default. split; auto. rewrite K1. auto.
      * right. split; auto. right. split; auto. intros E. apply (H3 e); auto.
  - exists (k + 1)%Z. split; [apply counted_yes; [exact Va|apply (counted_ext _ _ _ _ Ext C)]|]. rewrite K. cbn. lia.
  - rewrite T. cbn [ok_one br_ok br_failed length]. lia.
Qed.

(** * UpsertNodesBatch *)
(** A failed batch changes nothing; otherwise the counts add up, and the table afterwards
    holds, for each id, the last entry that was stored, and the old rows otherwise. *)
Theorem nodes_batch_exact : forall ev d l,
  match upsert_nodes_batch ev d l with
  | (d', Ok r) => exists l', some_lost l l' /\ ((forall n, ev_ok ev n = true) -> l' = l) /\
      (br_ok r + br_failed r = Z.of_nat (length l))%Z /\ counted node_acceptable l' (br_ok r) /\ g_edges d' = g_edges d /\
      forall x, In x (g_nodes d') <-> last_accepted node_acceptable n_id l' x \/ (In x (g_nodes d) /\ none_accepted node_acceptable n_id l' (n_id x))
  | (d', Err _) => d' = d /\ exists n, ev_ok ev n = false
  | (d', Panic) => False
  end.
Proof.
  intros ev d l. destruct (nodes_loop_spec ev l 2 d no_result) as [l' [L [A [Ge [I [[k [C K]] T]]]]]].
  destruct l as [|x l0].
  - cbn [upsert_nodes_batch]. exists []. split; [constructor|]. split; auto. split; [reflexivity|]. split; [constructor|]. split; auto.
    intros x. split; [intros H; right; split; auto; intros w []|]. intros [[l1 [l2 [E _]]]|[H _]]; auto. destruct l1; discriminate.
  - unfold upsert_nodes_batch, in_transaction. set (l := x :: l0) in *.
    destruct (ev_ok ev 0) eqn:E0; cbn [negb andb]; [|split; eauto]. destruct (ev_ok ev 1) eqn:E1; cbn [negb]; [|split; eauto].
    destruct (ev_ok ev (2 + length l)) eqn:E2; [|split; eauto].
    exists l'. split; auto. split; auto. cbn [no_result br_ok br_failed] in *. split; [lia|]. split; [rewrite K; cbn; auto|]. auto.
Qed.
Print Assumptions nodes_batch_exact.
Example nodes_batch_ex : let r := upsert_nodes_batch all_fine g4 [Some (gn "a" "1"); None; Some (gn "n" "2"); Some (gn "" "3"); Some (gn "a" "4")] in
  snd r = Ok {| br_ok := 3; br_failed := 2 |} /\ get_node (fst r) "a" = Ok (gn "a" "4") /\ map n_id (g_nodes (fst r)) = ["a"; "b"; "c"; "d"; "z"; "n"].
Proof. vm_compute. auto. Qed.

(** * UpsertEdgesBatch *)
Theorem edges_batch_exact : forall ev d l, ev_fk ev = true ->
  match upsert_edges_batch ev d l with
  | (d', Ok r) => exists l', some_lost l l' /\ ((forall n, ev_ok ev n = true) -> l' = l) /\
      (br_ok r + br_failed r = Z.of_nat (length l))%Z /\ counted (edge_acceptable d) l' (br_ok r) /\ g_nodes d' = g_nodes d /\
      forall x, In x (g_edges d') <->
        (exists y, last_accepted (edge_acceptable d) ge_id l' y /\ stored_edge y x) \/ (In x (g_edges d) /\ none_accepted (edge_acceptable d) ge_id l' (ge_id x))
  | (d', Err _) => d' = d /\ exists n, ev_ok ev n = false
  | (d', Panic) => False
  end.
Proof.
  intros ev d l F. destruct (edges_loop_spec ev l F 2 d no_result) as [l' [L [A [I [[k [C K]] T]]]]].
  destruct l as [|x l0].
  - cbn [upsert_edges_batch]. exists []. split; [constructor|]. split; auto. split; [reflexivity|]. split; [constructor|]. split; auto.
    intros x. split; [intros H; right; split; auto; intros w []|]. intros [[y [[l1 [l2 [E _]]] _]]|[H _]]; auto. destruct l1; discriminate.
  - unfold upsert_edges_batch, in_transaction. set (l := x :: l0) in *.
    destruct (ev_ok ev 0) eqn:E0; cbn [negb andb]; [|split; eauto]. destruct (ev_ok ev 1) eqn:E1; cbn [negb]; [|split; eauto].
    destruct (ev_ok ev (2 + length l)) eqn:E2; [|split; eauto].
    exists l'. split; auto. split; auto. cbn [no_result br_ok br_failed] in *. split; [lia|]. split; [rewrite K; cbn; auto|]. split; auto.
    apply edges_loop_nodes.
Qed.
Print Assumptions edges_batch_exact.
Example edges_batch_ex : let r := upsert_edges_batch all_fine g4 [Some (gedge_w "ab" "b" "a" "t" f_zero); Some (gedge_w "q" "a" "nowhere" "t" f_one); Some (gedge_w "dz" "d" "z" "t" f_one)] in
  snd r = Ok {| br_ok := 2; br_failed := 1 |} /\ map ge_id (g_edges (fst r)) = ["ab"; "bc"; "cd"; "ac"; "dz"] /\ map ge_from (g_edges (fst r)) = ["b"; "b"; "c"; "a"; "d"].
Proof. vm_compute. auto. Qed.

(** * DeleteNodesBatch and DeleteEdgesBatch *)
Definition deleted_ids (present : string -> Prop) (ids : list string) (r : batch_result) : Prop :=
  exists ks, NoDup ks /\ (forall x, In x ks <-> In x ids /\ present x) /\ br_ok r = Z.of_nat (length ks) /\ (br_ok r + br_failed r = Z.of_nat (length ids))%Z /\ (0 <= br_failed r)%Z.

Theorem delete_nodes_batch_exact : forall P ev d ids, greachable P d -> ev_fk ev = true ->
  match delete_nodes_batch ev d ids with
  | (d', Ok r) => deleted_ids (fun x => exists n, In n (g_nodes d) /\ n_id n = x) ids r /\
      (forall n, In n (g_nodes d') <-> In n (g_nodes d) /\ ~ In (n_id n) ids) /\
      (forall e, In e (g_edges d') <-> In e (g_edges d) /\
         forall n, In n (g_nodes d) -> In (n_id n) ids -> n_id n <> ge_from e /\ n_id n <> ge_to e)
  | (d', Err _) => d' = d /\ exists n, ev_ok ev n = false
  | (d', Panic) => False
  end.
Proof.
  intros P ev d ids R F. pose proof (reach_unique P d R) as [U _].
  assert (Main : deleted_ids (fun x => exists n, In n (g_nodes d) /\ n_id n = x) ids (snd (delete_ids ev d no_result ids)) /\
      (forall n, In n (g_nodes (fst (delete_ids ev d no_result ids))) <-> In n (g_nodes d) /\ ~ In (n_id n) ids) /\
      (forall e, In e (g_edges (fst (delete_ids ev d no_result ids))) <-> In e (g_edges d) /\
         forall n, In n (g_nodes d) -> In (n_id n) ids -> n_id n <> ge_from e /\ n_id n <> ge_to e)).
  { unfold delete_ids. cbn [fst snd]. split; [|split].
    - exists (map n_id (filter (fun n => in_ids ids (n_id n)) (g_nodes d))).
      assert (Nd : NoDup (map n_id (filter (fun n => in_ids ids (n_id n)) (g_nodes d)))) by (apply NoDup_map_filter; auto).
      split; auto. split; [|split; [|split]].
      + intros x. rewrite in_map_iff. split.
        * intros [n [<- Hn]]. apply filter_In in Hn as [Hn Hi]. apply in_ids_iff in Hi. eauto.
        * intros [Hi [n [Hn <-]]]. exists n. split; auto. apply filter_In. split; auto. apply in_ids_iff; auto.
      + rewrite map_length. cbn. lia.
      + cbn. lia.
      + cbn [no_result br_failed]. assert (Le : (length (map n_id (filter (fun n => in_ids ids (n_id n)) (g_nodes d))) <= length ids)%nat).
        { apply NoDup_incl_length; auto. intros x Hx. apply in_map_iff in Hx as [n [<- Hn]]. apply filter_In in Hn as [_ Hi]. apply in_ids_iff; auto. }
        rewrite map_length in Le. lia.
    - intros n. cbn. rewrite filter_In, negb_true_iff, in_ids_false. reflexivity.
    - intros e. rewrite (drop_nodes_edges ev d _ e F). split; intros [He K]; split; auto; intros n Hn Hi; apply K; auto; apply in_ids_iff; auto. }
  unfold delete_nodes_batch. destruct ids as [|x ids0].
  - split; [|split].
    + exists []. split; [constructor|]. split; [intros x; cbn; tauto|]. cbn. lia.
    + intros n. cbn. tauto.
    + intros e. split; [intros H; split; auto; intros n _ []|tauto].
  - unfold in_transaction. destruct (ev_ok ev 0) eqn:E0; cbn [negb andb]; [|split; eauto]. destruct (ev_ok ev 1) eqn:E1; cbn [negb]; [|split; eauto].
    destruct (ev_ok ev 2) eqn:E2; [|split; eauto]. exact Main.
Qed.
Print Assumptions delete_nodes_batch_exact.
Example delete_nodes_batch_ex : snd (delete_nodes_batch all_fine g4 ["a"; "q"; "a"; "z"]) = Ok {| br_ok := 2; br_failed := 2 |} /\
  map ge_id (g_edges (fst (delete_nodes_batch all_fine g4 ["a"; "q"; "a"; "z"]))) = ["bc"; "cd"].
Proof. vm_compute. auto. Qed.

Theorem delete_edges_batch_exact : forall P ev d ids, greachable P d ->
  match delete_edges_batch ev d ids with
  | (d', Ok r) => deleted_ids (fun x => exists e, In e (g_edges d) /\ ge_id e = x) ids r /\ g_nodes d' = g_nodes d /\
      (forall e, In e (g_edges d') <-> In e (g_edges d) /\ ~ In (ge_id e) ids)
  | (d', Err _) => d' = d /\ exists n, ev_ok ev n = false
  | (d', Panic) => False
  end.
Proof.
  intros P ev d ids R. pose proof (reach_unique P d R) as [_ U].
  assert (Main : deleted_ids (fun x => exists e, In e (g_edges d) /\ ge_id e = x) ids (snd (delete_edge_ids d no_result ids)) /\
      g_nodes (fst (delete_edge_ids d no_result ids)) = g_nodes d /\
      (forall e, In e (g_edges (fst (delete_edge_ids d no_result ids))) <-> In e (g_edges d) /\ ~ In (ge_id e) ids)).
  { unfold delete_edge_ids. cbn [fst snd]. split; [|split; [reflexivity|]].
    - exists (map ge_id (filter (fun n => in_ids ids (ge_id n)) (g_edges d))).
      assert (Nd : NoDup (map ge_id (filter (fun n => in_ids ids (ge_id n)) (g_edges d)))) by (apply NoDup_map_filter; auto).
      split; auto. split; [|split; [|split]].
      + intros x. rewrite in_map_iff. split.
        * intros [n [<- Hn]]. apply filter_In in Hn as [Hn Hi]. apply in_ids_iff in Hi. eauto.
        * intros [Hi [n [Hn <-]]]. exists n. split; auto. apply filter_In. split; auto. apply in_ids_iff; auto.
      + rewrite map_length. cbn. lia.
      + cbn. lia.
      + cbn [no_result br_failed]. assert (Le : (length (map ge_id (filter (fun n => in_ids ids (ge_id n)) (g_edges d))) <= length ids)%nat).
        { apply NoDup_incl_length; auto. intros x Hx. apply in_map_iff in Hx as [n [<- Hn]]. apply filter_In in Hn as [_ Hi]. apply in_ids_iff; auto. }
        rewrite map_length in Le. lia.
    - intros n. cbn. rewrite filter_In, negb_true_iff, in_ids_false. reflexivity. }
  unfold delete_edges_batch. destruct ids as [|x ids0].
  - split; [|split; [reflexivity|]].
    + exists []. split; [constructor|]. split; [intros x; cbn; tauto|]. cbn. lia.
    + intros n. cbn. tauto.
  - unfold in_transaction. destruct (ev_ok ev 0) eqn:E0; cbn [negb andb]; [|split; eauto]. destruct (ev_ok ev 1) eqn:E1; cbn [negb]; [|split; eauto].
    destruct (ev_ok ev 2) eqn:E2; [|split; eauto]. exact Main.
Qed.
Print Assumptions delete_edges_batch_exact.
Example delete_edges_batch_ex : snd (delete_edges_batch all_fine g4 ["ab"; "q"]) = Ok {| br_ok := 1; br_failed := 1 |}.
Proof. vm_compute. auto. Qed.

(** * ExecuteBatch *)
(** When nothing fails it does what the four batches do one after the other, and its
    counts are the sums; when it fails nothing changes. *)
Lemma nodes_loop_result ev l : forall i d b, (forall n, ev_ok ev n = true) ->
  fst (nodes_loop ev i d b l) = fst (nodes_loop ev 2 d no_result l) /\
  br_ok (snd (nodes_loop ev i d b l)) = (br_ok b + br_ok (snd (nodes_loop ev 2 d no_result l)))%Z /\
  br_failed (snd (nodes_loop ev i d b l)) = (br_failed b + br_failed (snd (nodes_loop ev 2 d no_result l)))%Z.
Proof.
  intros i d b O. revert i d b.
  assert (G : forall l i j d b c, fst (nodes_loop ev i d b l) = fst (nodes_loop ev j d c l) /\
     (br_ok (snd (nodes_loop ev i d b l)) - br_ok b = br_ok (snd (nodes_loop ev j d c l)) - br_ok c)%Z /\
     (br_failed (snd (nodes_loop ev i d b l)) - br_failed b = br_failed (snd (nodes_loop ev j d c l)) - br_failed c)%Z).
  { clear l. induction l as [|[n|] l IH]; intros i j d b c; cbn [nodes_loop]; [cbn; auto with zarith| |].
    - rewrite !O. destruct (negb _).
      + destruct (IH (S i) (S j) d (failed_one b) (failed_one c)) as [A [B C]]. cbn [failed_one br_ok br_failed] in *. split; [auto|lia].
      + destruct (IH (S i) (S j) (set_nodes d (put_node n (g_nodes d))) (ok_one b) (ok_one c)) as [A [B C]]. cbn [ok_one br_ok br_failed] in *. split; [auto|lia].
    - destruct (IH (S i) (S j) d (failed_one b) (failed_one c)) as [A [B C]]. cbn [failed_one br_ok br_failed] in *. split; [auto|lia]. }
  intros i d b. destruct (G l i 2%nat d b no_result) as [A [B C]]. cbn [no_result br_ok br_failed] in *. split; auto. lia.
Qed.
Lemma edges_loop_result ev l : forall i d b, (forall n, ev_ok ev n = true) ->
  fst (edges_loop ev i d b l) = fst (edges_loop ev 2 d no_result l) /\
  br_ok (snd (edges_loop ev i d b l)) = (br_ok b + br_ok (snd (edges_loop ev 2 d no_result l)))%Z /\
  br_failed (snd (edges_loop ev i d b l)) = (br_failed b + br_failed (snd (edges_loop ev 2 d no_result l)))%Z.
Proof.
  intros i d b O. revert i d b.
  assert (G : forall l i j d b c, fst (edges_loop ev i d b l) = fst (edges_loop ev j d c l) /\
     (br_ok (snd (edges_loop ev i d b l)) - br_ok b = br_ok (snd (edges_loop ev j d c l)) - br_ok c)%Z /\
     (br_failed (snd (edges_loop ev i d b l)) - br_failed b = br_failed (snd (edges_loop ev j d c l)) - br_failed c)%Z).
  { clear l. induction l as [|[n|] l IH]; intros i j d b c; cbn [edges_loop]; [cbn; auto with zarith| |].
    - rewrite !O. destruct (negb _).
      + destruct (IH (S i) (S j) d (failed_one b) (failed_one c)) as [A [B C]]. cbn [failed_one br_ok br_failed] in *. split; [auto|lia].
      + cbn [andb]. destruct (edge_fk ev d n).
        * destruct (IH (S i) (S j) (set_edges d (put_edge (default_weight n) (g_edges d))) (ok_one b) (ok_one c)) as [A [B C]]. cbn [ok_one br_ok br_failed] in *. split; [auto|lia].
        * destruct (IH (S i) (S j) d (failed_one b) (failed_one c)) as [A [B C]]. cbn [failed_one br_ok br_failed] in *. split; [auto|lia].
    - destruct (IH (S i) (S j) d (failed_one b) (failed_one c)) as [A [B C]]. cbn [failed_one br_ok br_failed] in *. split; [auto|lia]. }
  intros i d b. destruct (G l i 2%nat d b no_result) as [A [B C]]. cbn [no_result br_ok br_failed] in *. split; auto. lia.
Qed.
Lemma transaction_ok ev last d body : (forall n, ev_ok ev n = true) -> in_transaction ev last d body = (fst body, Ok (snd body)).
Proof. intros O. unfold in_transaction. rewrite !O. reflexivity. Qed.

Theorem execute_batch_is_four_batches : forall ev d ns nd es ed, (forall n, ev_ok ev n = true) ->
  exists d1 r1 d2 r2 d3 r3 d4 r4,
    upsert_nodes_batch ev d ns = (d1, Ok r1) /\ delete_nodes_batch ev d1 nd = (d2, Ok r2) /\
    upsert_edges_batch ev d2 es = (d3, Ok r3) /\ delete_edges_batch ev d3 ed = (d4, Ok r4) /\
    execute_batch ev d ns nd es ed = (d4, Ok {| br_ok := br_ok r1 + br_ok r2 + br_ok r3 + br_ok r4;
                                                br_failed := br_failed r1 + br_failed r2 + br_failed r3 + br_failed r4 |}%Z).
Proof.
  intros ev d ns nd es ed O.
  assert (E1 : upsert_nodes_batch ev d ns = (fst (nodes_loop ev 2 d no_result ns), Ok (snd (nodes_loop ev 2 d no_result ns)))).
  { unfold upsert_nodes_batch. destruct ns; [reflexivity|]. apply transaction_ok; auto. }
  unfold execute_batch. destruct (nodes_loop ev 2 d no_result ns) as [d1 r1] eqn:N1. cbn [fst snd] in E1.
  assert (E2 : delete_nodes_batch ev d1 nd = (fst (delete_ids ev d1 no_result nd), Ok (snd (delete_ids ev d1 no_result nd)))).
  { unfold delete_nodes_batch. destruct nd as [|x nd]; [|apply transaction_ok; auto].
    unfold delete_ids. cbn [in_ids existsb length fst snd].
    replace (filter (fun _ : gnode => false) (g_nodes d1)) with (@nil gnode) by (induction (g_nodes d1); auto).
    cbn. f_equal. unfold drop_nodes. destruct d1 as [n1 e1]. cbn. f_equal.
    - symmetry. apply filter_all. auto.
    - destruct (ev_fk ev); auto. symmetry. apply filter_all. intros e _. apply negb_true_iff. clear. induction n1; auto. }
  destruct (delete_ids ev d1 r1 nd) as [d2 b2] eqn:N2.
  assert (N2' : d2 = fst (delete_ids ev d1 no_result nd) /\ b2 = {| br_ok := br_ok r1 + br_ok (snd (delete_ids ev d1 no_result nd)); br_failed := br_failed r1 + br_failed (snd (delete_ids ev d1 no_result nd)) |}%Z).
  { unfold delete_ids in N2. injection N2 as <- <-. split; auto. }
  destruct N2' as [D2 B2]. rewrite <- D2 in E2.
  destruct (edges_loop_result ev es (2 + length ns) d2 b2 O) as [F1 [F2 F3]].
  assert (E3 : upsert_edges_batch ev d2 es = (fst (edges_loop ev 2 d2 no_result es), Ok (snd (edges_loop ev 2 d2 no_result es)))).
  { unfold upsert_edges_batch. destruct es; [reflexivity|]. apply transaction_ok; auto. }
  destruct (edges_loop ev (2 + length ns) d2 b2 es) as [d3 b3] eqn:N3. cbn [fst snd] in F1, F2, F3. rewrite <- F1 in E3.
  assert (E4 : delete_edges_batch ev d3 ed = (fst (delete_edge_ids d3 no_result ed), Ok (snd (delete_edge_ids d3 no_result ed)))).
  { unfold delete_edges_batch. destruct ed as [|x ed]; [|apply transaction_ok; auto].
    unfold delete_edge_ids. cbn [in_ids existsb length fst snd].
    replace (filter (fun _ : gedge => false) (g_edges d3)) with (@nil gedge) by (induction (g_edges d3); auto).
    cbn. f_equal. destruct d3 as [n3 e3]. unfold set_edges. cbn. f_equal. symmetry. apply filter_all. auto. }
  do 8 eexists. split; [exact E1|]. split; [exact E2|]. split; [exact E3|]. split; [exact E4|].
  rewrite transaction_ok; auto. unfold delete_edge_ids. cbn [fst snd]. f_equal. f_equal.
  rewrite F2, F3, B2. cbn [br_ok br_failed no_result]. f_equal; lia.
Qed.
Print Assumptions execute_batch_is_four_batches.
Theorem execute_batch_all_or_nothing : forall ev d ns nd es ed e, snd (execute_batch ev d ns nd es ed) = Err e -> fst (execute_batch ev d ns nd es ed) = d.
Proof.
  intros ev d ns nd es ed e. unfold execute_batch. destruct (nodes_loop _ _ _ _ _) as [d1 b1]. destruct (delete_ids _ _ _ _) as [d2 b2].
  destruct (edges_loop _ _ _ _ _) as [d3 b3]. unfold in_transaction. destruct (negb _); auto. destruct (ev_ok _ _); auto. discriminate.
Qed.
Print Assumptions execute_batch_all_or_nothing.
Example execute_batch_ex :
  execute_batch all_fine new_graph [Some (gn "a" "p"); Some (gn "b" "p"); None] ["b"; "c"] [Some (gedge_w "aa" "a" "a" "t" f_one); Some (gedge_w "ab" "a" "b" "t" f_one)] ["x"]
  = ({| g_nodes := [gn "a" "p"]; g_edges := [gedge_w "aa" "a" "a" "t" f_one] |}, Ok {| br_ok := 4; br_failed := 4 |}).
Proof. vm_compute. reflexivity. Qed.
