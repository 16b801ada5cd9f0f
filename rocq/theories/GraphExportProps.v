(** Theorems about JSON export and import of a graph: C50. *)
From Coq Require Import String List NArith ZArith Bool Lia Permutation.
From Coq Require Import Floats.SpecFloat.
From Verif Require Import Base Floats64 StoreModel StoreSpec IoModel GraphModel GraphSpec GraphProofs GraphBfsProofs GraphTravProofs GraphNeighborProofs GraphProps GraphBatchProps GraphExportModel GraphExportSpec.
Import ListNotations.
Open Scope string_scope.
Open Scope list_scope.
From Coq Require Import ZifyBool ZifyNat ZifyN.

(** * What is stored was acceptable *)
Definition acceptable (d : gdb) : Prop :=
  (forall n, In n (g_nodes d) -> node_valid n = true) /\ (forall e, In e (g_edges d) -> edge_valid e = true /\ feq (ge_weight e) f_zero = false).
Lemma default_weight_ok e : edge_valid e = true -> edge_valid (default_weight e) = true /\ feq (ge_weight (default_weight e)) f_zero = false.
Proof. intros H. unfold default_weight. destruct (feq (ge_weight e) f_zero) eqn:E; auto. Qed.
Lemma reach_acceptable P d : greachable P d -> acceptable d.
Proof.
  induction 1 as [|d ev o R IH HP]; [split; intros ? []|].
  apply kept_step; auto; intros; destruct H as [U D]; split; cbn [set_nodes set_edges g_nodes g_edges drop_nodes]; auto.
  - intros m Hm. apply put_node_in in Hm as [->|[Hm _]]; auto.
  - intros x Hx. apply put_edge_in in Hx as [->|[Hx _]]; auto. apply default_weight_ok; auto.
  - intros n Hn. apply filter_In in Hn as [Hn _]; auto.
  - intros e He. destruct (ev_fk ev); auto. apply filter_In in He as [He _]; auto.
  - intros e He. apply filter_In in He as [He _]; auto.
Qed.
Lemma default_weight_same e : feq (ge_weight e) f_zero = false -> default_weight e = e.
Proof. unfold default_weight. intros ->. reflexivity. Qed.

(** * JSON *)
Lemma json_meta_plain utf8 m : plain_props utf8 m -> json_meta utf8 m = m.
Proof.
  intros H. destruct m as [[|x l]|]; cbn [json_meta]; auto.
  - destruct (H [] eq_refl) as [C _]. destruct (C eq_refl).
  - f_equal. destruct (H (x :: l) eq_refl) as [_ Q]. rewrite <- (map_id (x :: l)) at 2. apply map_ext_in. intros [k v] Hx. cbn [fst snd id]. destruct (Q k v Hx) as [-> ->]. reflexivity.
Qed.
Lemma json_node_plain utf8 n : plain_node utf8 n -> json_node utf8 n = n.
Proof. intros [A [B [C D]]]. unfold json_node. rewrite A, B, C, (json_meta_plain utf8 _ D). destruct n; reflexivity. Qed.
Lemma json_edge_plain utf8 e : plain_edge utf8 e -> json_edge utf8 e = e.
Proof. intros [A [B [C [D F]]]]. unfold json_edge. rewrite A, B, C, D, (json_meta_plain utf8 _ F). destruct e; reflexivity. Qed.
Lemma finite_bits_iff v : forallb finite_bits v = true <-> finite_vector v.
Proof.
  rewrite forallb_forall. unfold finite_vector, finite_bits. split; intros H b Hb; specialize (H b Hb).
  - apply N.ltb_lt in H. lia.
  - apply N.ltb_lt. assert ((N.div b 8388608) mod 256 < 256)%N by (apply N.mod_lt; discriminate). lia.
Qed.
Lemma finite_weight_iff w : finite_weight w = true <-> finite_number w.
Proof.
  unfold finite_number, not_nan. destruct w as [s|s| |s m e]; cbn; split; intros H; try discriminate; try (split; [discriminate|discriminate]); auto.
  - destruct H as [_ H]. destruct (H s eq_refl).
  - destruct H as [H _]. try (destruct H; reflexivity); discriminate.
Qed.
Lemma node_encodes_iff n : node_encodes n = true <-> finite_node n.
Proof. apply finite_bits_iff. Qed.
Lemma edge_encodes_iff e : edge_encodes e = true <-> finite_edge e.
Proof. unfold edge_encodes, finite_edge. rewrite andb_true_iff, finite_weight_iff, finite_bits_iff. reflexivity. Qed.

(** * The edges collected *)
Lemma add_edges_spec es : forall acc, NoDup (map ge_id acc) ->
  NoDup (map ge_id (add_edges acc es)) /\
  (forall e, In e (add_edges acc es) -> In e acc \/ In e es) /\
  (forall e, In e acc -> In e (add_edges acc es)) /\
  (forall e, In e es -> In (ge_id e) (map ge_id (add_edges acc es))).
Proof.
  induction es as [|x es IH]; intros acc N; cbn [add_edges].
  { split; auto. split; auto. split; auto. intros e []. }
  destruct (in_ids (map ge_id acc) (ge_id x)) eqn:E.
  - destruct (IH acc N) as [A [B [C D]]]. split; auto. split; [intros e He; destruct (B e He); auto; right; right; auto|]. split; auto.
    intros e [->|He]; auto. apply in_ids_iff in E. apply in_map_iff in E as [y [Ey Hy]]. rewrite <- Ey. apply in_map. auto.
  - apply in_ids_false in E. assert (N' : NoDup (map ge_id (acc ++ [x]))).
    { rewrite map_app. apply NoDup_app_intro; auto; [constructor; [intros []|constructor]|]. intros y Hy [<-|[]]. auto. }
    destruct (IH _ N') as [A [B [C D]]]. split; auto. split; [|split].
    + intros e He. destruct (B e He) as [H|H]; [apply in_app_iff in H as [H|[->|[]]]; [auto|right; left; auto]|right; right; auto].
    + intros e He. apply C, in_app_iff. auto.
    + intros e [->|He]; auto. apply in_map, C, in_app_iff. right; left; auto.
Qed.
Lemma id_inj (d : gdb) e e' : NoDup (map ge_id (g_edges d)) -> In e (g_edges d) -> In e' (g_edges d) -> ge_id e = ge_id e' -> e = e'.
Proof.
  generalize (g_edges d). intros l. induction l as [|x l IH]; intros N He He' E; [destruct He|]. inversion N as [|? ? Nx Nl]; subst.
  destruct He as [->|He], He' as [->|He']; auto.
  - destruct Nx. rewrite E. apply in_map; auto.
  - destruct Nx. rewrite <- E. apply in_map; auto.
Qed.
Lemma get_out ord d id : any_order ord ->
  match get_edges ord d id "out" with
  | Ok es => (forall e, In e es <-> In e (g_edges d) /\ ge_from e = id) /\ forall e, In e (g_edges d) -> ge_from e = id -> not_nan (ge_weight e)
  | Err _ => exists e, In e (g_edges d) /\ ge_from e = id /\ ~ not_nan (ge_weight e)
  | Panic => False
  end.
Proof.
  intros O. unfold get_edges. cbn [known_direction negb]. change (known_direction "out") with true. cbn [negb].
  assert (I : forall e, In e (ord id (filter (touches "out" id) (g_edges d))) <-> In e (g_edges d) /\ ge_from e = id).
  { intros e.
    split.
    - intros H. apply (Permutation_in _ (O id _)) in H. apply filter_In in H as [H T]. split; auto. unfold touches in T. cbn in T. apply String.eqb_eq in T. auto.
    - intros [H T]. apply (Permutation_in _ (Permutation_sym (O id _))). apply filter_In. split; auto. unfold touches. cbn. apply String.eqb_eq. auto. }
  destruct (forallb readable _) eqn:F.
  - split; auto. rewrite forallb_forall in F. intros e He Ee. pose proof (F e (proj2 (I e) (conj He Ee))) as R. unfold readable in R. apply negb_true_iff in R. intros Q. rewrite Q in R. discriminate.
  - assert (X : exists e, In e (ord id (filter (touches "out" id) (g_edges d))) /\ readable e = false).
    { clear -F. induction (ord id _) as [|x l IH]; [discriminate|]. cbn in F. destruct (readable x) eqn:E; [destruct (IH F) as [e [A B]]; exists e; split; auto; right; auto|exists x; split; auto; left; auto]. }
    destruct X as [e [He Re]]. apply I in He as [He Ee]. exists e. split; auto. split; auto. unfold readable in Re. apply negb_false_iff in Re. intros Q. apply Q. destruct (ge_weight e); try discriminate; reflexivity.
Qed.
Lemma collect_spec ord d : any_order ord -> NoDup (map ge_id (g_edges d)) -> forall ns acc,
  NoDup (map ge_id acc) -> (forall e, In e acc -> In e (g_edges d)) ->
  let r := fold_left (fun acc n => match get_edges ord d (n_id n) "out" with Ok es => add_edges acc es | _ => acc end) ns acc in
  NoDup (map ge_id r) /\
  forall e, In e r <-> In e acc \/ (In e (g_edges d) /\ In (ge_from e) (map n_id ns) /\ forall e', In e' (g_edges d) -> ge_from e' = ge_from e -> not_nan (ge_weight e')).
Proof.
  intros O U. induction ns as [|n ns IH]; intros acc N Sub; cbn [fold_left map].
  { split; auto. intros e. split; auto. intros [H|[_ [[] _]]]. auto. }
  pose proof (get_out ord d (n_id n) O) as G. destruct (get_edges ord d (n_id n) "out") as [es|x|]; [|cbn in G|destruct G].
  - destruct G as [G1 G2]. destruct (add_edges_spec es acc N) as [A [B [C D]]].
    assert (Sub' : forall e, In e (add_edges acc es) -> In e (g_edges d)). { intros e He. destruct (B e He) as [H|H]; auto. apply G1 in H as [H _]. auto. }
    destruct (IH _ A Sub') as [A2 B2]. split; auto. intros e. rewrite B2. split.
    + intros [H|[H1 [H2 H3]]]; [|right; split; [auto|split; [right; auto|auto]]]. destruct (B e H) as [K|K]; auto. right. apply G1 in K as [K E]. split; auto. split; [left; auto|].
      rewrite E. intros e' He' Ee'. apply G2; auto.
    + intros [H|[H1 [[H2|H2] H3]]]; auto. left. pose proof (D e (proj2 (G1 e) (conj H1 (eq_sym H2)))) as M. apply in_map_iff in M as [y [Ey Hy]].
      rewrite (id_inj d e y U H1 (Sub' y Hy) (eq_sym Ey)). auto.
  - destruct (IH _ N Sub) as [A2 B2]. split; auto. intros e. rewrite B2. destruct G as [w [Hw [Ew Nw]]]. split.
    + intros [H|[H1 [H2 H3]]]; auto. right; split; [auto|split; [right; auto|auto]].
    + intros [H|[H1 [[H2|H2] H3]]]; auto. exfalso. apply Nw, H3; auto. congruence.
Qed.

(** ExportJSON writes every node and exactly the edges whose source has readable edges only;
    it fails exactly when one of these holds a number that JSON cannot express. *)
Theorem graph_export_exact : forall P utf8 ordn ord g, greachable P g -> (forall l, Permutation (ordn l) l) -> any_order ord -> plain utf8 g ->
  match export_json utf8 ordn ord g with
  | Ok f => Permutation (gf_nodes f) (g_nodes g) /\ NoDup (gf_edges f) /\ (forall e, In e (gf_edges f) <-> exported g e) /\
            (forall n, In n (g_nodes g) -> finite_node n) /\ (forall e, exported g e -> finite_edge e)
  | Err _ => (exists n, In n (g_nodes g) /\ ~ finite_node n) \/ (exists e, exported g e /\ ~ finite_edge e)
  | Panic => False
  end.
Proof.
  intros P utf8 ordn ord g R On O [Pn Pe]. destruct (reach_unique P g R) as [_ U].
  destruct (collect_spec ord g O U (ordn (g_nodes g)) [] (NoDup_nil _) ltac:(intros ? [])) as [N C]. cbv zeta in N, C.
  assert (X : forall e, In e (collect_edges ord g (ordn (g_nodes g))) <-> exported g e).
  { intros e. unfold collect_edges. rewrite C. unfold exported, has_node. split.
    - intros [[]|[H1 [H2 H3]]]. split; auto. split; auto. apply in_map_iff in H2 as [n [En Hn]]. exists n. split; auto. apply (Permutation_in _ (On _)); auto.
    - intros [H1 [[n [Hn En]] H3]]. right. split; auto. split; auto. rewrite <- En. apply in_map. apply (Permutation_in _ (Permutation_sym (On _))); auto. }
  unfold export_json. fold (collect_edges ord g (ordn (g_nodes g))) in N. set (es := collect_edges ord g (ordn (g_nodes g))) in *.
  destruct (forallb node_encodes (ordn (g_nodes g))) eqn:Fn; cbn [andb].
  - rewrite forallb_forall in Fn. assert (Fn' : forall n, In n (g_nodes g) -> finite_node n).
    { intros n Hn. apply node_encodes_iff, Fn, (Permutation_in _ (Permutation_sym (On _))); auto. }
    destruct (forallb edge_encodes es) eqn:Fe.
    + cbn [gf_nodes gf_edges].
      assert (E1 : map (json_node utf8) (ordn (g_nodes g)) = ordn (g_nodes g)).
      { rewrite <- (map_id (ordn (g_nodes g))) at 2. apply map_ext_in. intros n Hn. apply json_node_plain, Pn, (Permutation_in _ (On _)); auto. }
      assert (E2 : map (json_edge utf8) es = es).
      { rewrite <- (map_id es) at 2. apply map_ext_in. intros e He. apply json_edge_plain, Pe. apply X in He as [He _]. auto. }
      rewrite E1, E2. split; [apply On|]. split; [exact (NoDup_map_inv _ _ N)|]. split; [exact X|]. split; [exact Fn'|].
      intros e He. apply X in He. rewrite forallb_forall in Fe. apply edge_encodes_iff; auto.
    + right. assert (Y : exists e, In e es /\ edge_encodes e = false).
      { clear -Fe. induction es as [|x l IH]; [discriminate|]. cbn in Fe. destruct (edge_encodes x) eqn:E; [destruct (IH Fe) as [e [A B]]; exists e; split; auto; right; auto|exists x; split; auto; left; auto]. }
      destruct Y as [e [He Ee]]. exists e. split; [apply X; auto|]. rewrite <- edge_encodes_iff. congruence.
  - left. assert (Y : exists n, In n (ordn (g_nodes g)) /\ node_encodes n = false).
    { clear -Fn. induction (ordn (g_nodes g)) as [|x l IH]; [discriminate|]. cbn in Fn. destruct (node_encodes x) eqn:E; [destruct (IH Fn) as [e [A B]]; exists e; split; auto; right; auto|exists x; split; auto; left; auto]. }
    destruct Y as [n [Hn En]]. exists n. split; [apply (Permutation_in _ (On _)); auto|]. rewrite <- node_encodes_iff. congruence.
Qed.
Print Assumptions graph_export_exact.

(** Two properties of batches of entries with distinct ids that are all acceptable. *)
Lemma last_all {A} (acc : option A -> Prop) (id : A -> string) l v : NoDup (map id l) -> (forall x, In x l -> acc (Some x)) ->
  (last_accepted acc id (map Some l) v <-> In v l).
Proof.
  intros N H. split.
  - intros [l1 [l2 [E _]]]. assert (I : In (Some v) (map Some l)) by (rewrite E; apply in_app_iff; right; left; auto).
    apply in_map_iff in I as [x [Ex Hx]]. congruence.
  - intros I. apply in_split in I as [l1 [l2 ->]]. exists (map Some l1), (map Some l2). rewrite map_app. split; auto. split; [apply H, in_app_iff; right; left; auto|].
    intros w Hw _ E. apply in_map_iff in Hw as [y [Ey Hy]]. injection Ey as ->. rewrite map_app in N. apply NoDup_app_r in N. cbn in N. inversion N as [|? ? Nx _]; subst.
    apply Nx. rewrite <- E. apply in_map; auto.
Qed.

(** Importing the export of a graph into an empty one restores exactly its nodes and edges. *)
Theorem graph_json_round_trip : forall utf8 ordn ord g, greachable fk_env g -> (forall l, Permutation (ordn l) l) -> any_order ord ->
  plain utf8 g -> (forall n, In n (g_nodes g) -> finite_node n) -> (forall e, In e (g_edges g) -> finite_edge e) ->
  exists f, export_json utf8 ordn ord g = Ok f /\
    forall ev1 ev2, (forall n, ev_ok ev1 n = true) -> (forall n, ev_ok ev2 n = true) -> ev_fk ev2 = true ->
    exists g', import_json ev1 ev2 new_graph f = (g', Ok tt) /\
      (forall n, In n (g_nodes g') <-> In n (g_nodes g)) /\ (forall e, In e (g_edges g') <-> In e (g_edges g)).
Proof.
  intros utf8 ordn ord g R On O Pl Fn Fe. pose proof (graph_export_exact fk_env utf8 ordn ord g R On O Pl) as X.
  destruct (reach_fine g R) as [[Un Ue] D]. destruct (reach_acceptable fk_env g R) as [An Ae].
  assert (All : forall e, exported g e <-> In e (g_edges g)).
  { intros e. split; [intros [H _]; auto|]. intros He. split; auto. split; [apply (D e He)|]. intros e' He' _. destruct (Fe e' He') as [[H _] _]. auto. }
  destruct (export_json utf8 ordn ord g) as [f|x|]; [|exfalso|destruct X].
  2: { destruct X as [[n [Hn C]]|[e [He C]]]; [exact (C (Fn n Hn))|]. apply All in He. exact (C (Fe e He)). }
  destruct X as [Pn [Ne [Xe _]]]. exists f. split; auto. intros ev1 ev2 K1 K2 F.
  unfold import_json. pose proof (nodes_batch_exact ev1 new_graph (map Some (gf_nodes f))) as B.
  destruct (upsert_nodes_batch ev1 new_graph (map Some (gf_nodes f))) as [d1 [r1|x1|]]; [|destruct B as [_ [n Hn]]; rewrite K1 in Hn; discriminate|destruct B].
  destruct B as [l' [_ [L [_ [_ [E1 I1]]]]]]. rewrite (L K1) in I1.
  assert (In1 : forall n, In n (g_nodes d1) <-> In n (g_nodes g)).
  { intros n. rewrite I1. rewrite (last_all node_acceptable n_id (gf_nodes f) n).
    - split; [intros [H|[[] _]]; apply (Permutation_in _ Pn); auto|]. intros H. left. apply (Permutation_in _ (Permutation_sym Pn)); auto.
    - apply (Permutation_NoDup (Permutation_map n_id (Permutation_sym Pn))); auto.
    - intros m Hm. apply node_valid_iff, An, (Permutation_in _ Pn); auto. }
  pose proof (edges_batch_exact ev2 d1 (map Some (gf_edges f)) F) as B.
  destruct (upsert_edges_batch ev2 d1 (map Some (gf_edges f))) as [d2 [r2|x2|]]; [|destruct B as [_ [n Hn]]; rewrite K2 in Hn; discriminate|destruct B].
  destruct B as [l2 [_ [L2 [_ [_ [E2 I2]]]]]]. rewrite (L2 K2) in I2. exists d2. split; auto. split; [intros n; rewrite E2; auto|].
  assert (Xg : forall e, In e (gf_edges f) <-> In e (g_edges g)) by (intros e; rewrite Xe; apply All).
  assert (LA : forall e, last_accepted (edge_acceptable d1) ge_id (map Some (gf_edges f)) e <-> In e (g_edges g)).
  { intros e. rewrite <- Xg. apply last_all.
    - apply NoDup_map_inj; auto. intros a b Ha Hb. apply (id_inj g); auto; apply Xg; auto.
    - intros a Ha. apply Xg in Ha. destruct (Ae a Ha) as [V _]. destruct (D a Ha) as [[p [Hp Ep]] [q [Hq Eq]]].
      exists a. split; auto. unfold edge_valid in V. apply andb_prop in V as [V1 V2]. apply negb_true_iff in V1, V2. apply orb_false_iff in V2 as [V2 V3].
      apply String.eqb_neq in V1, V2, V3. split; auto. split; auto. split; auto. split; [exists p|exists q]; split; auto; apply In1; auto. }
  intros e. rewrite I2. split.
  - intros [[y [Hy Sy]]|[He _]]; [|rewrite E1 in He; destruct He]. apply LA in Hy. destruct (Ae y Hy) as [_ W].
    pose proof (stored_edge_default y) as Sd. rewrite (default_weight_same y W) in Sd. rewrite (stored_edge_unique y e y Sy Sd). auto.
  - intros He. left. exists e. split; [apply LA; auto|]. destruct (Ae e He) as [_ W]. pose proof (stored_edge_default e) as Sd. rewrite (default_weight_same e W) in Sd. exact Sd.
Qed.
Print Assumptions graph_json_round_trip.
Definition same_text (s : string) : string := s.
Definition same_nodes (l : list gnode) : list gnode := l.
Example graph_json_round_trip_ex : (forall n, In n (g_nodes g4) -> plain_node same_text n /\ finite_node n) /\ (forall e, In e (g_edges g4) -> plain_edge same_text e /\ finite_edge e) /\
  exists f, export_json same_text same_nodes as_stored g4 = Ok f /\ map ge_id (gf_edges f) = ["ab"; "ac"; "bc"; "cd"] /\
  map ge_id (g_edges (fst (import_json all_fine all_fine new_graph f))) = ["ab"; "ac"; "bc"; "cd"].
Proof.
  split; [|split].
  - intros n Hn. cbn in Hn. repeat (destruct Hn as [<-|Hn]); try destruct Hn; (split; [repeat (split; [reflexivity|]); intros l E; discriminate E|]);
      intros b Hb; cbn in Hb; repeat (destruct Hb as [<-|Hb]); try destruct Hb; vm_compute; discriminate.
  - intros n Hn. vm_compute in Hn. repeat (destruct Hn as [<-|Hn]); try destruct Hn; (split; [repeat (split; [reflexivity|]); intros l E; discriminate E|]);
      (split; [split; [discriminate|intros s; discriminate]|intros b []]).
  - eexists. split; [vm_compute; reflexivity|]. vm_compute. auto.
Qed.

(** Refuted without these conditions.  One edge whose weight is NaN makes the export lose
    every edge that leaves the same node, without an error. *)
Definition nan_graph : gdb := grun all_fine [GUpsertNode (Some (gn "a" "p")); GUpsertNode (Some (gn "b" "q"));
  GUpsertEdge (Some (gedge_w "ab" "a" "b" "t" f_one)); GUpsertEdge (Some (gedge_w "aa" "a" "a" "t" S754_nan))].
Theorem graph_json_nan_weight_refuted : exists g f g', greachable fk_env g /\ plain same_text g /\
  export_json same_text same_nodes as_stored g = Ok f /\ import_json all_fine all_fine new_graph f = (g', Ok tt) /\
  exists e, In e (g_edges g) /\ finite_edge e /\ ~ In e (g_edges g').
Proof.
  exists nan_graph. do 2 eexists. split; [apply grun_reachable; reflexivity|]. split; [split|].
  - intros n Hn. cbn in Hn. repeat (destruct Hn as [<-|Hn]); try destruct Hn; repeat (split; [reflexivity|]); intros l E; discriminate E.
  - intros n Hn. vm_compute in Hn. repeat (destruct Hn as [<-|Hn]); try destruct Hn; repeat (split; [reflexivity|]); intros l E; discriminate E.
  - split; [vm_compute; reflexivity|]. split; [vm_compute; reflexivity|]. exists (gedge_w "ab" "a" "b" "t" f_one). split; [vm_compute; auto|].
    split; [split; [split; [discriminate|intros s; discriminate]|intros b []]|]. vm_compute. intros [].
Qed.
(** An infinite weight makes the whole export fail. *)
Theorem graph_json_infinite_weight_refuted : exists g, greachable fk_env g /\ plain same_text g /\ weights_numbers g /\
  export_json same_text same_nodes as_stored g = Err EOther.
Proof.
  exists (grun all_fine [GUpsertNode (Some (gn "a" "p")); GUpsertEdge (Some (gedge_w "aa" "a" "a" "t" (S754_infinity false)))]).
  split; [apply grun_reachable; reflexivity|]. split; [split|split].
  - intros n Hn. cbn in Hn. repeat (destruct Hn as [<-|Hn]); try destruct Hn; repeat (split; [reflexivity|]); intros l E; discriminate E.
  - intros n Hn. vm_compute in Hn. repeat (destruct Hn as [<-|Hn]); try destruct Hn; repeat (split; [reflexivity|]); intros l E; discriminate E.
  - intros e He. vm_compute in He. destruct He as [<-|[]]. discriminate.
  - reflexivity.
Qed.
(** A property map that is present but empty comes back absent. *)
Theorem graph_json_empty_properties_refuted : exists g f g' n, greachable fk_env g /\
  export_json same_text same_nodes as_stored g = Ok f /\ import_json all_fine all_fine new_graph f = (g', Ok tt) /\
  get_node g "a" = Ok n /\ n_props n = Some [] /\ exists n', get_node g' "a" = Ok n' /\ n_props n' = None.
Proof.
  exists (grun all_fine [GUpsertNode (Some {| n_id := "a"; n_vec := [0%N]; n_content := ""; n_type := ""; n_props := Some [] |})]).
  do 3 eexists. split; [apply grun_reachable; reflexivity|]. split; [vm_compute; reflexivity|]. split; [vm_compute; reflexivity|]. split; [vm_compute; reflexivity|].
  split; [reflexivity|]. eexists. split; [vm_compute; reflexivity|]. reflexivity.
Qed.
Print Assumptions graph_json_nan_weight_refuted.
Print Assumptions graph_json_infinite_weight_refuted.
Print Assumptions graph_json_empty_properties_refuted.
