(** Theorems about graph storage and traversal: C45, C46, C47. *)
From Coq Require Import String List NArith ZArith Bool Lia Permutation Sorted.
From Coq Require Import Floats.SpecFloat.
From Verif Require Import Base Floats64 StoreModel StoreSpec GraphModel GraphSpec GraphProofs GraphBfsProofs GraphTravProofs GraphNeighborProofs.
Import ListNotations.
Open Scope string_scope.
Open Scope list_scope.
From Coq Require Import ZifyBool ZifyNat ZifyN.

(** A small graph: a -> b -> c -> d, a -> c by a heavier edge, and an isolated node z. *)
Definition gn (id t : string) : gnode := {| n_id := id; n_vec := [1065353216%N]; n_content := "c"; n_type := t; n_props := None |}.
Definition gedge_w (id f t ty : string) (w : float) : gedge := {| ge_id := id; ge_from := f; ge_to := t; ge_type := ty; ge_weight := w; ge_props := None; ge_vec := [] |}.
Definition all_fine : env := {| ev_fk := true; ev_ok := fun _ => true; ev_noise := fun _ => f_zero |}.
Definition no_fk : env := {| ev_fk := false; ev_ok := fun _ => true; ev_noise := fun _ => f_zero |}.
Definition grun (ev : env) (ops : list gop) : gdb := fold_left (gstep ev) ops new_graph.
Definition build_ops : list gop :=
  [GUpsertNodes [Some (gn "a" "p"); Some (gn "b" "q"); Some (gn "c" "p"); Some (gn "d" "q"); Some (gn "z" "p")];
   GUpsertEdge (Some (gedge_w "ab" "a" "b" "t" f_zero)); GUpsertEdge (Some (gedge_w "bc" "b" "c" "t" f_zero));
   GUpsertEdge (Some (gedge_w "cd" "c" "d" "u" f_zero)); GUpsertEdge (Some (gedge_w "ac" "a" "c" "u" (f64_of_Z 5)))].
Definition g4 : gdb := grun all_fine build_ops.
Lemma grun_reachable (P : env -> Prop) ev ops : P ev -> greachable P (grun ev ops).
Proof.
  intros HP. unfold grun. assert (H : forall d, greachable P d -> greachable P (fold_left (gstep ev) ops d)).
  { induction ops as [|o ops IH]; intros d Hd; cbn; auto. apply IH. constructor; auto. }
  apply H. constructor.
Qed.
Lemma g4_reachable : greachable fk_env g4.
Proof. apply grun_reachable. reflexivity. Qed.
Lemma g4_weights : weights_numbers g4.
Proof. intros e He. vm_compute in He. repeat (destruct He as [<-|He]; [discriminate|]). destruct He. Qed.
Definition as_stored : string -> list gedge -> list gedge := fun _ l => l.
Lemma as_stored_order : any_order as_stored.
Proof. intros x l. reflexivity. Qed.

(** * C45: ids are unique and edges never dangle *)
Theorem graph_ids_unique : forall P d, greachable P d ->
  NoDup (map n_id (g_nodes d)) /\ NoDup (map ge_id (g_edges d)).
Proof. intros P d H. exact (reach_unique P d H). Qed.
Print Assumptions graph_ids_unique.

Theorem edges_never_dangle_partial : forall d, greachable fk_env d -> forall e, In e (g_edges d) ->
  (exists n, In n (g_nodes d) /\ n_id n = ge_from e) /\ (exists n, In n (g_nodes d) /\ n_id n = ge_to e).
Proof. intros d H e He. exact (proj2 (reach_fine d H) e He). Qed.
Print Assumptions edges_never_dangle_partial.
Example edges_never_dangle_ex : greachable fk_env g4 /\ length (g_edges g4) = 4 /\ length (g_nodes g4) = 5.
Proof. split; [exact g4_reachable|]. vm_compute. auto. Qed.

(** Missing for the full claim: connections of the pool without the PRAGMA. *)
Theorem edges_never_dangle_refuted : exists d e, greachable any_env d /\ In e (g_edges d) /\ ~ exists n, In n (g_nodes d) /\ n_id n = ge_to e.
Proof.
  exists (grun no_fk [GUpsertNode (Some (gn "a" "p")); GUpsertEdge (Some (gedge_w "ab" "a" "b" "t" f_zero))]).
  exists (gedge_w "ab" "a" "b" "t" f_one). split; [apply grun_reachable; exact Logic.I|].
  split; [vm_compute; auto|]. intros [n [H E]]. vm_compute in H. destruct H as [<-|[]]. discriminate.
Qed.
Print Assumptions edges_never_dangle_refuted.

Theorem delete_node_exact : forall ev d id, ev_fk ev = true ->
  match delete_node ev d id with
  | (d', Ok _) => ev_ok ev 0 = true /\ (exists n, In n (g_nodes d) /\ n_id n = id) /\
      (forall n, In n (g_nodes d') <-> In n (g_nodes d) /\ n_id n <> id) /\
      (forall e, In e (g_edges d') <-> In e (g_edges d) /\ ge_from e <> id /\ ge_to e <> id)
  | (d', Err _) => d' = d /\ (ev_ok ev 0 = false \/ ~ exists n, In n (g_nodes d) /\ n_id n = id)
  | (d', Panic) => False
  end.
Proof.
  intros ev d id F. unfold delete_node. destruct (ev_ok ev 0) eqn:O; cbn [negb]; [|auto].
  destruct (node_stored d id) eqn:S.
  - apply stored_iff in S. split; auto. split; auto. split.
    + intros n. cbn. rewrite filter_In. unfold node_is. destruct (String.eqb_spec (n_id n) id); cbn; intuition congruence.
    + intros e. rewrite (drop_nodes_edges ev d _ e F). split; intros [He K]; (split; [exact He|]).
      * destruct S as [n [Hn En]]. destruct (K n Hn) as [K1 K2]; [unfold node_is; apply String.eqb_eq; auto|]. rewrite En in K1, K2. auto.
      * intros n _ En. unfold node_is in En. apply String.eqb_eq in En. destruct K. split; congruence.
  - split; auto. right. intros H. apply (stored_iff d id) in H. congruence.
Qed.
Print Assumptions delete_node_exact.
Example delete_node_ex : map ge_id (g_edges (fst (delete_node all_fine g4 "c"))) = ["ab"] /\ map n_id (g_nodes (fst (delete_node all_fine g4 "c"))) = ["a"; "b"; "d"; "z"].
Proof. vm_compute. auto. Qed.

Theorem delete_edge_exact : forall ev d id,
  match delete_edge ev d id with
  | (d', Ok _) => ev_ok ev 0 = true /\ (exists e, In e (g_edges d) /\ ge_id e = id) /\ g_nodes d' = g_nodes d /\
      (forall e, In e (g_edges d') <-> In e (g_edges d) /\ ge_id e <> id)
  | (d', Err _) => d' = d /\ (ev_ok ev 0 = false \/ ~ exists e, In e (g_edges d) /\ ge_id e = id)
  | (d', Panic) => False
  end.
Proof.
  intros ev d id. unfold delete_edge. destruct (ev_ok ev 0); cbn [negb]; [|auto].
  destruct (existsb (edge_is id) (g_edges d)) eqn:S.
  - apply (key_stored ge_id) in S. split; auto. split; auto. split; auto.
    intros e. cbn. rewrite filter_In. unfold edge_is. destruct (String.eqb_spec (ge_id e) id); cbn; intuition congruence.
  - split; auto. right. intros H. apply (key_stored ge_id) in H. unfold edge_is in S. congruence.
Qed.
Print Assumptions delete_edge_exact.
Example delete_edge_ex : map ge_id (g_edges (fst (delete_edge all_fine g4 "bc"))) = ["ab"; "cd"; "ac"] /\ delete_edge all_fine g4 "zz" = (g4, Err ENotFound).
Proof. vm_compute. auto. Qed.

Theorem upsert_node_exact : forall ev d n,
  match upsert_node ev d n with
  | (d', Ok _) => exists x, n = Some x /\ ev_ok ev 0 = true /\ n_id x <> "" /\ n_vec x <> [] /\ g_edges d' = g_edges d /\
      (forall y, In y (g_nodes d') <-> y = x \/ (In y (g_nodes d) /\ n_id y <> n_id x))
  | (d', Err _) => d' = d /\ (ev_ok ev 0 = true -> forall x, n = Some x -> n_id x = "" \/ n_vec x = [])
  | (d', Panic) => False
  end.
Proof.
  intros ev d [x|]; cbn [upsert_node]; [|split; [auto|discriminate]].
  unfold node_valid. destruct (String.eqb_spec (n_id x) ""); cbn [negb andb].
  - split; auto. intros _ y E. injection E as <-. auto.
  - destruct (n_vec x) eqn:V; cbn [negb].
    + split; auto. intros _ y E. injection E as <-. auto.
    + destruct (ev_ok ev 0); [|split; [auto|discriminate]].
      exists x. split; auto. split; auto. split; auto. split; [congruence|]. split; auto. intros y. cbn. apply put_node_in.
Qed.
Print Assumptions upsert_node_exact.
Example upsert_node_ex : get_node (fst (upsert_node all_fine g4 (Some (gn "b" "new")))) "b" = Ok (gn "b" "new") /\
  map n_id (g_nodes (fst (upsert_node all_fine g4 (Some (gn "b" "new"))))) = ["a"; "b"; "c"; "d"; "z"] /\ snd (upsert_node all_fine g4 (Some (gn "" "t"))) = Err EOther.
Proof. vm_compute. auto. Qed.

(** An edge is stored with weight 1 when none is given. *)
Theorem upsert_edge_exact : forall ev d e, ev_fk ev = true ->
  match upsert_edge ev d e with
  | (d', Ok _) => exists x, e = Some x /\ ev_ok ev 0 = true /\ ge_id x <> "" /\
      (exists n, In n (g_nodes d) /\ n_id n = ge_from x) /\ (exists n, In n (g_nodes d) /\ n_id n = ge_to x) /\ g_nodes d' = g_nodes d /\
      exists x', ge_id x' = ge_id x /\ ge_from x' = ge_from x /\ ge_to x' = ge_to x /\ ge_type x' = ge_type x /\ ge_props x' = ge_props x /\ ge_vec x' = ge_vec x /\
        (feq (ge_weight x) f_zero = true -> ge_weight x' = f64_of_Z 1) /\ (feq (ge_weight x) f_zero = false -> ge_weight x' = ge_weight x) /\
        forall y, In y (g_edges d') <-> y = x' \/ (In y (g_edges d) /\ ge_id y <> ge_id x)
  | (d', Err _) => d' = d /\ (ev_ok ev 0 = true -> forall x, e = Some x ->
      ge_id x = "" \/ ge_from x = "" \/ ge_to x = "" \/ ~ (exists n, In n (g_nodes d) /\ n_id n = ge_from x) \/ ~ (exists n, In n (g_nodes d) /\ n_id n = ge_to x))
  | (d', Panic) => False
  end.
Proof.
  intros ev d [x|] F; cbn [upsert_edge]; [|split; [auto|discriminate]].
  unfold edge_valid. destruct (String.eqb_spec (ge_id x) ""); cbn [negb andb].
  { split; auto. intros _ y E. injection E as <-. auto. }
  destruct (String.eqb_spec (ge_from x) ""); cbn [negb orb].
  { split; auto. intros _ y E. injection E as <-. auto. }
  destruct (String.eqb_spec (ge_to x) ""); cbn [negb].
  { split; auto. intros _ y E. injection E as <-. auto. }
  unfold edge_fk. rewrite F. cbn [negb orb].
  destruct (ev_ok ev 0); cbn [andb]; [|split; [auto|discriminate]].
  destruct (node_stored d (ge_from x)) eqn:S1; cbn [andb].
  2: { split; auto. intros _ y E. injection E as <-. right; right; right; left. intros H. apply (stored_iff d) in H. congruence. }
  destruct (node_stored d (ge_to x)) eqn:S2.
  2: { split; auto. intros _ y E. injection E as <-. right; right; right; right. intros H. apply (stored_iff d) in H. congruence. }
  apply (stored_iff d) in S1, S2.
  exists x. split; auto. split; auto. split; auto. split; auto. split; auto. split; auto.
  exists (default_weight x). destruct (default_weight_keys x) as [K1 [K2 K3]].
  split; auto. split; auto. split; auto.
  split; [unfold default_weight; destruct (feq _ _); auto|]. split; [unfold default_weight; destruct (feq _ _); auto|]. split; [unfold default_weight; destruct (feq _ _); auto|].
  split; [intros E; unfold default_weight; rewrite E; auto|]. split; [intros E; unfold default_weight; rewrite E; auto|].
  intros y. cbn. rewrite put_edge_in, K1. reflexivity.
Qed.
Print Assumptions upsert_edge_exact.
Example upsert_edge_ex : snd (upsert_edge all_fine g4 (Some (gedge_w "az" "a" "zz" "t" f_one))) = Err EOther /\
  map ge_weight (g_edges g4) = [f64_of_Z 1; f64_of_Z 1; f64_of_Z 1; f64_of_Z 5].
Proof. vm_compute. auto. Qed.

Theorem get_node_exact : forall P d id n, greachable P d -> (get_node d id = Ok n <-> In n (g_nodes d) /\ n_id n = id).
Proof.
  intros P d id n R. pose proof (find_node d id n (reach_unique P d R)) as H. unfold get_node.
  rewrite <- H. destruct (find _ _); split; intros E; congruence.
Qed.
Print Assumptions get_node_exact.
Example get_node_ex : get_node g4 "c" = Ok (gn "c" "p") /\ get_node g4 "q" = Err ENotFound.
Proof. vm_compute. auto. Qed.

(** GetEdges: the edges of the node in the direction, each once. *)
Theorem get_edges_exact : forall P ord d id dir, greachable P d -> any_order ord -> weights_numbers d ->
  match get_edges ord d id dir with
  | Ok es => In dir ["out"; "in"; "both"; ""] /\ NoDup es /\
      forall e, In e es <-> In e (g_edges d) /\ ((dir <> "in" /\ ge_from e = id) \/ (dir <> "out" /\ ge_to e = id))
  | Err _ => ~ In dir ["out"; "in"; "both"; ""]
  | Panic => False
  end.
Proof.
  intros P ord d id dir R O W. destruct (known_direction dir) eqn:K.
  - destruct (get_edges_ok ord d O W id dir K) as [es [-> Pm]]. split; [|split].
    + unfold known_direction in K. cbn. destruct (String.eqb_spec dir "out"); [auto|]. destruct (String.eqb_spec dir "in"); [auto|].
      destruct (String.eqb_spec dir "both"); [auto|]. destruct (String.eqb_spec dir ""); [auto 6|discriminate].
    + apply (Permutation_NoDup (Permutation_sym Pm)). apply NoDup_filter. apply (NoDup_map_NoDup ge_id). exact (proj2 (reach_unique P d R)).
    + intros e. assert (In e es <-> In e (filter (touches dir id) (g_edges d))) as ->
        by (split; apply Permutation_in; auto using Permutation_sym).
      rewrite filter_In. unfold touches. clear K Pm.
      destruct (String.eqb_spec dir "out") as [->|N1]; [|destruct (String.eqb_spec dir "in") as [->|N2]].
      * rewrite String.eqb_eq. intuition congruence.
      * rewrite String.eqb_eq. intuition congruence.
      * rewrite orb_true_iff, !String.eqb_eq. intuition congruence.
  - unfold get_edges. rewrite K. cbn [negb]. intros H. unfold known_direction in K.
    destruct H as [<-|[<-|[<-|[<-|[]]]]]; discriminate.
Qed.
Print Assumptions get_edges_exact.
Example get_edges_ex : get_edges as_stored g4 "c" "in" = Ok [gedge_w "bc" "b" "c" "t" f_one; gedge_w "ac" "a" "c" "u" (f64_of_Z 5)] /\ get_edges as_stored g4 "c" "up" = Err EOther.
Proof. vm_compute. auto. Qed.

(** Finding: one edge whose weight is NaN makes every read of its endpoints' edges fail. *)
Theorem nan_weight_blocks_refuted : exists d ord, greachable fk_env d /\ any_order ord /\
  (exists es, walk d "a" es "b") /\ shortest_path ord d "a" "b" = Err EOther /\ get_edges ord d "a" "both" = Err EOther.
Proof.
  exists (grun all_fine [GUpsertNodes [Some (gn "a" "p"); Some (gn "b" "p")]; GUpsertEdge (Some (gedge_w "ab" "a" "b" "t" f_one));
     GUpsertEdge (Some (gedge_w "aa" "a" "a" "t" S754_nan))]), as_stored.
  split; [apply grun_reachable; reflexivity|]. split; [exact as_stored_order|].
  split; [|vm_compute; auto].
  exists [gedge_w "ab" "a" "b" "t" f_one]. econstructor; [vm_compute; left; reflexivity|reflexivity|]. constructor.
Qed.
Print Assumptions nan_weight_blocks_refuted.

(** * C46: shortest paths *)
Theorem shortest_path_exact : forall P ord d from to, greachable P d -> no_dangling d -> weights_numbers d -> any_order ord ->
  match shortest_path ord d from to with
  | Ok r => exists es, walk d from es to /\ (forall es', walk d from es' to -> (length es <= length es')%nat) /\
              p_edges r = es /\ map n_id (p_nodes r) = from :: map ge_to es /\ incl (p_nodes r) (g_nodes d) /\
              p_distance r = Z.of_nat (length es) /\ p_weight r = fold_left f64_add (map ge_weight es) f_zero
  | Err _ => ~ has_node d from \/ forall es, ~ walk d from es to
  | Panic => False
  end.
Proof. intros P ord d from to R D W O. apply shortest_path_ok; auto. split; auto. exact (reach_unique P d R). Qed.
Print Assumptions shortest_path_exact.
Example shortest_path_ex : (exists r, shortest_path as_stored g4 "a" "d" = Ok r /\ map ge_id (p_edges r) = ["ac"; "cd"] /\ p_distance r = 2%Z /\ p_weight r = f64_of_Z 6) /\
  shortest_path as_stored g4 "d" "a" = Err ENotFound /\ shortest_path as_stored g4 "a" "z" = Err ENotFound /\
  no_dangling g4 /\ weights_numbers g4.
Proof.
  split; [eexists; split; [vm_compute; reflexivity|vm_compute; auto]|].
  split; [vm_compute; reflexivity|]. split; [vm_compute; reflexivity|].
  split; [exact (proj2 (reach_fine _ g4_reachable))|exact g4_weights].
Qed.

(** * C47: neighbours *)
Lemma hop_dir d o ts x y : hop d (direction o) ts x y <-> hop d (tr_dir o) ts x y.
Proof.
  unfold direction. destruct (String.eqb_spec (tr_dir o) "") as [E|E]; [|reflexivity]. rewrite E.
  unfold hop. split; intros [e [He [T H]]]; exists e; (split; [auto|]); (split; [auto|]);
    (destruct H as [[_ H]|[_ H]]; [left|right]; (split; [discriminate|auto])).
Qed.
Lemma trail_dir d o ts p : forall x y, trail (hop d (direction o) ts) x p y <-> trail (hop d (tr_dir o) ts) x p y.
Proof.
  induction p as [|z p IH]; intros x y; split; intros H; inversion H; subst.
  - constructor.
  - constructor.
  - constructor; [apply hop_dir; auto|apply IH; auto].
  - constructor; [apply hop_dir; auto|apply IH; auto].
Qed.
Lemma known_dir o : In (tr_dir o) ["out"; "in"; "both"; ""] -> known_direction (direction o) = true.
Proof. unfold direction. intros [<-|[<-|[<-|[<-|[]]]]]; reflexivity. Qed.
Lemma load_nodes_in d ids types : unique_ids d -> NoDup ids ->
  NoDup (load_nodes d ids types) /\
  (forall n, In n (load_nodes d ids types) <-> In n (g_nodes d) /\ In (n_id n) ids /\ (types = [] \/ In (n_type n) types)).
Proof.
  intros U. assert (H : forall n, In n (load_nodes d ids types) <-> In n (g_nodes d) /\ In (n_id n) ids /\ (types = [] \/ In (n_type n) types)).
  { intros n. unfold load_nodes. rewrite in_flat_map. split.
    - intros [id [Hi H]]. destruct (find _ _) as [m|] eqn:F; [|destruct H]. apply (find_node d id m U) in F as [Hm E].
      destruct (type_allowed types (n_type m)) eqn:T; [|destruct H]. destruct H as [<-|[]]. apply type_allowed_iff in T. subst. auto.
    - intros [Hn [Hi T]]. exists (n_id n). split; auto. rewrite (proj2 (find_node d (n_id n) n U) (conj Hn eq_refl)).
      apply type_allowed_iff in T. rewrite T. left; auto. }
  intros N. split; auto. clear H. induction N as [|id ids Ni N IH]; cbn; [constructor|].
  apply NoDup_app_intro; auto.
  - destruct (find _ _); [|constructor]. destruct (type_allowed _ _); [|constructor]. constructor; [intros []|constructor].
  - intros n Hn Hl. destruct (find _ _) as [m|] eqn:F; [|destruct Hn]. apply (find_node d id m U) in F as [Hm E].
    destruct (type_allowed _ _); [|destruct Hn]. destruct Hn as [<-|[]].
    unfold load_nodes in Hl. apply in_flat_map in Hl as [id' [Hi' H]]. destruct (find (node_is id') _) as [m'|] eqn:F'; [|destruct H].
    apply (find_node d id' m' U) in F' as [_ E']. destruct (type_allowed _ _); [|destruct H]. destruct H as [<-|[]]. congruence.
Qed.

(** Without a limit: exactly the nodes at distance 1..depth, each once, nearest first. *)
Theorem neighbors_exact : forall P ord d id o, greachable P d -> weights_numbers d -> any_order ord ->
  In (tr_dir o) ["out"; "in"; "both"; ""] -> (tr_limit o <= 0)%Z ->
  exists l, neighbors ord d id o = Ok l /\ NoDup l /\
    (forall n, In n l <-> In n (g_nodes d) /\ (tr_node_types o = [] \/ In (n_type n) (tr_node_types o)) /\ n_id n <> id /\
       exists k, hops d (tr_dir o) (tr_edge_types o) k id (n_id n) /\ (1 <= Z.of_nat k <= (if Z.leb (tr_depth o) 0 then 1 else tr_depth o))%Z) /\
    StronglySorted (fun n m => forall k, hops d (tr_dir o) (tr_edge_types o) k id (n_id m) ->
                      exists k', (k' <= k)%nat /\ hops d (tr_dir o) (tr_edge_types o) k' id (n_id n)) l.
Proof.
  intros P ord d id o R W O Dir Lim. pose proof (reach_unique P d R) as U.
  destruct (neighbors_ids_ok ord d O W id o Lim (known_dir o Dir)) as [found [E [N [F [ds [F2 Sd]]]]]].
  unfold neighbors. rewrite E. cbn [bind]. eexists. split; [reflexivity|].
  destruct (load_nodes_in d found (tr_node_types o) U N) as [N' I'].
  split; auto. split.
  - intros n. rewrite I', F. fold (max_depth o).
    assert (Q : (exists p, trail (hop d (direction o) (tr_edge_types o)) id p (n_id n) /\ (1 <= Z.of_nat (length p) <= max_depth o)%Z) <->
                (exists k, hops d (tr_dir o) (tr_edge_types o) k id (n_id n) /\ (1 <= Z.of_nat k <= max_depth o)%Z)).
    { split.
      - intros [p [T L]]. exists (length p). split; auto. apply hops_trail. exists p. split; auto. apply trail_dir; auto.
      - intros [k [H L]]. apply hops_trail in H as [p [T <-]]. exists p. split; auto. apply trail_dir; auto. }
    rewrite Q. tauto.
  - clear -F2 Sd U. revert ds F2 Sd. induction found as [|x found IH]; intros ds F2 Sd; [constructor|].
    inversion F2 as [|? n ? ds' Dx F2' E1 E2]; subst. inversion Sd as [|? ? Sd' Fd]; subst.
    specialize (IH ds' F2' Sd'). cbn [load_nodes flat_map]. fold (load_nodes d found (tr_node_types o)).
    destruct (find (node_is x) (g_nodes d)) as [nx|] eqn:Fx; [|exact IH].
    destruct (type_allowed _ _); [|exact IH]. cbn [app]. constructor; [exact IH|].
    apply (find_node d x nx U) in Fx as [_ Ex]. apply Forall_forall. intros m Hm k Hk.
    unfold load_nodes in Hm. apply in_flat_map in Hm as [y [Hy Hm]]. destruct (find (node_is y) _) as [my|] eqn:Fy; [|destruct Hm].
    apply (find_node d y my U) in Fy as [_ Ey]. destruct (type_allowed _ _); [|destruct Hm]. destruct Hm as [->|[]].
    assert (exists c, In c ds' /\ dist_is d id o y c) as [c [Hc [_ Min]]].
    { clear -F2' Hy. induction F2' as [|z c l ds D F IH]; [destruct Hy|]. destruct Hy as [->|Hy]; [exists c; split; [left|]; auto|].
      destruct (IH Hy) as [c' [H1 H2]]. exists c'. split; [right|]; auto. }
    apply hops_trail in Hk as [p [T <-]]. rewrite Ey in T. apply trail_dir in T. specialize (Min p T).
    pose proof (proj1 (Forall_forall _ _) Fd c Hc) as Le. destruct Dx as [[px [Tx Lx]] _].
    exists n. split; [lia|]. apply hops_trail. exists px. rewrite Ex. split; auto. apply trail_dir; auto.
Qed.
Print Assumptions neighbors_exact.
Definition opts (depth : Z) (dir : string) (et nt : list string) (limit : Z) : traversal :=
  {| tr_depth := depth; tr_edge_types := et; tr_node_types := nt; tr_dir := dir; tr_limit := limit |}.
Example neighbors_ex : neighbors as_stored g4 "a" (opts 2 "out" [] [] 0) = Ok [gn "b" "q"; gn "c" "p"; gn "d" "q"] /\
  neighbors as_stored g4 "a" (opts 2 "out" ["t"] [] 0) = Ok [gn "b" "q"; gn "c" "p"] /\
  neighbors as_stored g4 "d" (opts 2 "in" [] ["q"] 0) = Ok [gn "b" "q"].
Proof. vm_compute. auto. Qed.

(** With a limit and no filter on node types: a prefix of the unlimited answer. *)
Theorem neighbors_limit : forall P ord d id o l, greachable P d -> no_dangling d -> weights_numbers d -> any_order ord ->
  In (tr_dir o) ["out"; "in"; "both"; ""] -> tr_node_types o = [] -> (0 < tr_limit o)%Z ->
  neighbors ord d id (opts (tr_depth o) (tr_dir o) (tr_edge_types o) [] 0) = Ok l ->
  neighbors ord d id o = Ok (firstn (Z.to_nat (tr_limit o)) l).
Proof.
  intros P ord d id o l R D W O Dir Nt Lim H.
  unfold neighbors in *. pose proof (reach_unique P d R) as U.
  destruct (neighbors_ids_ok ord d O W id (unlimited o)) as [found [E [N [F _]]]]; [cbn; lia|exact (known_dir o Dir)|].
  rewrite Nt. pose proof E as E'.
  replace (opts (tr_depth o) (tr_dir o) (tr_edge_types o) [] 0) with (unlimited o) in H by (unfold unlimited, opts; rewrite Nt; reflexivity).
  rewrite E in H. cbn [bind] in H.
  apply (loop_limit ord d o) in E'; [|auto|cbn; lia]. rewrite E'. cbn [bind].
  injection H as <-. f_equal. cbn [tr_node_types unlimited]. rewrite Nt.
  assert (Has : forall y, In y found -> exists n, find (node_is y) (g_nodes d) = Some n).
  { intros y Hy. apply F in Hy as [_ [p [T L]]]. destruct p as [|v p] using rev_ind; [cbn in L; lia|].
    apply trail_unsnoc in T as [<- [w [_ Rw]]]. destruct Rw as [e [He [_ Hd]]]. destruct (D e He) as [D1 D2].
    assert (has_node d y) as [n [Hn En]] by (destruct Hd as [[_ [_ <-]]|[_ [_ <-]]]; auto).
    exists n. apply find_node; auto. }
  clear -Has. revert Has. generalize (Z.to_nat (tr_limit o)). induction found as [|y found IH]; intros [|n] Has; [reflexivity|reflexivity|reflexivity|].
  cbn [firstn load_nodes flat_map]. fold (load_nodes d found []). fold (load_nodes d (firstn n found) []).
  destruct (Has y (or_introl eq_refl)) as [m Hm]. rewrite Hm. cbn [type_allowed app firstn]. f_equal.
  apply IH. intros z Hz. apply Has. right; auto.
Qed.
Print Assumptions neighbors_limit.
Example neighbors_limit_ex : neighbors as_stored g4 "a" (opts 3 "out" [] [] 2) = Ok [gn "b" "q"; gn "c" "p"].
Proof. vm_compute. reflexivity. Qed.

(** Finding: the limit counts nodes that the node-type filter then drops. *)
Theorem neighbors_limit_types_refuted : exists d o o', greachable fk_env d /\ weights_numbers d /\
  tr_limit o = 1%Z /\ neighbors as_stored d "a" o = Ok [] /\
  o' = opts (tr_depth o) (tr_dir o) (tr_edge_types o) (tr_node_types o) 0 /\ exists n, neighbors as_stored d "a" o' = Ok [n].
Proof.
  exists g4, (opts 1 "out" [] ["p"] 1), (opts 1 "out" [] ["p"] 0).
  split; [exact g4_reachable|]. split; [exact g4_weights|]. split; [reflexivity|]. split; [vm_compute; reflexivity|].
  split; [reflexivity|]. eexists. vm_compute. reflexivity.
Qed.
Print Assumptions neighbors_limit_types_refuted.

Theorem neighbors_bad_direction : forall ord d id o, ~ In (tr_dir o) ["out"; "in"; "both"; ""] -> neighbors ord d id o = Err EOther.
Proof.
  intros ord d id o H. unfold neighbors. cbn [Nat.add neighbors_loop b_queue].
  replace (Z.leb (max_depth o) 0) with false by (symmetry; unfold max_depth; destruct (Z.leb_spec (tr_depth o) 0); lia).
  unfold get_edges, direction. destruct (String.eqb_spec (tr_dir o) "") as [E|E]; [exfalso; apply H; rewrite E; cbn; auto|].
  unfold known_direction. cbn in H.
  destruct (String.eqb_spec (tr_dir o) "out"); [exfalso; apply H; auto|]. destruct (String.eqb_spec (tr_dir o) "in"); [exfalso; apply H; auto|].
  destruct (String.eqb_spec (tr_dir o) "both"); [exfalso; apply H; auto|]. destruct (String.eqb_spec (tr_dir o) ""); [contradiction|]. reflexivity.
Qed.
Print Assumptions neighbors_bad_direction.

(** Connected: exactly when an undirected path within the bound (6 by default) exists. *)
Theorem connected_exact : forall ord d a b depth, weights_numbers d -> any_order ord ->
  exists r, connected ord d a b depth = Ok r /\
    (r = true <-> exists n, hops d "both" [] n a b /\ (Z.of_nat n <= (if Z.leb depth 0 then 6 else depth))%Z).
Proof. intros ord d a b depth W O. apply connected_ok; auto. Qed.
Print Assumptions connected_exact.
Example connected_ex : connected as_stored g4 "d" "a" 2 = Ok true /\ connected as_stored g4 "d" "a" 1 = Ok false /\ connected as_stored g4 "a" "z" 0 = Ok false.
Proof. vm_compute. auto. Qed.

(** Subgraph: the stored nodes among the given ids, in the given order, and the edges
    between given ids. *)
Theorem subgraph_exact : forall P ord d ids, greachable P d -> weights_numbers d -> any_order ord ->
  (forall n, In n (fst (subgraph ord d ids)) <-> In n (g_nodes d) /\ In (n_id n) ids) /\
  (forall e, In e (snd (subgraph ord d ids)) <-> In e (g_edges d) /\ In (ge_from e) ids /\ In (ge_to e) ids) /\
  (NoDup ids -> NoDup (fst (subgraph ord d ids)) /\ NoDup (snd (subgraph ord d ids))).
Proof.
  intros P ord d ids R W O. pose proof (reach_unique P d R) as U.
  assert (Out : forall id, exists es, get_edges ord d id "out" = Ok es /\ NoDup es /\ forall e, In e es <-> In e (g_edges d) /\ ge_from e = id).
  { intros id. pose proof (get_edges_exact P ord d id "out" R O W) as H. destruct (get_edges ord d id "out") as [es| |]; [|exfalso; apply H; left; auto|destruct H].
    destruct H as [_ [N H]]. exists es. split; auto. split; auto. intros e. rewrite H. split; [intros [He [[_ E]|[C _]]]; [auto|destruct (C eq_refl)]|]. intros [He E]. split; auto. left. split; [discriminate|auto]. }
  unfold subgraph. cbn [fst snd]. split; [|split].
  - intros n. rewrite in_flat_map. split.
    + intros [id [Hi H]]. destruct (get_node d id) as [m| |] eqn:G; [|destruct H|destruct H].
      destruct H as [<-|[]]. apply (get_node_exact P d id m R) in G as [Hm <-]. auto.
    + intros [Hn Hi]. exists (n_id n). split; auto. rewrite (proj2 (get_node_exact P d (n_id n) n R)); auto. left; auto.
  - intros e. rewrite in_flat_map. split.
    + intros [id [Hi H]]. destruct (Out id) as [es [E [_ Q]]]. rewrite E in H. apply filter_In in H as [He T]. apply Q in He as [He <-].
      apply in_ids_iff in T. auto.
    + intros [He [Hf Ht]]. exists (ge_from e). split; auto. destruct (Out (ge_from e)) as [es [E [_ Q]]]. rewrite E. apply filter_In.
      split; [apply Q; auto|apply in_ids_iff; auto].
  - intros N. split.
    + induction N as [|id l Ni N IH]; cbn; [constructor|]. apply NoDup_app_intro; auto.
      * destruct (get_node d id); try constructor; [intros []|constructor].
      * intros n Hn Hl. apply in_flat_map in Hl as [id' [Hi' H]].
        destruct (get_node d id) as [m| |] eqn:G; [|destruct Hn|destruct Hn]. destruct Hn as [->|[]].
        destruct (get_node d id') as [m'| |] eqn:G'; [|destruct H|destruct H]. destruct H as [->|[]].
        apply (get_node_exact P d id n R) in G as [_ E1]. apply (get_node_exact P d id' n R) in G' as [_ E2]. congruence.
    + assert (Gen : forall l, NoDup l -> NoDup (flat_map (fun id => match get_edges ord d id "out" with Ok es => filter (fun e => in_ids ids (ge_to e)) es | _ => [] end) l)); [|auto].
      intros l. induction 1 as [|id l Ni Nl IH]; cbn [flat_map]; [constructor|]. apply NoDup_app_intro; auto.
      * destruct (Out id) as [es [-> [Ne _]]]. apply NoDup_filter; auto.
      * intros e He Hl. apply in_flat_map in Hl as [id' [Hi' H]]. destruct (Out id) as [es [E [_ Q]]]. rewrite E in He. apply filter_In in He as [He _]. apply Q in He as [_ E1].
        destruct (Out id') as [es' [E' [_ Q']]]. rewrite E' in H. apply filter_In in H as [H _]. apply Q' in H as [_ E2]. congruence.
Qed.
Print Assumptions subgraph_exact.
Example subgraph_ex : map ge_id (snd (subgraph as_stored g4 ["a"; "c"; "q"; "b"])) = ["ab"; "ac"; "bc"] /\ map n_id (fst (subgraph as_stored g4 ["a"; "c"; "q"; "b"])) = ["a"; "c"; "b"].
Proof. vm_compute. auto. Qed.
