(** Theorems about the vector index of the graph and its searches. *)
From Coq Require Import String List NArith ZArith Bool Lia Permutation Sorted.
From Coq Require Import Floats.SpecFloat.
From Verif Require Import Base Floats64 TopK SimilarityModel StoreModel StoreProofs GraphModel GraphSpec GraphProofs GraphBfsProofs GraphTravProofs GraphProps GraphHnswModel GraphHnswSpec GraphHnswProofs GraphHybridProofs.
From Verif Require HindProofs.
Import ListNotations.
Open Scope string_scope.
Open Scope list_scope.
Open Scope nat_scope.
From Coq Require Import ZifyBool ZifyNat ZifyN.

(** Nodes with two-dimensional vectors: (1,0), (0,1) and (1,1) in float32 bits. *)
Definition vx : list N := [1065353216; 0]%N.
Definition vy : list N := [0; 1065353216]%N.
Definition vxy : list N := [1065353216; 1065353216]%N.
Definition vnode (id t : string) (v : list N) : gnode := {| n_id := id; n_vec := v; n_content := ""; n_type := t; n_props := None |}.
Definition at_levels (lv : nat) : genv := {| gv_env := all_fine; gv_level := fun _ => lv; gv_rows := fun l => l; gv_ids := fun l => l |}.
Definition by_closer : list (string * float) -> list (string * float) := ex_sort closer.
Definition by_higher : list hresult -> list hresult := ex_sort higher.
Definition xs (h : list (genv * xop)) : gstore := xrun cosine by_closer new_gstore h.
Definition up (n : gnode) : xop := XCall (GUpsertNode (Some n)).
Lemma at_levels_fair lv : fair_env (at_levels lv).
Proof. split; intros l; apply Permutation_refl. Qed.
Lemma by_closer_ok : sort_ok closer by_closer.
Proof. apply ex_sort_ok. Qed.
Lemma by_higher_ok : sort_ok higher by_higher.
Proof. apply ex_sort_ok. Qed.

(** * C144: results of the graph's vector index are current nodes with their true scores *)
Theorem hnsw_search_sound : forall cos srt s q k threshold, sort_ok closer srt -> singly_after_enabling cos srt s -> (0 <= k)%Z ->
  exists out, hnsw_search cos srt s q k threshold = Ok out /\ length out <= Z.to_nat k /\ NoDup (map (fun r => n_id (h_node r)) out) /\
    (forall r, In r out -> In (h_node r) (g_nodes (s_db s)) /\ h_vector r = cos q (n_vec (h_node r)) /\ h_score r = h_vector r /\ fle threshold (h_score r) = true) /\
    ((forall v, not_nan (cos q v)) -> StronglySorted (fun a b => flt (h_score a) (h_score b) = false) out).
Proof.
  intros cos srt s q k th S R K. destruct (singly_mirrors cos srt s R) as ([U V] & h & Hx & E & A). unfold hnsw_search. rewrite Hx.
  destruct (ix_find_ok cos srt S h q (k * 2)) as (found & -> & N & I & L & So & _); [lia|]. cbn [bind]. destruct (Z.ltb_spec k 0); [lia|].
  set (f := fun c : string * float => _). assert (Hf : forall c r, In c found -> In r (f c) -> n_id (h_node r) = fst c /\ h_score r = snd c /\
    In (h_node r) (g_nodes (s_db s)) /\ h_vector r = cos q (n_vec (h_node r)) /\ h_score r = h_vector r /\ fle th (h_score r) = true).
  { intros c r Hc Hr. unfold f in Hr. destruct (fge (snd c) th) eqn:T; [|destruct Hr]. unfold get_node in Hr. destruct (find (node_is (fst c)) (g_nodes (s_db s))) as [n|] eqn:F; [|destruct Hr]. destruct Hr as [<-|[]].
    cbn [h_node h_vector h_score]. destruct (I c Hc) as (v & Av & Sv). rewrite A, F in Av. injection Av as Av. apply (find_node _ _ _ U) in F as [F1 F2]. split; [exact F2|]. split; auto. split; auto. split; [congruence|]. split; auto. }
  eexists. split; [reflexivity|]. split; [rewrite firstn_length; lia|]. split; [|split].
  - rewrite <- firstn_map. apply NoDup_firstn. clear So L I. induction found as [|c found IH]; [constructor|]. cbn [map] in N. apply NoDup_cons_iff in N as [N1 N2]. cbn [flat_map]. rewrite map_app. apply NoDup_app_intro.
    + unfold f. destruct (fge (snd c) th); [|constructor]. destruct (get_node (s_db s) (fst c)); [constructor; [intros []|constructor]|constructor|constructor].
    + apply IH; auto. intros c' r Hc. apply Hf. right; auto.
    + intros y Hy Hy2. apply in_map_iff in Hy as (r & <- & Hr). apply in_map_iff in Hy2 as (r2 & E2 & Hr2). apply in_flat_map in Hr2 as (c2 & Hc2 & Hr2).
      apply Hf in Hr as [Hr _]; [|left; auto]. apply Hf in Hr2 as [Hr2 _]; [|right; auto]. apply N1. apply in_map_iff. exists c2. split; auto. congruence.
  - intros r Hr. apply in_firstn in Hr. apply in_flat_map in Hr as (c & Hc & Hr). apply Hf in Hr as (_ & _ & Hr); auto.
  - intros NN. specialize (So NN). apply (sorted_firstn higher). unfold sorted_by. clear N L I. induction found as [|c found IH]; [constructor|]. cbn [flat_map]. inversion So as [|? ? So1 So2]; subst.
    assert (IH' : StronglySorted (fun a b => higher b a = false) (flat_map f found)) by (apply IH; auto; intros c' r Hc; apply Hf; right; auto).
    unfold f at 1. destruct (fge (snd c) th) eqn:T; [|exact IH']. destruct (get_node (s_db s) (fst c)) as [n| |]; [|exact IH'|exact IH']. cbn [app]. constructor; [exact IH'|].
    apply Forall_forall. intros r Hr. apply in_flat_map in Hr as (c2 & Hc2 & Hr). apply Hf in Hr as (_ & Hr & _); [|right; auto]. unfold higher. cbn [h_score]. rewrite Hr. rewrite Forall_forall in So2. apply So2. exact Hc2.
Qed.
Print Assumptions hnsw_search_sound.
Definition three : gstore := xs [(at_levels 0, up (vnode "x" "t" vx)); (at_levels 0, XEnable); (at_levels 0, up (vnode "y" "t" vy)); (at_levels 0, up (vnode "xy" "u" vxy)); (at_levels 0, up (vnode "y" "t" vx))].
Lemma three_singly : singly_after_enabling cosine by_closer three.
Proof.
  exists [(at_levels 0, up (vnode "x" "t" vx))], (at_levels 0), [(at_levels 0, up (vnode "y" "t" vy)); (at_levels 0, up (vnode "xy" "u" vxy)); (at_levels 0, up (vnode "y" "t" vx))]. split; [reflexivity|]. split.
  - intros ev' o H. repeat (destruct H as [E|H]; [injection E as <- <-; intros []|]). destruct H.
  - intros ev' o H. cbn [app] in H. repeat (destruct H as [E|H]; [injection E as <- _; apply at_levels_fair|]). destruct H.
Qed.
Example hnsw_search_ex : exists out, hnsw_search cosine by_closer three vxy 2 f_zero = Ok out /\ length out = 2 /\ hd_error (map result_id out) = Some "xy".
Proof. eexists. split; [vm_compute; reflexivity|]. vm_compute. auto. Qed.

(** * C145: the index answers when there is anything to answer *)
Theorem hnsw_search_finds_something : forall cos srt s q k threshold, sort_ok closer srt -> singly_after_enabling cos srt s -> (1 <= k)%Z ->
  g_nodes (s_db s) <> [] -> (forall n, In n (g_nodes (s_db s)) -> fle threshold (cos q (n_vec n)) = true) ->
  exists out, hnsw_search cos srt s q k threshold = Ok out /\ out <> [].
Proof.
  intros cos srt s q k th S R K Nn T. destruct (singly_mirrors cos srt s R) as ([U V] & h & Hx & E & A). unfold hnsw_search. rewrite Hx.
  destruct (ix_find_ok cos srt S h q (k * 2)) as (found & -> & N & I & L & So & Ne); [lia|]. cbn [bind]. destruct (Z.ltb_spec k 0); [lia|]. eexists. split; [reflexivity|].
  assert (Vs : x_vecs h <> []).
  { intros C. destruct (g_nodes (s_db s)) as [|n l] eqn:G; [congruence|]. specialize (A (n_id n)). rewrite C in A. cbn [find] in A. unfold node_is in A. rewrite String.eqb_refl in A. discriminate. }
  specialize (Ne E Vs ltac:(lia)). destruct found as [|c found]; [congruence|]. destruct (I c (or_introl eq_refl)) as (v & Av & Sv). rewrite A in Av. cbn [flat_map]. unfold get_node.
  destruct (find (node_is (fst c)) (g_nodes (s_db s))) as [n|] eqn:F; [|discriminate]. injection Av as Av. apply (find_node _ _ _ U) in F as [F1 F2]. specialize (T n F1). rewrite Av, <- Sv in T. replace (fge (snd c) th) with true by (symmetry; exact T).
  destruct (Z.to_nat k) eqn:Kn; [lia|]. cbn. discriminate.
Qed.
Print Assumptions hnsw_search_finds_something.
Example hnsw_search_finds_ex : singly_after_enabling cosine by_closer three /\ length (g_nodes (s_db three)) = 3 /\ (forall n, In n (g_nodes (s_db three)) -> fle f_zero (cosine vxy (n_vec n)) = true).
Proof.
  split; [exact three_singly|]. split; [vm_compute; reflexivity|]. assert (E : g_nodes (s_db three) = [vnode "x" "t" vx; vnode "y" "t" vx; vnode "xy" "u" vxy]) by (vm_compute; reflexivity).
  rewrite E. intros n [<-|[<-|[<-|[]]]]; vm_compute; reflexivity.
Qed.

(** * C146: every stored node is found when the limit allows it *)
(** Two nodes, the second with random level 1: it becomes the entry point before it is
    connected, and the first one, an exact match, is never found. *)
Theorem hnsw_search_complete_refuted : exists s q n, singly_after_enabling cosine by_closer s /\ In n (g_nodes (s_db s)) /\ n_vec n = q /\ length (g_nodes (s_db s)) = 2 /\
  (exists out, hnsw_search cosine by_closer s q 10 f_zero = Ok out /\ ~ In n (map h_node out)) /\
  sort_ok closer by_closer.
Proof.
  exists (xs [(at_levels 0, XEnable); (at_levels 0, up (vnode "x" "t" vx)); (at_levels 1, up (vnode "y" "t" vy))]), vx, (vnode "x" "t" vx). split.
  { exists [], (at_levels 0), [(at_levels 0, up (vnode "x" "t" vx)); (at_levels 1, up (vnode "y" "t" vy))]. split; [reflexivity|]. split.
    - intros ev' o H. repeat (destruct H as [E|H]; [injection E as <- <-; intros []|]). destruct H.
    - intros ev' o H. cbn [app] in H. repeat (destruct H as [E|H]; [injection E as <- _; apply at_levels_fair|]). destruct H. }
  split; [vm_compute; auto|]. split; [reflexivity|]. split; [vm_compute; reflexivity|]. split; [|apply by_closer_ok].
  eexists. split; [vm_compute; reflexivity|]. intros [C|[]]. discriminate.
Qed.
Print Assumptions hnsw_search_complete_refuted.

(** * C51: nodes upserted in a batch are searchable like others *)
Theorem batch_node_searchable_refuted : exists s n, s = xs [(at_levels 0, up (vnode "x" "t" vx)); (at_levels 0, XEnable); (at_levels 0, XCall (GUpsertNodes [Some n]))] /\
  In n (g_nodes (s_db s)) /\ n_vec n = vy /\ exists out, hnsw_search cosine by_closer s vy 10 f_zero = Ok out /\ ~ In n (map h_node out).
Proof.
  eexists. exists (vnode "y" "t" vy). split; [reflexivity|]. split; [vm_compute; auto|]. split; [reflexivity|]. eexists. split; [vm_compute; reflexivity|]. intros [C|[]]. discriminate.
Qed.
Print Assumptions batch_node_searchable_refuted.
(** A batch that changes a vector leaves the old score behind. *)
Theorem batch_update_score_refuted : exists s n, s = xs [(at_levels 0, up (vnode "x" "t" vx)); (at_levels 0, XEnable); (at_levels 0, XCall (GUpsertNodes [Some n]))] /\
  In n (g_nodes (s_db s)) /\ exists r, hnsw_search cosine by_closer s vx 10 f_zero = Ok [r] /\ h_node r = n /\ feq (h_score r) (cosine vx (n_vec n)) = false.
Proof.
  eexists. exists (vnode "x" "t" vy). split; [reflexivity|]. split; [vm_compute; auto|]. eexists. split; [vm_compute; reflexivity|]. split; [reflexivity|]. vm_compute. reflexivity.
Qed.
Print Assumptions batch_update_score_refuted.
(** Upserted singly, the same node is found. *)
Example single_node_searchable_ex : exists out, hnsw_search cosine by_closer (xs [(at_levels 0, up (vnode "x" "t" vx)); (at_levels 0, XEnable); (at_levels 0, up (vnode "y" "t" vy))]) vy 10 f_zero = Ok out /\
  In (vnode "y" "t" vy) (map h_node out).
Proof. eexists. split; [vm_compute; reflexivity|]. vm_compute. auto. Qed.

(** * C147: hybrid search scores every candidate as documented and returns the best *)
Theorem graph_hybrid_exact : forall cos srt_c sim srt_r ord shuffle h q,
  sort_ok closer srt_c -> sort_ok higher srt_r -> any_order ord -> (forall l, Permutation l (shuffle l)) ->
  let s := xrun cos srt_c new_gstore h in weights_numbers (s_db s) ->
  exists out w near cands all, hybrid_graph_search cos srt_c sim srt_r ord shuffle s q = Ok out /\
    settled (hq_weights q) w /\ near_table (s_db s) (hq_start q) (hq_filter q) near /\
    (forall n, In n cands -> In n (g_nodes (s_db s)) /\ passes (filter_nodes (hq_filter q)) (n_type n)) /\
    (s_ix s = None \/ (hq_topk q <= 0)%Z -> hq_vec q <> [] -> forall n, In n (g_nodes (s_db s)) -> passes (filter_nodes (hq_filter q)) (n_type n) -> In n cands) /\
    (cands = [] -> hq_vec q <> [] -> forall n, In n (g_nodes (s_db s)) -> ~ passes (filter_nodes (hq_filter q)) (n_type n)) /\
    NoDup (map result_id all) /\
    (forall r, In r all <-> In (h_node r) (g_nodes (s_db s)) /\ expected sim q w near cands r) /\
    incl out all /\ NoDup (map result_id out) /\ length out = Nat.min (all_or (hq_topk q) all) (length all) /\
    ((forall r, In r all -> not_nan (h_score r)) -> is_topk higher (all_or (hq_topk q) all) all out).
Proof.
  intros cos srt_c sim srt_r ord shuffle h q S1 S2 O Sh s Wt. apply hybrid_ok; auto. exact (reach_unique _ _ (xrun_reach cos srt_c h new_gstore (gr_new _))).
Qed.
Print Assumptions graph_hybrid_exact.
(** x -2-> y -3-> z, and a node far from all. *)
Definition gline : list (genv * xop) :=
  [(at_levels 0, up (vnode "x" "t" vx)); (at_levels 0, up (vnode "y" "t" vy)); (at_levels 0, up (vnode "z" "u" vxy)); (at_levels 0, up (vnode "far" "t" vy));
   (at_levels 0, XCall (GUpsertEdge (Some (gedge_w "xy" "x" "y" "k" (f64_of_Z 2))))); (at_levels 0, XCall (GUpsertEdge (Some (gedge_w "yz" "y" "z" "k" (f64_of_Z 3)))))].
Definition by_both (v : list N) (start : string) (th : float) (k : Z) : hquery :=
  {| hq_vec := v; hq_start := start; hq_filter := None; hq_topk := k; hq_threshold := th; hq_weights := {| w_vector := f_one; w_graph := f_one; w_edge := f_one |} |}.
Example graph_hybrid_ex : weights_numbers (s_db (xs gline)) /\
  (exists out, hybrid_graph_search cosine by_closer cosine by_higher as_stored (fun l => l) (xs gline) (by_both [] "x" f_zero 2) = Ok out /\ map (fun r => (result_id r, h_distance r)) out = [("z", 2%Z); ("y", 1%Z)]) /\
  exists out, hybrid_graph_search cosine by_closer cosine by_higher as_stored (fun l => l) (xs gline) (by_both vx "x" f_one 3) = Ok out /\ length out = 3 /\ forall r, In r out -> not_nan (h_score r).
Proof.
  split; [intros e He; vm_compute in He; destruct He as [<-|[<-|[]]]; discriminate|]. split; [eexists; split; [vm_compute; reflexivity|reflexivity]|].
  eexists. split; [vm_compute; reflexivity|]. split; [reflexivity|]. intros r [<-|[<-|[<-|[]]]]; discriminate.
Qed.

(** * C148: the edge weight counts for every result *)
(** With all weight on the edges, results that the vector found too score 0. *)
Definition only_edges : hweights := {| w_vector := f_zero; w_graph := f_zero; w_edge := f_one |}.
Definition edge_query (v : list N) : hquery := {| hq_vec := v; hq_start := "x"; hq_filter := None; hq_topk := 0; hq_threshold := f_zero; hq_weights := only_edges |}.
Theorem edge_weight_counts_refuted :
  (exists out, hybrid_graph_search cosine by_closer cosine by_higher as_stored (fun l => l) (xs gline) (edge_query vx) = Ok out /\ length out = 4 /\ forall r, In r out -> feq (h_score r) f_zero = true) /\
  exists r r' out, hybrid_graph_search cosine by_closer cosine by_higher as_stored (fun l => l) (xs gline) (edge_query []) = Ok (r :: r' :: out) /\
    result_id r = "z" /\ h_score r = f64_of_Z 6 /\ result_id r' = "y" /\ h_score r' = f64_of_Z 2.
Proof.
  split.
  - eexists. split; [vm_compute; reflexivity|]. split; [reflexivity|]. intros r H. repeat (destruct H as [<-|H]; [vm_compute; reflexivity|]). destruct H.
  - eexists. eexists. eexists. split; [vm_compute; reflexivity|]. vm_compute. auto.
Qed.
Print Assumptions edge_weight_counts_refuted.

(** * C149: enabling the index does not change what hybrid search finds *)
Theorem hybrid_index_agrees_refuted : exists h q n, let plain := xs h in let indexed := xs (h ++ [(at_levels 1, XEnable)]) in
  s_db plain = s_db indexed /\ n_vec n = hq_vec q /\
  (exists out, hybrid_graph_search cosine by_closer cosine by_higher as_stored (fun l => l) plain q = Ok out /\ In n (map h_node out)) /\
  (exists out, hybrid_graph_search cosine by_closer cosine by_higher as_stored (fun l => l) indexed q = Ok out /\ ~ In n (map h_node out)).
Proof.
  exists [(at_levels 0, up (vnode "x" "t" vx)); (at_levels 0, up (vnode "y" "t" vy))], (by_both vx "" f_zero 10), (vnode "x" "t" vx). cbv zeta.
  split; [reflexivity|]. split; [reflexivity|]. split.
  - eexists. split; [vm_compute; reflexivity|]. vm_compute. auto.
  - eexists. split; [vm_compute; reflexivity|]. intros [C|[]]. discriminate.
Qed.
Print Assumptions hybrid_index_agrees_refuted.

(** * C150: vector search around a node ranks exactly its neighbourhood *)
Theorem graph_vector_search_exact : forall P sim srt_r ord d start q o, sort_ok higher srt_r -> greachable P d -> weights_numbers d -> any_order ord ->
  In (tr_dir o) ["out"; "in"; "both"; ""] -> (tr_limit o <= 0)%Z ->
  exists out, graph_vector_search sim srt_r ord d start q o = Ok out /\ NoDup (map result_id out) /\
    (forall r, In r out <-> In (h_node r) (g_nodes d) /\ h_vector r = sim q (n_vec (h_node r)) /\ h_score r = h_vector r /\ h_graph r = f_zero /\ h_distance r = (-1)%Z /\
       (result_id r = start \/ ((tr_node_types o = [] \/ In (n_type (h_node r)) (tr_node_types o)) /\
          exists k, hops d (tr_dir o) (tr_edge_types o) k start (result_id r) /\ (1 <= Z.of_nat k <= (if Z.leb (tr_depth o) 0 then 1 else tr_depth o))%Z))) /\
    ((forall v, not_nan (sim q v)) -> StronglySorted (fun a b => flt (h_score a) (h_score b) = false) out).
Proof.
  intros P sim srt_r ord d start q o Sr R W O Dir Lim. pose proof (reach_unique P d R) as U. destruct (neighbors_exact P ord d start o R W O Dir Lim) as (l & E & Nl & Il & _).
  unfold graph_vector_search. rewrite E. cbn [bind]. destruct (Z.ltb_spec 0 (tr_limit o)); [lia|]. set (ns := match get_node d start with Ok n => n :: l | _ => l end).
  assert (Hn : forall n, In n ns <-> In n (g_nodes d) /\ (n_id n = start \/ ((tr_node_types o = [] \/ In (n_type n) (tr_node_types o)) /\ exists k, hops d (tr_dir o) (tr_edge_types o) k start (n_id n) /\ (1 <= Z.of_nat k <= (if Z.leb (tr_depth o) 0 then 1 else tr_depth o))%Z))).
  { intros n. assert (Dn : n_id n = start \/ n_id n <> start) by (destruct (String.string_dec (n_id n) start); auto).
    unfold ns, get_node. destruct (find (node_is start) (g_nodes d)) as [m|] eqn:F.
    - apply (find_node _ _ _ U) in F as [F1 F2]. cbn [In]. rewrite Il. split.
      + intros [<-|(A & B & C & D)]; [auto|split; auto].
      + intros (A & [B|[B C]]).
        * left. pose proof (proj2 (find_node d start m U) (conj F1 F2)). pose proof (proj2 (find_node d start n U) (conj A B)). congruence.
        * destruct Dn as [Dn|Dn]; [|right; auto]. left. pose proof (proj2 (find_node d start m U) (conj F1 F2)). pose proof (proj2 (find_node d start n U) (conj A Dn)). congruence.
    - pose proof (proj1 (find_node_none d start) F) as F'. rewrite Il. split.
      + intros (A & B & C & D). split; auto.
      + intros (A & [B|[B C]]); [exfalso; apply F'; exists n; auto|]. destruct Dn as [Dn|Dn]; [exfalso; apply F'; exists n; auto|auto]. }
  assert (Nn : NoDup (map n_id ns)).
  { assert (Ni : NoDup (map n_id l)).
    { assert (Sub : forall n, In n l -> In n (g_nodes d)) by (intros n Hl; apply Il in Hl; apply Hl). clear - Nl Sub U. induction l as [|n l IH]; [constructor|]. apply NoDup_cons_iff in Nl as [N1 N2]. cbn [map]. constructor; [|apply IH; auto; intros m Hm; apply Sub; right; auto].
      intros C. apply in_map_iff in C as (m & Em & Hm). assert (m = n); [|subst; contradiction].
      pose proof (proj2 (find_node d (n_id n) n U) (conj (Sub n (or_introl eq_refl)) eq_refl)). pose proof (proj2 (find_node d (n_id n) m U) (conj (Sub m (or_intror Hm)) Em)). congruence. }
    unfold ns, get_node. destruct (find (node_is start) (g_nodes d)) as [m|] eqn:F; auto. apply (find_node _ _ _ U) in F as [F1 F2]. cbn [map]. constructor; auto. intros C. apply in_map_iff in C as (n & En & Hl). apply Il in Hl as (_ & _ & Ne & _). congruence. }
  destruct (Sr (map (similar sim q) ns)) as [Pm So]. eexists. split; [reflexivity|]. split; [|split].
  - eapply Permutation_NoDup; [apply Permutation_map; exact Pm|]. rewrite map_map. exact Nn.
  - intros r. transitivity (In r (map (similar sim q) ns)); [split; apply Permutation_in; [apply Permutation_sym|]; exact Pm|]. rewrite in_map_iff. split.
    + intros (n & <- & Hm). apply Hn in Hm as [A B]. cbn [similar h_node h_vector h_score h_graph h_distance]. split; auto.
    + intros (A & E1 & E2 & E3 & E4 & B). exists (h_node r). split; [|apply Hn; auto]. destruct r as [n v g sc ds]. cbn [h_node h_vector h_score h_graph h_distance] in *. unfold similar. subst. reflexivity.
  - intros NN. apply So. apply higher_weak. intros r Hr. apply in_map_iff in Hr as (n & <- & _). apply NN.
Qed.
Print Assumptions graph_vector_search_exact.
Example graph_vector_search_ex : exists out, graph_vector_search cosine by_higher as_stored (s_db (xs gline)) "y" vxy (opts 1 "both" [] [] 0) = Ok out /\ length out = 3 /\ hd_error (map result_id out) = Some "z".
Proof. eexists. split; [vm_compute; reflexivity|]. vm_compute. auto. Qed.

(** * C151: a limit keeps the most similar nodes of the neighbourhood *)
(** The limit ends the walk before the vectors are compared. *)
Theorem graph_vector_search_limit_refuted : exists d q o n m,
  (exists out, graph_vector_search cosine by_higher as_stored d "c" q o = Ok out /\ length out = 1 /\ In m (map h_node out)) /\ tr_limit o = 1%Z /\
  In n (g_nodes d) /\ hop d "out" [] "c" (n_id n) /\ flt (cosine q (n_vec m)) (cosine q (n_vec n)) = true.
Proof.
  exists (s_db (xs [(at_levels 0, up (vnode "c" "t" vy)); (at_levels 0, up (vnode "a" "t" vy)); (at_levels 0, up (vnode "b" "t" vx));
    (at_levels 0, XCall (GUpsertEdge (Some (gedge_w "ca" "c" "a" "k" f_one)))); (at_levels 0, XCall (GUpsertEdge (Some (gedge_w "cb" "c" "b" "k" f_one))))])).
  exists vx, (opts 1 "out" [] [] 1), (vnode "b" "t" vx). eexists. split; [eexists; split; [vm_compute; reflexivity|split; [reflexivity|left; reflexivity]]|]. split; [reflexivity|]. split; [vm_compute; auto|].
  split; [|vm_compute; reflexivity]. exists (gedge_w "cb" "c" "b" "k" f_one). split; [vm_compute; auto|]. split; auto. left. split; [discriminate|]. split; reflexivity.
Qed.
Print Assumptions graph_vector_search_limit_refuted.

(** * C152: nodes similar to a node *)
Theorem similarity_in_graph_exact : forall P sim srt_r rows d id topk threshold, sort_ok higher srt_r -> (forall l, Permutation l (rows l)) -> greachable P d ->
  match similarity_in_graph sim srt_r rows d id topk threshold with
  | Ok out => exists x all, In x (g_nodes d) /\ n_id x = id /\ NoDup (map result_id all) /\
      (forall r, In r all <-> In (h_node r) (g_nodes d) /\ result_id r <> id /\ h_vector r = sim (n_vec x) (n_vec (h_node r)) /\ h_score r = h_vector r /\ h_graph r = f_zero /\ h_distance r = (-1)%Z /\
         (feq threshold f_zero = true \/ fle threshold (h_vector r) = true)) /\
      incl out all /\ length out = Nat.min (all_or topk all) (length all) /\
      ((forall r, In r all -> not_nan (h_score r)) -> is_topk higher (all_or topk all) all out)
  | Err _ => ~ has_node d id
  | Panic => False
  end.
Proof.
  intros P sim srt_r rows d id topk th Sr Ro R. pose proof (reach_unique P d R) as U. unfold similarity_in_graph, get_node. destruct (find (node_is id) (g_nodes d)) as [x|] eqn:F; cbn [bind]; [|apply find_node_none; exact F].
  apply (find_node _ _ _ U) in F as [F1 F2]. set (found := filter _ (rows (g_nodes d))). set (all := map (similar sim (n_vec x)) found). exists x, all. split; auto. split; auto.
  assert (Nr : NoDup (map n_id (rows (g_nodes d)))) by (eapply Permutation_NoDup; [apply Permutation_map; apply Ro|apply U]).
  assert (Pm : Permutation all (srt_r all)) by apply Sr.
  split; [unfold all; rewrite map_map; change (NoDup (map n_id found)); apply NoDup_map_filter; exact Nr|]. split; [|split; [|split]].
  - intros r. unfold all. rewrite in_map_iff. split.
    + intros (n & <- & Hn). unfold found in Hn. apply filter_In in Hn as [Hn C]. apply andb_true_iff in C as [C1 C2]. apply negb_true_iff, String.eqb_neq in C1. apply orb_true_iff in C2. cbn [similar h_node h_vector h_score h_graph h_distance].
      split; [eapply Permutation_in; [apply Permutation_sym; apply Ro|exact Hn]|]. split; [exact C1|]. split; auto.
    + intros (A & B & E1 & E2 & E3 & E4 & C). exists (h_node r). split.
      * destruct r as [n v g sc ds]. cbn [h_node h_vector h_score h_graph h_distance] in *. unfold similar. subst. reflexivity.
      * unfold found. apply filter_In. split; [eapply Permutation_in; [apply Ro|exact A]|]. apply andb_true_iff. split; [apply negb_true_iff, String.eqb_neq; exact B|]. apply orb_true_iff. rewrite <- E1. exact C.
  - intros r Hr. eapply Permutation_in; [apply Permutation_sym; exact Pm|]. destruct (Z.ltb 0 topk); [eapply in_firstn; exact Hr|exact Hr].
  - unfold all_or. destruct (Z.ltb 0 topk); [rewrite firstn_length, (Permutation_length Pm); reflexivity|]. rewrite <- (Permutation_length Pm). lia.
  - intros NN. apply topk_any; auto.
Qed.
Print Assumptions similarity_in_graph_exact.
Example similarity_in_graph_ex : (exists out, similarity_in_graph cosine by_higher (fun l => l) (s_db (xs gline)) "x" 1 f_zero = Ok out /\ map result_id out = ["z"]) /\
  similarity_in_graph cosine by_higher (fun l => l) (s_db (xs gline)) "nobody" 1 f_zero = Err ENotFound.
Proof. split; [eexists; split; vm_compute; reflexivity|vm_compute; reflexivity]. Qed.

(** * C153: index search weighted with closeness to given nodes *)
Lemma closeness_nonneg n : HindProofs.nonneg (closeness n).
Proof.
  unfold closeness. apply HindProofs.nonneg_div; [apply HindProofs.nonneg_of_Z; lia|apply HindProofs.nonneg_of_Z; lia|discriminate|discriminate].
Qed.
Lemma path_score_ok P ord d id : greachable P d -> no_dangling d -> weights_numbers d -> any_order ord -> has_node d id ->
  forall centers done best, best_closeness d done id best -> best_closeness d (done ++ centers) id (fold_left (path_score ord d id) centers best).
Proof.
  intros R D W O Hid. induction centers as [|c centers IH]; intros done best B; [rewrite app_nil_r; exact B|]. cbn [fold_left].
  replace (done ++ c :: centers) with ((done ++ [c]) ++ centers) by (rewrite <- app_assoc; reflexivity). apply IH.
  assert (Mono : forall n, reaches d done id n -> reaches d (done ++ [c]) id n).
  { intros n (c' & es & A & B'). exists c', es. split; [apply in_or_app; auto|exact B']. }
  assert (NN : not_nan best) by (destruct B as [[->|(n & _ & ->)] _]; [discriminate|apply HindProofs.nonneg_not_nan, closeness_nonneg]).
  assert (Keep : (forall n, reaches d [c] id n -> fle (closeness n) best = true) -> best_closeness d (done ++ [c]) id best).
  { intros K. destruct B as [B1 B2]. split; [destruct B1 as [B1|(n & B1 & B3)]; [left; exact B1|right; exists n; auto]|].
    intros n (c' & es & A & B'). apply in_app_or in A as [A|A]; [apply B2; exists c', es; auto|apply K; exists c', es; auto]. }
  unfold path_score. pose proof (shortest_path_exact P ord d c id R D W O) as Sp. destruct (shortest_path ord d c id) as [p|e|].
  - destruct Sp as (es & Wk & Min & _ & Ei & In & _). destruct (p_nodes p) as [|n0 l] eqn:Pn; [discriminate|]. rewrite <- Pn in *.
    assert (Ln : length (p_nodes p) = length es + 1) by (rewrite <- (map_length n_id), Ei; cbn [length]; rewrite map_length; lia).
    assert (Hc : has_node d c). { exists n0. split; [apply In; rewrite Pn; left; auto|]. rewrite Pn in Ei. cbn [map] in Ei. congruence. }
    assert (Rc : forall n, reaches d [c] id n <-> n = length es).
    { intros n. split.
      - intros (c' & es' & [<-|[]] & _ & (W' & _ & M') & L). specialize (Min es' W'). specialize (M' es Wk). rewrite Forall_forall in M'. specialize (M' (fun _ _ => or_introl eq_refl)). lia.
      - intros ->. exists c, es. split; [left; auto|]. split; auto. split; auto. split; [exact Wk|]. split; [apply Forall_forall; intros; left; auto|]. intros es' W' _. auto. }
    assert (Cl : f64_div f_one (f64_of_Z (Z.of_nat (length (p_nodes p)))) = closeness (length es)) by (unfold closeness; rewrite Ln; reflexivity). cbv zeta. rewrite Cl.
    pose proof (HindProofs.nonneg_not_nan _ (closeness_nonneg (length es))) as Nc. destruct (fgt (closeness (length es)) best) eqn:G.
    + split; [right; exists (length es); split; [destruct (proj2 (Rc _) eq_refl) as (c' & es' & A & B'); exists c', es'; split; [apply in_or_app; auto|exact B']|reflexivity]|].
      intros n (c' & es' & A & B'). apply in_app_or in A as [A|A].
      * destruct B as [_ B2]. specialize (B2 n (ex_intro _ c' (ex_intro _ es' (conj A B')))). pose proof (HindProofs.nonneg_not_nan _ (closeness_nonneg n)) as Nn.
        rewrite fle_flt in B2 |- * by auto. apply negb_true_iff in B2. apply negb_true_iff. change (flt best (closeness (length es)) = true) in G. destruct (flt (closeness (length es)) (closeness n)) eqn:Q; auto.
        pose proof (flt_trans _ _ _ G Q). congruence.
      * rewrite (proj1 (Rc n) (ex_intro _ c' (ex_intro _ es' (conj A B')))). rewrite fle_flt by auto. rewrite flt_irrefl. reflexivity.
    + apply Keep. intros n Hn. apply Rc in Hn as ->. rewrite fle_flt by auto. change (flt best (closeness (length es)) = false) in G. rewrite G. reflexivity.
  - apply Keep. intros n (c' & es & [<-|[]] & Hc & (W' & _) & _). destruct Sp as [Sp|Sp]; [contradiction|destruct (Sp es W')].
  - destruct Sp.
Qed.
Lemma nonneg_antisym a b : HindProofs.nonneg a -> HindProofs.nonneg b -> fle a b = true -> fle b a = true -> a = b.
Proof.
  unfold fle, SFleb. destruct a as [[]|[]| |[] m e], b as [[]|[]| |[] m' e']; cbn; intros Ha Hb; try tauto; try discriminate; auto.
  rewrite (Z.compare_antisym e e'). pose proof (Pos.compare_antisym m m') as AS; unfold Pos.compare in AS; rewrite AS.
  destruct (Z.compare e e') eqn:E; cbn; try discriminate. apply Z.compare_eq in E as ->. destruct (Pos.compare_cont Eq m m') eqn:M; cbn; try discriminate. apply Pos.compare_eq in M as ->. auto.
Qed.
Lemma best_closeness_unique d cs id g g' : best_closeness d cs id g -> best_closeness d cs id g' -> g = g'.
Proof.
  assert (L : forall g g', best_closeness d cs id g -> best_closeness d cs id g' -> fle g g' = true).
  { clear. intros g g' [[->|(n & R & ->)] _] [H1 H2]; [|apply H2; exact R]. assert (N : HindProofs.nonneg g') by (destruct H1 as [->|(n & _ & ->)]; [exact Logic.I|apply closeness_nonneg]). destruct g' as [[]|[]| |[] m e]; cbn in N; try tauto; reflexivity. }
  intros A B. assert (N : forall g, best_closeness d cs id g -> HindProofs.nonneg g) by (intros x [[->|(n & _ & ->)] _]; [exact Logic.I|apply closeness_nonneg]).
  apply nonneg_antisym; auto.
Qed.
(** [found] is what the index itself returns for 3k. *)
Theorem hnsw_hybrid_exact : forall cos srt_c srt_r ord s q centers k vw gw vt total,
  sort_ok closer srt_c -> sort_ok higher srt_r -> any_order ord -> singly_after_enabling cos srt_c s -> weights_numbers (s_db s) -> no_dangling (s_db s) -> (0 <= k)%Z ->
  exists out all found h, hnsw_hybrid_search cos srt_c srt_r ord s q centers k vw gw vt total = Ok out /\ s_ix s = Some h /\ ix_find cos srt_c h q (k * 3) = Ok found /\ NoDup (map result_id all) /\
    (forall r, In r all <-> In (h_node r) (g_nodes (s_db s)) /\ In (result_id r) (map fst found) /\ h_vector r = cos q (n_vec (h_node r)) /\ fle vt (h_vector r) = true /\
       best_closeness (s_db s) centers (result_id r) (h_graph r) /\ h_score r = f64_add (f64_mul vw (h_vector r)) (f64_mul gw (h_graph r)) /\ fle total (h_score r) = true /\ h_distance r = 0%Z) /\
    is_topk higher (Z.to_nat k) all out.
Proof.
  intros cos srt_c srt_r ord s q centers k vw gw vt total S Sr O Rs W D K. destruct (singly_mirrors cos srt_c s Rs) as ([U V] & h & Hx & E & A). unfold hnsw_hybrid_search. rewrite Hx.
  assert (R : greachable (fun _ => True) (s_db s)) by (destruct Rs as (h1 & ev & h2 & -> & _); apply xrun_reach; constructor).
  destruct (ix_find_ok cos srt_c S h q (k * 3)) as (found & Ef & N & I & L & So & _); [lia|]. rewrite Ef. cbn [bind]. destruct (Z.ltb_spec k 0); [lia|].
  set (f := fun c : string * float => _). set (scored := flat_map f found).
  assert (Hf : forall c r, In c found -> In r (f c) -> result_id r = fst c /\ In (h_node r) (g_nodes (s_db s)) /\ h_vector r = cos q (n_vec (h_node r)) /\ fle vt (h_vector r) = true /\
       best_closeness (s_db s) centers (result_id r) (h_graph r) /\ h_score r = f64_add (f64_mul vw (h_vector r)) (f64_mul gw (h_graph r)) /\ fle total (h_score r) = true /\ h_distance r = 0%Z).
  { intros c r Hc Hr. unfold f in Hr. destruct (fge (snd c) vt) eqn:T; [|destruct Hr]. unfold get_node in Hr. destruct (find (node_is (fst c)) (g_nodes (s_db s))) as [n|] eqn:F; [|destruct Hr]. cbv zeta in Hr.
    destruct (fge _ total) eqn:T2; [|destruct Hr]. destruct Hr as [<-|[]]. unfold result_id. cbn [h_node h_vector h_graph h_score h_distance].
    destruct (I c Hc) as (v & Av & Sv). rewrite A, F in Av. injection Av as Av. apply (find_node _ _ _ U) in F as [F1 F2]. split; [exact F2|]. split; auto. split; [congruence|]. split; auto. split; [|split; auto].
    rewrite F2. apply (path_score_ok (fun _ => True) ord (s_db s) (fst c) R D W O (ex_intro _ n (conj F1 F2)) centers [] f_zero). split; [left; reflexivity|]. intros m (c' & es & [] & _). }
  assert (Nd : NoDup (map result_id scored)).
  { unfold scored. clear So L I Ef. induction found as [|c found IH]; [constructor|]. cbn [map] in N. apply NoDup_cons_iff in N as [N1 N2]. cbn [flat_map]. rewrite map_app. apply NoDup_app_intro.
    + unfold f. destruct (fge (snd c) vt); [|constructor]. destruct (get_node (s_db s) (fst c)); [|constructor|constructor]. cbv zeta. destruct (fge _ total); [constructor; [intros []|constructor]|constructor].
    + apply IH; auto. intros c' r Hc. apply Hf. right; auto.
    + intros y Hy Hy2. apply in_map_iff in Hy as (r & <- & Hr). apply in_map_iff in Hy2 as (r2 & E2 & Hr2). apply in_flat_map in Hr2 as (c2 & Hc2 & Hr2).
      apply Hf in Hr as [Hr _]; [|left; auto]. apply Hf in Hr2 as [Hr2 _]; [|right; auto]. apply N1. apply in_map_iff. exists c2. split; auto. congruence. }
  eexists. exists scored, found, h. split; [reflexivity|]. split; auto. split; auto. split; [exact Nd|]. split.
  - intros r. split.
    + intros Hr. apply in_flat_map in Hr as (c & Hc & Hr). apply Hf in Hr as (Hr0 & Hr1 & Hr2); auto. split; auto. split; auto. rewrite Hr0. apply in_map. exact Hc.
    + intros (H1 & H2 & H3 & H4 & H5 & H6 & H7 & H8). apply in_map_iff in H2 as (c & Ec & Hc). apply in_flat_map. exists c. split; auto. unfold f.
      destruct (I c Hc) as (v & Av & Sv). pose proof (proj2 (find_node (s_db s) (fst c) (h_node r) U) (conj H1 (eq_sym Ec))) as F. rewrite A, F in Av. injection Av as Av.
      assert (Es : snd c = h_vector r) by congruence. rewrite Es. replace (fge (h_vector r) vt) with true by (symmetry; exact H4). unfold get_node. rewrite F. cbv zeta.
      assert (Eg : fold_left (path_score ord (s_db s) (fst c)) centers f_zero = h_graph r).
      { apply (best_closeness_unique (s_db s) centers (fst c)); [|rewrite Ec; exact H5]. apply (path_score_ok (fun _ => True) ord (s_db s) (fst c) R D W O (ex_intro _ (h_node r) (conj H1 (eq_sym Ec))) centers [] f_zero). split; [left; reflexivity|]. intros m (c' & es & [] & _). }
      rewrite Eg, <- H6. replace (fge (h_score r) total) with true by (symmetry; exact H7). left. rewrite <- H8. clear. destruct r. reflexivity.
  - apply topk_of_sort; auto. apply higher_weak. intros r Hr. apply in_flat_map in Hr as (c & Hc & Hr). apply Hf in Hr as (_ & _ & _ & _ & _ & _ & Hr & _); auto. exact (proj2 (fle_not_nan _ _ Hr)).
Qed.
Print Assumptions hnsw_hybrid_exact.
Definition pair_s : gstore := xs ((at_levels 0, XEnable) :: gline).
Example hnsw_hybrid_ex : singly_after_enabling cosine by_closer pair_s /\ exists r, hnsw_hybrid_search cosine by_closer by_higher as_stored pair_s vxy ["x"; "nobody"] 1 f_one f_one f_zero f_zero = Ok [r] /\ result_id r = "x" /\ h_graph r = f_one.
Proof.
  split.
  - exists [], (at_levels 0), gline. split; [reflexivity|]. split.
    + intros ev' o H. repeat (destruct H as [E|H]; [injection E as <- <-; intros []|]). destruct H.
    + intros ev' o H. cbn [app] in H. repeat (destruct H as [E|H]; [injection E as <- _; apply at_levels_fair|]). destruct H.
  - eexists. split; [vm_compute; reflexivity|]. vm_compute. auto.
Qed.
