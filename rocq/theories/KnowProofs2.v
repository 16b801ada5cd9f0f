(** Proofs about the knowledge calls: the graph side. *)
From Coq Require Import String Ascii List NArith ZArith Bool Permutation Sorted Lia ZifyBool ZifyNat.
From Coq Require Import Floats.SpecFloat.
From Verif Require Import Base Floats64 EncodingSpec SearchModel RagModel RagSpec RagProps ToolGraphModel StoreModel StoreSpec
  GraphModel GraphSpec GraphProofs GraphTravProofs GraphNeighborProofs GraphProps GraphBatchProps ToolGraphSpec ToolGraphProofs ToolGraphProofs2 ToolGraphProps KnowModel KnowSpec KnowProofs.
Import ListNotations.
Open Scope string_scope.
Open Scope list_scope.

Lemma last_accepted_nodup {A B} (f : B -> A) (acc : option A -> Prop) (id : A -> string) (l : list B) (v : A) :
  (forall b, In b l -> acc (Some (f b))) -> NoDup (map (fun b => id (f b)) l) ->
  (last_accepted acc id (map (fun b => Some (f b)) l) v <-> exists b, In b l /\ v = f b).
Proof.
  intros Acc N. rewrite last_accepted_map. split.
  - intros (l1 & b & l2 & -> & -> & _). exists b. split; [apply in_or_app; right; left; reflexivity|reflexivity].
  - intros (b & Hb & ->). apply in_split in Hb as (l1 & l2 & ->). exists l1, b, l2. split; [reflexivity|]. split; [reflexivity|]. split; [apply Acc; apply in_or_app; right; left; reflexivity|].
    intros b' Hb' _ E. rewrite map_app in N. cbn [map] in N. apply NoDup_remove_2 in N. apply N. apply in_or_app. right. rewrite <- E. apply (in_map (fun b => id (f b))). exact Hb'.
Qed.

Section G.
Variables (trim : string -> string) (vec : Z -> string -> list N) (id title content : string) (dim : Z) (pieces : list string).
Hypothesis Vec : forall t, vec dim t <> [].

Lemma doc_node_is n : is_doc_node trim vec id title content dim n <-> n = doc_node trim vec id title content dim.
Proof using Type.
  unfold is_doc_node, doc_node. split.
  - intros (H1 & H2 & H3 & H4 & H5). destruct n as [a b c t p]. cbn in *. assert (E : c = first_non_empty trim title content) by (symmetry; apply first_iff; exact H2). subst. reflexivity.
  - intros ->. cbn. split; [reflexivity|]. split; [apply first_iff; reflexivity|]. auto.
Qed.
Lemma chunk_node_is i p n : is_chunk_node vec id title dim i p n <-> n = chunk_node vec id title dim (i, p).
Proof using Type.
  unfold is_chunk_node, chunk_node. cbn [fst snd]. split.
  - intros (H1 & H2 & H3 & H4 & H5). destruct n as [a b c t q]. cbn in *. subst. reflexivity.
  - intros ->. cbn. auto.
Qed.
Lemma doc_edge_is i x : doc_edge id i x <-> hd_error (chunk_edges id i) = Some x.
Proof using Type.
  unfold doc_edge, plain_edge, chunk_edges, doc_edge_id. cbn [hd_error]. split.
  - intros (H1 & H2 & H3 & H4 & H5 & H6 & H7). destruct x. cbn in *. subst. reflexivity.
  - intros [= <-]. cbn. auto 10.
Qed.
Lemma next_edge_is i x : next_edge id i x <-> tl (chunk_edges id (S i)) = [x].
Proof using Type.
  unfold next_edge, plain_edge, chunk_edges, next_edge_id. cbn [tl]. split.
  - intros (H1 & H2 & H3 & H4 & H5 & H6 & H7). destruct x as [xa xb xc xt xw xq xv]. cbn [ge_id ge_from ge_to ge_type ge_weight ge_props ge_vec] in *. subst. reflexivity.
  - intros [= <-]. cbn [ge_id ge_from ge_to ge_type ge_weight ge_props ge_vec]. auto 10.
Qed.
Let edges := flat_map (fun p : nat * string => chunk_edges id (fst p)) (number 0 pieces).
Lemma edges_in x : In x edges <-> (exists i, (i < length pieces)%nat /\ doc_edge id i x) \/ (exists i, (S i < length pieces)%nat /\ next_edge id i x).
Proof using Type.
  unfold edges. rewrite in_flat_map. split.
  - intros ([i p] & H & Hx). apply number_in0 in H. assert (L : (i < length pieces)%nat) by (apply nth_error_Some; congruence). cbn [fst] in Hx. unfold chunk_edges in Hx. destruct Hx as [<-|Hx].
    + left. exists i. split; [exact L|]. apply doc_edge_is. reflexivity.
    + destruct i as [|j]; [destruct Hx|]. destruct Hx as [<-|[]]. right. exists j. split; [exact L|]. apply next_edge_is. reflexivity.
  - assert (P : forall i, (i < length pieces)%nat -> exists p, In (i, p) (number 0 pieces)).
    { intros i L. apply nth_error_Some in L. destruct (nth_error pieces i) as [p|] eqn:E; [|congruence]. exists p. apply number_in0. exact E. }
    intros [(i & L & H)|(i & L & H)]; destruct (P _ L) as [p Hp]; eexists; (split; [exact Hp|]); cbn [fst].
    + apply doc_edge_is in H. cbn [chunk_edges hd_error] in H. injection H as <-. left. reflexivity.
    + apply next_edge_is in H. cbn [chunk_edges tl] in H. injection H as <-. right. left. reflexivity.
Qed.
Lemma edge_id_index e i : In e (chunk_edges id i) -> ge_id e = doc_edge_id id i \/ ge_id e = next_edge_id id i.
Proof using Type. unfold chunk_edges, doc_edge_id, next_edge_id. destruct i as [|j]; [intros [<-|[]]|intros [<-|[<-|[]]]]; cbn [ge_id]; auto. Qed.
Lemma doc_edge_id_inj i j : doc_edge_id id i = doc_edge_id id j -> i = j.
Proof using Type. unfold doc_edge_id. intros E. apply append_inj_l in E. apply append_inj_l in E. apply append_inj_l in E. apply digits_inj. exact E. Qed.
Lemma next_edge_id_inj i j : next_edge_id id i = next_edge_id id j -> i = j.
Proof using Type. unfold next_edge_id. intros E. apply append_inj_l in E. apply append_inj_l in E. apply append_inj_l in E. apply digits_inj. exact E. Qed.
Lemma doc_next_id i j : doc_edge_id id i <> next_edge_id id j.
Proof using Type. unfold doc_edge_id, next_edge_id. cbn. discriminate. Qed.
Lemma edges_NoDup : NoDup (map ge_id edges).
Proof using Type.
  unfold edges. pose proof (number_fst_NoDup pieces 0) as N. revert N. generalize (number 0 pieces) as l. induction l as [|[i p] l IH]; intros N; [constructor|].
  cbn [flat_map map fst] in *. inversion_clear N as [|? ? Na Ne]. rewrite map_app. apply NoDup_app_intro; [|apply IH; exact Ne|].
  - unfold chunk_edges. destruct i as [|j]; cbn [map]; [constructor; [intros []|constructor]|]. constructor; [|constructor; [intros []|constructor]]. intros [E|[]]. cbn [ge_id] in E. symmetry in E. apply (doc_next_id (S j) (S j)). exact E.
  - intros x Hx Hy. apply in_map_iff in Hx as (a & <- & Ha). apply in_map_iff in Hy as (b & E & Hb). apply in_flat_map in Hb as ([j q] & Hj & Hb). cbn [fst] in Hb.
    apply edge_id_index in Ha, Hb. assert (i = j).
    { rewrite E in Hb. destruct Ha as [Ha|Ha], Hb as [Hb|Hb]; rewrite Ha in Hb; [apply doc_edge_id_inj; exact Hb|destruct (doc_next_id i j); exact Hb|destruct (doc_next_id j i); symmetry; exact Hb|apply next_edge_id_inj; exact Hb]. }
    subst j. apply Na. apply in_map_iff. exists (i, q). auto.
Qed.

(** The three graph writes of an ingestion. *)
Lemma graph_written kv g : greachable fk_env g -> calm kv ->
  exists g1 g2 g3 r2 r3, upsert_node (kv 4%nat) g (Some (doc_node trim vec id title content dim)) = (g1, Ok tt) /\
    upsert_nodes_batch (kv 6%nat) g1 (map (fun p => Some (chunk_node vec id title dim p)) (number 0 pieces)) = (g2, Ok r2) /\
    upsert_edges_batch (kv 7%nat) g2 (map Some edges) = (g3, Ok r3) /\ greachable fk_env g3 /\
    graph_replaced trim vec (fun _ => False) g g3 id title content dim pieces.
Proof using Vec.
  intros R C. pose proof (upsert_node_exact (kv 4%nat) g (Some (doc_node trim vec id title content dim))) as H1.
  pose proof (gr_step fk_env g (kv 4%nat) (GUpsertNode (Some (doc_node trim vec id title content dim))) R (proj1 (C 4%nat))) as R1. cbn [gstep] in R1.
  destruct (upsert_node (kv 4%nat) g _) as [g1 [u|e|]]; [|exfalso; destruct H1 as [_ H1]; destruct (H1 (proj2 (C 4%nat) 0%nat) _ eq_refl) as [E|E]; [discriminate E|exact (Vec _ E)]|destruct H1]. destruct u.
  destruct H1 as (x & Ex & _ & _ & _ & Ge1 & Gn1). injection Ex as <-. cbn [fst] in R1.
  pose proof (nodes_batch_exact (kv 6%nat) g1 (map (fun p => Some (chunk_node vec id title dim p)) (number 0 pieces))) as H2.
  pose proof (gr_step fk_env g1 (kv 6%nat) (GUpsertNodes (map (fun p => Some (chunk_node vec id title dim p)) (number 0 pieces))) R1 (proj1 (C 6%nat))) as R2. cbn [gstep] in R2.
  destruct (upsert_nodes_batch (kv 6%nat) g1 _) as [g2 [r2|e|]] eqn:Eb2; [|exfalso; destruct H2 as [_ [n N]]; rewrite (proj2 (C 6%nat)) in N; discriminate|destruct H2]. cbn [fst] in R2.
  destruct H2 as (l' & _ & Same & _ & _ & Ge2 & Gn2). specialize (Same (proj2 (C 6%nat))). subst l'.
  pose proof (edges_batch_exact (kv 7%nat) g2 (map Some edges) (proj1 (C 7%nat))) as H3.
  pose proof (gr_step fk_env g2 (kv 7%nat) (GUpsertEdges (map Some edges)) R2 (proj1 (C 7%nat))) as R3. cbn [gstep] in R3.
  destruct (upsert_edges_batch (kv 7%nat) g2 _) as [g3 [r3|e|]] eqn:Eb3; [|exfalso; destruct H3 as [_ [n N]]; rewrite (proj2 (C 7%nat)) in N; discriminate|destruct H3]. cbn [fst] in R3.
  destruct H3 as (l' & _ & Same & _ & _ & Gn3 & Ge3). specialize (Same (proj2 (C 7%nat))). subst l'.
  exists g1, g2, g3, r2, r3. split; [reflexivity|]. split; [exact Eb2|]. split; [exact Eb3|]. split; [exact R3|].
  assert (Acc : forall b, In b (number 0 pieces) -> node_acceptable (Some (chunk_node vec id title dim b))).
  { intros b _. eexists. split; [reflexivity|]. split; [discriminate|apply Vec]. }
  assert (Ndn : NoDup (map (fun b => n_id (chunk_node vec id title dim b)) (number 0 pieces))).
  { pose proof (rows_NoDup vec id title "x" None dim pieces) as N. rewrite map_map in N. exact N. }
  assert (Nodes : forall n, In n (g_nodes g2) <-> is_doc_node trim vec id title content dim n \/ (exists i p, nth_error pieces i = Some p /\ is_chunk_node vec id title dim i p n) \/
     (In n (g_nodes g) /\ n_id n <> ("doc:" ++ id)%string /\ forall i, (i < length pieces)%nat -> n_id n <> chunk_node_id id i)).
  { intros n. rewrite Gn2, (last_accepted_nodup _ _ _ _ _ Acc Ndn), none_accepted_map. rewrite Gn1. split.
    - intros [([i p] & Hb & ->)|[H No]].
      + right. left. exists i, p. split; [apply number_in0; exact Hb|]. apply chunk_node_is. reflexivity.
      + destruct H as [->|[H1 H2]]; [left; apply doc_node_is; reflexivity|]. right. right. split; [exact H1|]. split; [exact H2|]. intros i L E. apply nth_error_Some in L. destruct (nth_error pieces i) as [p|] eqn:Ep; [|congruence].
        apply number_in0 in Ep. apply (No (i, p) Ep); [apply Acc; exact Ep|]. symmetry. exact E.
    - intros [H|[(i & p & Hp & H)|(H1 & H2 & H3)]].
      + apply doc_node_is in H. subst n. right. split; [left; reflexivity|]. intros b _ _. cbn [chunk_node n_id doc_node]. exact (proj2 (chunk_ids_distinct id id (fst b) 0)).
      + apply chunk_node_is in H. left. exists (i, p). split; [apply number_in0; exact Hp|exact H].
      + right. split; [right; split; auto|]. intros [i p] Hb _ E. cbn [chunk_node n_id fst] in E. apply number_in0 in Hb. apply (H3 i); [apply nth_error_Some; congruence|auto]. }
  assert (HasD : has_node g2 (document_node_id id)). { exists (doc_node trim vec id title content dim). split; [apply Nodes; left; apply doc_node_is; reflexivity|reflexivity]. }
  assert (HasC : forall i, (i < length pieces)%nat -> has_node g2 (chunk_node_id id i)).
  { intros i L. apply nth_error_Some in L. destruct (nth_error pieces i) as [p|] eqn:Ep; [|congruence]. exists (chunk_node vec id title dim (i, p)). split; [apply Nodes; right; left; exists i, p; split; [exact Ep|apply chunk_node_is; reflexivity]|reflexivity]. }
  assert (AccE : forall b, In b edges -> edge_acceptable g2 (Some b)).
  { intros b Hb. apply edges_in in Hb. exists b. split; [reflexivity|]. destruct Hb as [(i & L & (E1 & E2 & E3 & _))|(i & L & (E1 & E2 & E3 & _))]; rewrite E1, E2, E3.
    - split; [discriminate|]. split; [discriminate|]. split; [discriminate|]. split; [exact HasD|apply HasC; exact L].
    - split; [discriminate|]. split; [discriminate|]. split; [discriminate|]. split; apply HasC; lia. }
  split.
  - intros n. rewrite Gn3, Nodes. tauto.
  - intros x. rewrite Ge3. rewrite (none_accepted_map (fun z => z)). rewrite Ge2, Ge1. 
    assert (LA : forall y, last_accepted (edge_acceptable g2) ge_id (map Some edges) y <-> In y edges).
    { intros y. rewrite (last_accepted_nodup (fun z => z) _ _ _ _ AccE edges_NoDup). split; [intros (b & Hb & ->); exact Hb|eauto]. }
    assert (Wt : forall y, In y edges -> ge_weight y = f64_of_Z 1). { intros y Hy. apply edges_in in Hy as [(i & _ & H)|(i & _ & H)]; apply H. }
    assert (St : (exists y, last_accepted (edge_acceptable g2) ge_id (map Some edges) y /\ stored_edge y x) <-> In x edges).
    { split.
      - intros (y & L & S). apply LA in L. apply stored_same in S; [subst; exact L|]. rewrite (Wt y L). reflexivity.
      - intros H. exists x. split; [apply LA; exact H|]. apply stored_same; [|reflexivity]. rewrite (Wt x H). reflexivity. }
    rewrite St, edges_in. assert (No : (forall b, In b edges -> edge_acceptable g2 (Some b) -> ge_id b <> ge_id x) <->
       (forall i, (i < length pieces)%nat -> ge_id x <> doc_edge_id id i) /\ (forall i, (0 < i < length pieces)%nat -> ge_id x <> next_edge_id id i)).
    { split.
      - intros H. split.
        + intros i L E. assert (Hb : exists b, doc_edge id i b) by (eexists; apply doc_edge_is; reflexivity). destruct Hb as [b Hb]. assert (Ib : In b edges) by (apply edges_in; left; eauto). apply (H b Ib (AccE b Ib)). rewrite E. apply Hb.
        + intros i L E. destruct i as [|i]; [lia|]. assert (Hb : exists b, next_edge id i b) by (eexists; apply next_edge_is; reflexivity). destruct Hb as [b Hb]. assert (Ib : In b edges) by (apply edges_in; right; exists i; split; [lia|exact Hb]). apply (H b Ib (AccE b Ib)). rewrite E. apply Hb.
      - intros [H1 H2] b Hb _ E. apply edges_in in Hb as [(i & L & H)|(i & L & H)]; [apply (H1 i L)|apply (H2 (S i)); [lia|]]; rewrite <- E; apply H. }
    rewrite No. tauto.
Qed.
End G.

(** The deletion of the old nodes. *)
Lemma nodes_gone ev g ids : greachable fk_env g -> ev_fk ev = true -> (forall n, ev_ok ev n = true) ->
  exists g' r, delete_nodes_batch ev g ids = (g', Ok r) /\ greachable fk_env g' /\
    (forall n, In n (g_nodes g') <-> In n (g_nodes g) /\ ~ In (n_id n) ids) /\
    (forall e, In e (g_edges g') <-> In e (g_edges g) /\ ~ In (ge_from e) ids /\ ~ In (ge_to e) ids).
Proof.
  intros R F O. pose proof (delete_nodes_batch_exact fk_env ev g ids R F) as H. pose proof (gr_step fk_env g ev (GDeleteNodes ids) R F) as R'. cbn [gstep] in R'.
  destruct (delete_nodes_batch ev g ids) as [g' [r|e|]]; [|exfalso; destruct H as [_ [n N]]; rewrite O in N; discriminate|destruct H]. destruct H as (_ & Hn & He). exists g', r. split; [reflexivity|]. split; [exact R'|]. split; [exact Hn|].
  intros e. rewrite He. destruct (reach_fine g R) as [_ D]. split.
  - intros [H1 H2]. destruct (D e H1) as [(n1 & N1 & E1) (n2 & N2 & E2)]. split; [exact H1|]. split; intros Hi.
    + destruct (H2 n1 N1) as [A _]; [congruence|]. exact (A E1).
    + destruct (H2 n2 N2) as [_ A]; [congruence|]. exact (A E2).
  - intros (H1 & H2 & H3). split; [exact H1|]. intros n Hn' Hi. split; intros E; [apply H2|apply H3]; rewrite <- E; exact Hi.
Qed.
Lemma replaced_after trim vec (gone : string -> Prop) g g1 g2 id title content dim pieces :
  (forall n, In n (g_nodes g1) <-> In n (g_nodes g) /\ ~ gone (n_id n)) ->
  (forall e, In e (g_edges g1) <-> In e (g_edges g) /\ ~ gone (ge_from e) /\ ~ gone (ge_to e)) ->
  graph_replaced trim vec (fun _ => False) g1 g2 id title content dim pieces -> graph_replaced trim vec gone g g2 id title content dim pieces.
Proof.
  intros Hn He [H1 H2]. split.
  - intros n. rewrite H1, Hn. tauto.
  - intros x. rewrite H2, He. tauto.
Qed.

(** Reading the entities next to chunks. *)
Lemma neighbors_total ord d id types m h : weights_numbers d -> any_order ord -> (0 < h)%Z -> (0 < m)%Z -> exists ns, neighbors ord d id (around h types m) = Ok ns.
Proof.
  intros W O Hh Hm. destruct (neighbors_ids_ok ord d O W id (unlimited (around h types m))) as [found [E1 _]]; [cbn; lia|apply known_dir; right; right; left; reflexivity|].
  apply (loop_limit ord d (around h types m)) in E1; [|cbn; lia|cbn; lia]. unfold neighbors. rewrite E1. cbn. eauto.
Qed.
Lemma entities_total ord ssort g ids : weights_numbers g -> any_order ord -> exists es, entities_of ord ssort g ids = Ok es.
Proof.
  intros W O. induction ids as [|id ids [es IH]]; cbn [entities_of]; [eauto|]. unfold chunk_entities. destruct (neighbors_total ord g id ["entity"] 32 1 W O) as [ns E]; [lia|lia|]. rewrite E. cbn [bind]. rewrite IH. cbn. eauto.
Qed.
Lemma entities_in ord ssort g ids : greachable fk_env g -> weights_numbers g -> any_order ord -> sort_ok String.ltb ssort -> (forall c, In c ids -> at_most g 1 32 c) ->
  exists es, entities_of ord ssort g ids = Ok es /\ forall x, In x es <-> exists c n, In c ids /\ In n (g_nodes g) /\ n_type n = "entity" /\ within g 1 c (n_id n) /\ n_content n = x.
Proof.
  intros R W O S. induction ids as [|c ids IH]; intros A; cbn [entities_of].
  - exists []. split; [reflexivity|]. intros x. split; [intros []|intros (c & n & [] & _)].
  - destruct IH as (es & E & H); [intros; apply A; right; auto|]. destruct (chunk_entities_ok fk_env ord ssort g R W O S c) as (l & El & (_ & ns & _ & Hn & Pm)); [apply A; left; reflexivity|].
    rewrite El. cbn [bind]. rewrite E. cbn [bind]. eexists. split; [reflexivity|]. intros x. rewrite in_app_iff, H. split.
    + intros [Hx|(c' & n & Hc & Hr)]; [|exists c', n; split; [right; exact Hc|exact Hr]]. eapply Permutation_in in Hx; [|exact Pm]. apply in_map_iff in Hx as (n & <- & Hx). apply Hn in Hx as (H1 & H2 & H3). exists c, n. repeat split; auto. left. reflexivity. apply H3. apply H3.
    + intros (c' & n & [<-|Hc] & H1 & H2 & H3 & <-); [left|right; exists c', n; auto]. eapply Permutation_in; [apply Permutation_sym; exact Pm|]. apply in_map. apply Hn. auto.
Qed.
Lemma unique_sorted_ok trim ssort l : sort_ok String.ltb ssort -> set_of trim l (unique_sorted trim ssort l).
Proof.
  intros S. unfold set_of, unique_sorted. destruct (RagSearchProofs.ssort_alpha ssort (nodup string_dec (filter (fun x => negb (String.eqb (trim x) "")) l)) S) as [P A]. split; [|split; [exact A|]].
  - eapply Permutation_NoDup; [exact P|]. apply NoDup_nodup.
  - intros x. split.
    + intros H. eapply Permutation_in in H; [|apply Permutation_sym; exact P]. apply nodup_In in H. apply filter_In in H as [H1 H2]. split; [exact H1|]. intros E. rewrite E in H2. discriminate.
    + intros [H1 H2]. eapply Permutation_in; [exact P|]. apply nodup_In. apply filter_In. split; [exact H1|]. destruct (String.eqb_spec (trim x) ""); [contradiction|reflexivity].
Qed.
