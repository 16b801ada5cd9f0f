(** Proofs about saving and loading the indexes. *)
From Coq Require Import String List NArith ZArith Bool Lia Permutation.
From Coq Require Import Floats.SpecFloat.
From Verif Require Import Base Floats64 HeapModel HnswModel HnswSpec HnswSearchProofs HnswProofs IvfModel SnapModel.
Import ListNotations.
Local Notation vec := (list N).

(** *** A search sees the nodes only through their ids *)
Section Ext.
Variable dist : vec -> vec -> float.
Variables ns ns' : nodes vec.
Hypothesis G : forall id, get ns' id = get ns id.
Hypothesis L : length ns' = length ns.
Lemma start_ext q eps : forall st, start dist ns' q eps st = start dist ns q eps st.
Proof. induction eps as [|p eps IH]; intros [[vis cand] dyn]; cbn [start]; auto. rewrite G. destruct (get ns p); auto. Qed.
Lemma visit_ext q ef st nb : visit dist ns' q ef st nb = visit dist ns q ef st nb.
Proof. destruct st as [[vis cand] dyn]. unfold visit. rewrite G. reflexivity. Qed.
Lemma visit_all_ext q ef nbs : forall st, visit_all dist ns' q ef nbs st = visit_all dist ns q ef nbs st.
Proof. induction nbs as [|nb nbs IH]; intros st; cbn [visit_all]; auto. rewrite visit_ext. destruct (visit dist ns q ef st nb); auto. Qed.
Lemma search_loop_ext q ef layer fuel : forall st, search_loop dist fuel ns' q ef layer st = search_loop dist fuel ns q ef layer st.
Proof.
  induction fuel as [|f IH]; intros [[vis cand] dyn]; cbn [search_loop]; auto. destruct cand as [|[low x] cand]; auto. destruct (match dyn with [] => _ | _ => _ end); auto.
  destruct (heap_pop less_item ((low, x) :: cand)) as [[[d c] cand']|]; auto. rewrite G. destruct (get ns c) as [n|]; auto. destruct (layer_of n layer) as [nbs|]; auto.
  rewrite visit_all_ext. destruct (visit_all dist ns q ef nbs (vis, cand', dyn)); auto.
Qed.
Lemma search_layer_ext q eps ef layer : search_layer dist ns' q eps ef layer = search_layer dist ns q eps ef layer.
Proof. unfold search_layer. rewrite start_ext, L. destruct (start dist ns q eps ([], [], [])); auto. rewrite search_loop_ext. reflexivity. Qed.
Lemma descend_ext q lc stop : forall cur, descend dist ns' q lc stop cur = descend dist ns q lc stop cur.
Proof. induction lc as [|lc IH]; intros cur; cbn [descend]; auto. destruct (Nat.leb (S lc) stop); auto. unfold closest. rewrite search_layer_ext. destruct (search_layer dist ns q cur 1 (S lc)); auto. Qed.
Lemma alive_pairs_ext q cands : alive_pairs dist ns' q cands = alive_pairs dist ns q cands.
Proof. induction cands as [|c cs IH]; cbn [alive_pairs]; auto. rewrite G, IH. reflexivity. Qed.
Lemma hnsw_search_ext M M' efc efc' e q k ef : hnsw_search dist (Hnsw M' efc' ns' e) q k ef = hnsw_search dist (Hnsw M efc ns e) q k ef.
Proof.
  unfold hnsw_search. cbn [h_entry h_nodes]. destruct (String.eqb e ""); auto. rewrite G. destruct (get ns e) as [n|]; auto. rewrite descend_ext. destruct (descend dist ns q (n_level n) 0 [e]); auto.
  rewrite search_layer_ext. destruct (search_layer dist ns q a ef 0); auto. rewrite alive_pairs_ext. reflexivity.
Qed.
End Ext.

Lemma perm_get (ns ns' : nodes vec) : NoDup (ids_of ns) -> Permutation ns' ns -> forall id, get ns' id = get ns id.
Proof.
  intros N P id. assert (N' : NoDup (ids_of ns')) by (eapply Permutation_NoDup; [apply Permutation_map, Permutation_sym, P|exact N]).
  destruct (get ns id) as [n|] eqn:E.
  - apply in_get_eq; auto. apply (Permutation_in _ (Permutation_sym P)). apply get_in. exact E.
  - apply get_none. apply get_none in E. intros H. apply E. apply (Permutation_in _ (Permutation_map fst P)). exact H.
Qed.
(** *** Loading what was saved *)
Lemma load_saved l : forall acc rest, NoDup (ids_of acc ++ ids_of l) -> load_nodes (length l) (map (fun p => GNode (fst p) (snd p)) l ++ rest) acc = (acc ++ l, true).
Proof.
  induction l as [|[i n] l IH]; intros acc rest N; cbn [length load_nodes map app]; [now rewrite app_nil_r|]. cbn [dec_node fst snd].
  assert (E : put_node acc i n = acc ++ [(i, n)]).
  { unfold put_node. destruct (mem i (ids_of acc)) eqn:M; auto. exfalso. apply existsb_exists in M as (x & Hx & Ex). apply String.eqb_eq in Ex. subst x.
    cbn in N. apply NoDup_remove_2 in N. apply N. apply in_or_app. auto. }
  rewrite E, IH; [rewrite <- app_assoc; reflexivity|]. rewrite ids_app, <- app_assoc. exact N.
Qed.
Lemma load_cut l : forall n acc count, length l < count -> snd (load_nodes count (map (fun p => GNode (fst p) (snd p)) (firstn n l)) acc) = false.
Proof.
  induction l as [|[i x] l IH]; intros n acc count H; destruct count as [|c]; try (cbn in H; lia); [destruct n; reflexivity|].
  destruct n as [|n]; [reflexivity|]. cbn [firstn map load_nodes dec_node fst snd]. apply IH. cbn in H. lia.
Qed.
Lemma hnsw_load_saved ord h0 h : NoDup (ids_of (h_nodes h)) -> (forall l, Permutation (ord l) l) ->
  hnsw_load h0 (hnsw_save ord h) = (Hnsw (h_M h) (h_efc h) (ord (h_nodes h)) (h_entry h), true).
Proof.
  intros N P. unfold hnsw_load, hnsw_save. cbn [app dec_int dec_str h_M h_efc h_nodes h_entry]. rewrite !Nat2Z.id.
  rewrite <- (Permutation_length (P (h_nodes h))). rewrite <- (app_nil_r (map _ _)). rewrite load_saved; [reflexivity|].
  cbn. eapply Permutation_NoDup; [apply Permutation_map, Permutation_sym, P|exact N].
Qed.
Lemma good_perm (h : hnsw vec) ns' : Good h -> Permutation ns' (h_nodes h) -> Good (Hnsw (h_M h) (h_efc h) ns' (h_entry h)).
Proof.
  intros ([N Y K] & EO & ES) P. pose proof (perm_get _ _ N P) as G.
  assert (I : forall id, In id (ids_of ns') <-> In id (ids_of (h_nodes h))) by (intros id; split; apply Permutation_in; [|apply Permutation_sym]; apply Permutation_map; exact P).
  split; [constructor|split].
  - eapply Permutation_NoDup; [apply Permutation_map, Permutation_sym, P|exact N].
  - intros id n. cbn [h_nodes]. rewrite G. apply Y.
  - intros id n lc l. cbn [h_nodes]. rewrite G. intros H1 H2. pose proof (K _ _ _ _ H1 H2) as (Q1 & Q2 & Q3). split; [exact Q1|]. split; [exact Q2|]. intros x Hx. apply I. apply Q3. exact Hx.
  - intros H. cbn [h_entry h_nodes] in *. apply I. apply EO. exact H.
  - intros H1 H2. cbn [h_entry h_nodes] in *. apply ES; [intros H; apply H1, I, H|]. intros E. apply H2. apply Permutation_nil. rewrite <- E. apply Permutation_sym. exact P.
Qed.

Lemma field_some {T} (dec : gfile -> option (T * gfile)) set k x f v r : dec f = Some (v, r) -> field dec set k x f = k (set x v) r.
Proof. unfold field. now intros ->. Qed.
Lemma ivf_load_saved x y : ivf_load y (ivf_save x) = (x, true).
Proof.
  destruct x as [nc dim cents inv vecs ids trained np], y as [nc0 dim0 cents0 inv0 vecs0 ids0 trained0 np0]. unfold ivf_load, ivf_save.
  cbn [i_nc i_dim i_cents i_inv i_vecs i_ids i_trained i_nprobe].
  do 8 (erewrite field_some by reflexivity; cbn [with_nc with_dim with_nprobe with_trained with_cents with_inv with_ids with_vecs i_nc i_dim i_cents i_inv i_vecs i_ids i_trained i_nprobe]).
  now rewrite !Nat2Z.id.
Qed.
