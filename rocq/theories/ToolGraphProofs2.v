(** Proofs about reading through the graph tools. *)
From Coq Require Import String Ascii List NArith ZArith Bool Permutation Sorted Lia ZifyBool ZifyNat.
From Coq Require Import Floats.SpecFloat.
From Verif Require Import Base Floats64 TopK StoreModel HindProofs RagModel RagSpec RagSearchProofs GraphModel GraphSpec GraphProofs GraphTravProofs GraphNeighborProofs GraphProps ToolGraphModel ToolGraphSpec ToolGraphProofs.
Import ListNotations.
Open Scope string_scope.
Open Scope list_scope.

(** A traversal whose limit no answer exceeds. *)
Lemma bounded_neighbors P ord d id h types m : greachable P d -> weights_numbers d -> any_order ord -> (0 < h)%Z -> (0 < m)%Z -> at_most d h m id ->
  exists ns, neighbors ord d id (around h types m) = Ok ns /\ NoDup ns /\
    forall n, In n ns <-> In n (g_nodes d) /\ (types = [] \/ In (n_type n) types) /\ within d h id (n_id n).
Proof.
  intros R W O Hh Hm Am. pose proof (reach_unique P d R) as U.
  destruct (neighbors_exact P ord d id (unlimited (around h types m)) R W O) as (l & E & N & I & _); [right; right; left; reflexivity|cbn; lia|].
  cbn [unlimited around tr_node_types tr_dir tr_edge_types tr_depth] in I. destruct (Z.leb_spec h 0); [lia|].
  destruct (neighbors_ids_ok ord d O W id (unlimited (around h types m))) as [found [E1 [N1 [F _]]]]; [cbn; lia|apply known_dir; right; right; left; reflexivity|].
  pose proof E1 as E2. apply (loop_limit ord d (around h types m)) in E2; [|cbn; lia|cbn; lia].
  exists l. split; [|split; [exact N|]].
  - unfold neighbors in *. rewrite E2. rewrite E1 in E. cbn [bind] in *. rewrite firstn_all2; [exact E|].
    assert (L : (Z.of_nat (length found) <= m)%Z).
    { apply Am; [exact N1|]. intros y Hy. apply F in Hy as [Ne [p [T L]]]. split; [exact Ne|]. exists (length p). split; [|revert L; unfold max_depth, unlimited, around; cbn [tr_depth]; destruct (Z.leb_spec h 0); lia].
      apply hops_trail. exists p. split; [|reflexivity]. exact T. }
    cbn [around tr_limit]. lia.
  - intros n. rewrite I. unfold within. tauto.
Qed.

Section Read.
Variables (P : env -> Prop) (ord : string -> list gedge -> list gedge) (ssort : list string -> list string) (d : gdb).
Hypothesis R : greachable P d.
Hypothesis W : weights_numbers d.
Hypothesis O : any_order ord.
Hypothesis S : sort_ok String.ltb ssort.

Lemma chunk_entities_ok c : at_most d 1 32 c -> exists es, chunk_entities ord ssort d c = Ok es /\ next_entities d c es.
Proof using R W O S.
  intros A. destruct (bounded_neighbors P ord d c 1 ["entity"] 32 R W O) as (ns & E & N & I); [lia|lia|exact A|].
  unfold chunk_entities. rewrite E. cbn [bind]. eexists. split; [reflexivity|]. destruct (ssort_alpha ssort (map n_content ns) S) as [Q1 Q2].
  split; [exact Q2|]. exists ns. split; [exact N|]. split; [|apply Permutation_sym; exact Q1].
  intros n. rewrite I. split; [intros (H1 & [H2|[H2|[]]] & H3); [discriminate|auto]|intros (H1 & H2 & H3); split; [exact H1|split; [right; left; symmetry; exact H2|exact H3]]].
Qed.
Variable read : string -> option (string * string).
Lemma load_chunks_ok score ents ids : (ents = true -> forall c, In c ids -> read c <> None -> at_most d 1 32 c) ->
  exists ts, load_chunks ord read ssort d score ids ents = Ok ts /\
    listing read (fun id t => tc_score t = score id /\ if ents then next_entities d id (tc_ents t) else tc_ents t = []) ids ts.
Proof using R W O S.
  induction ids as [|id ids IH]; intros A; [exists []; split; [reflexivity|constructor]|].
  destruct IH as (ts & E & L); [intros T c Hc; apply A; [exact T|right; exact Hc]|]. cbn [load_chunks].
  destruct (read id) as [[doc content]|] eqn:Rd; [|exists ts; split; [exact E|apply listing_lost; [exact Rd|exact L]]].
  assert (X : exists es, (if ents then chunk_entities ord ssort d id else Ok []) = Ok es /\ if ents then next_entities d id es else es = []).
  { destruct ents; [apply chunk_entities_ok; apply A; [reflexivity|left; reflexivity|rewrite Rd; discriminate]|exists []; auto]. }
  destruct X as (es & Ees & Pes). rewrite Ees. cbn [bind]. rewrite E. cbn [bind]. eexists. split; [reflexivity|].
  apply listing_more; [split; [reflexivity|exact Rd]|split; [reflexivity|exact Pes]|exact L].
Qed.

(** Counting. *)
Lemma assoc_add_one id k m : assoc k (add_one id m) = if String.eqb k id then Some (f64_add (match assoc k m with Some x => x | None => f_zero end) (f64_of_Z 1)) else assoc k m.
Proof using Type.
  clear. induction m as [|[i x] m IH]; cbn [add_one assoc]; [reflexivity|]. destruct (String.eqb_spec i id) as [->|Ne]; cbn [assoc].
  - destruct (String.eqb_spec k id); reflexivity.
  - rewrite IH. destruct (String.eqb_spec k i) as [->|Nk]; [|reflexivity]. destruct (String.eqb_spec i id) as [->|]; [congruence|reflexivity].
Qed.
Lemma add_one_keys id m : forall k, In k (map fst (add_one id m)) <-> k = id \/ In k (map fst m).
Proof using Type.
  clear. intros k. induction m as [|[i x] m IH]; cbn [add_one map fst]; [cbn; intuition|]. destruct (String.eqb_spec i id) as [->|Ne]; cbn [map fst In]; [intuition congruence|]. rewrite IH. tauto.
Qed.
Lemma add_one_nodup id m : NoDup (map fst m) -> NoDup (map fst (add_one id m)).
Proof using Type.
  clear. induction m as [|[i x] m IH]; cbn [add_one map fst]; intros N; [repeat constructor; intros []|]. apply NoDup_cons_iff in N as [N1 N2].
  destruct (String.eqb_spec i id) as [->|Ne]; cbn [map fst]; apply NoDup_cons_iff; split; auto. rewrite add_one_keys. intros [E|H]; auto.
Qed.
Lemma add_ones ids : NoDup ids -> forall m k,
  assoc k (fold_left (fun m i => add_one i m) ids m) = if in_dec string_dec k ids then Some (f64_add (match assoc k m with Some x => x | None => f_zero end) (f64_of_Z 1)) else assoc k m.
Proof using Type.
  clear. induction ids as [|i ids IH]; intros N m k; [destruct (in_dec string_dec k []) as [[]|]; reflexivity|]. apply NoDup_cons_iff in N as [N1 N2]. cbn [fold_left]. rewrite IH by exact N2.
  rewrite assoc_add_one. destruct (String.eqb_spec k i) as [->|Ne].
  - destruct (in_dec string_dec i ids); [contradiction|]. destruct (in_dec string_dec i (i :: ids)) as [|X]; [reflexivity|destruct X; left; reflexivity].
  - destruct (in_dec string_dec k ids) as [H|H]; (destruct (in_dec string_dec k (i :: ids)) as [X|X]); try reflexivity; [destruct X; right; exact H|destruct X; [congruence|contradiction]].
Qed.
Lemma add_ones_nodup ids : forall m, NoDup (map fst m) -> NoDup (map fst (fold_left (fun m i => add_one i m) ids m)).
Proof using Type. clear. induction ids as [|i ids IH]; intros m N; [exact N|]. cbn [fold_left]. apply IH, add_one_nodup, N. Qed.
Lemma fold_map_ids (ns : list gnode) m : fold_left (fun m n => add_one (n_id n) m) ns m = fold_left (fun m i => add_one i m) (map n_id ns) m.
Proof using Type. clear. revert m. induction ns as [|n ns IH]; intros m; [reflexivity|]. cbn. apply IH. Qed.
Lemma nodup_ids (ns : list gnode) : NoDup ns -> (forall n, In n ns -> In n (g_nodes d)) -> NoDup (map n_id ns).
Proof using R.
  intros N I. destruct (reach_unique P d R) as [U _]. apply NoDup_map_inj; [|exact N].
  intros a b Ha Hb E. apply I in Ha. apply I in Hb. clear -U Ha Hb E. induction (g_nodes d) as [|x l IH]; [destruct Ha|]. cbn [map] in U. apply NoDup_cons_iff in U as [U1 U2].
  destruct Ha as [<-|Ha], Hb as [<-|Hb]; auto.
  - destruct U1. rewrite E. apply in_map. exact Hb.
  - destruct U1. rewrite <- E. apply in_map. exact Ha.
Qed.
End Read.
