(** Proofs about the knowledge calls: the calls as a whole. *)
From Coq Require Import String Ascii List NArith ZArith Bool Permutation Sorted Lia ZifyBool ZifyNat.
From Coq Require Import Floats.SpecFloat.
From Verif Require Import Base Floats64 EncodingSpec SearchModel RagModel RagSpec RagProps ToolGraphModel StoreModel StoreSpec StoreQuerySpec StoreQueryProofs StoreProofs2
  GraphModel GraphSpec GraphProofs GraphProps GraphBatchProps ToolGraphSpec ToolGraphProofs ToolGraphProofs2 ToolGraphProps KnowModel KnowSpec KnowProofs KnowProofs2.
Import ListNotations.
Open Scope string_scope.
Open Scope list_scope.

Lemma defaults_options size overlap n o : chunk_options size overlap n o <-> ingest_defaults size overlap = (n, o).
Proof.
  unfold chunk_options, ingest_defaults. replace (Z.ltb 0 size) with (negb (Z.leb size 0)) by lia.
  assert (E1 : (if Z.ltb overlap 0 then 0 else overlap)%Z = Z.max 0 overlap) by (destruct (Z.ltb_spec overlap 0); lia). rewrite E1.
  assert (E2 : (if negb (Z.leb size 0) then size else 120)%Z = (if Z.leb size 0 then 120 else size)%Z) by (destruct (Z.leb size 0); reflexivity). rewrite E2.
  set (m := (if Z.leb size 0 then 120 else size)%Z). split.
  - intros [-> ->]. f_equal. destruct (Z.leb_spec m (Z.max 0 overlap)), (Z.ltb_spec (Z.max 0 overlap) m); auto; lia.
  - intros [= <- <-]. split; [reflexivity|]. destruct (Z.leb_spec m (Z.max 0 overlap)), (Z.ltb_spec (Z.max 0 overlap) m); auto; lia.
Qed.
Lemma entities_graph trim slug vec ready e1 e2 g es g' r : greachable fk_env g -> ev_fk e1 = true -> ev_fk e2 = true -> upsert_entities trim slug vec ready e1 e2 g es = (g', r) -> greachable fk_env g'.
Proof.
  intros R F1 F2. unfold upsert_entities. destruct es as [|a es]; [intros [= <- _]; exact R|]. destruct (negb ready); [intros [= <- _]; exact R|]. set (us := filter _ _).
  pose proof (gr_step fk_env g e1 (GUpsertNodes (map (fun e => Some (entity_gnode trim slug vec e)) us)) R F1) as R1. cbn [gstep] in R1.
  destruct (upsert_nodes_batch e1 g _) as [g1 [b| |]]; cbn [fst] in R1; [|intros [= <- _]; exact R1|intros [= <- _]; exact R1].
  pose proof (gr_step fk_env g1 e2 (GUpsertEdges (map Some (flat_map (mentions_of trim slug) us))) R1 F2) as R2. cbn [gstep] in R2.
  destruct (upsert_edges_batch e2 g1 _) as [g2 [c| |]]; cbn [fst] in R2; intros [= <- _]; exact R2.
Qed.
Lemma relations_graph trim slug il ready ev g doc rs g' r : greachable fk_env g -> ev_fk ev = true -> upsert_relations trim slug il ready ev g doc rs = (g', r) -> greachable fk_env g'.
Proof.
  intros R F. unfold upsert_relations. destruct rs as [|a rs]; [intros [= <- _]; exact R|]. destruct (negb ready); [intros [= <- _]; exact R|].
  pose proof (gr_step fk_env g ev (GUpsertEdges (map Some (relation_edges trim slug il doc 0 (a :: rs)))) R F) as R1. cbn [gstep] in R1.
  destruct (upsert_edges_batch ev g _) as [g1 [c| |]]; cbn [fst] in R1; intros [= <- _]; exact R1.
Qed.
Lemma entities_ok trim slug vec e1 e2 g es : (forall t, vec t <> []) -> (forall n, ev_ok e1 n = true) -> (forall n, ev_ok e2 n = true) -> ev_fk e2 = true -> (forall e, In e es -> NoDup (map fst (te_meta e))) -> weights_numbers g ->
  exists g' ids m, upsert_entities trim slug vec true e1 e2 g es = (g', Ok (ids, m)) /\ weights_numbers g'.
Proof.
  intros V O1 O2 F M W. destruct es as [|a es]; [exists g, [], 0%Z; split; [reflexivity|exact W]|].
  destruct (entities_written_exact trim slug vec e1 e2 g (a :: es) V ltac:(discriminate) O1 O2 F M) as (g' & ids & ps & E & _ & _ & _ & _ & _ & He). exists g', ids, (Z.of_nat (length ps)). split; [exact E|].
  intros x Hx. apply He in Hx as [(l1 & c & n & l2 & _ & _ & Hm & _)|[Hx _]]; [unfold mentions in Hm; decompose [and] Hm; match goal with HH : ge_weight x = _ |- _ => rewrite HH end; discriminate|apply W; exact Hx].
Qed.
Lemma drawn_in trim slug il doc i rs xs : drawn trim slug il doc i rs xs -> forall x, In x xs -> exists j r, In r rs /\ relation_stored trim slug il doc j r x.
Proof.
  induction 1 as [|i r rs l _ _ IH|i r rs x l _ _ S _ IH]; intros y Hy; [destruct Hy| |].
  - destruct (IH y Hy) as (j & r' & Hr & Hs). exists j, r'. split; [right; exact Hr|exact Hs].
  - destruct Hy as [<-|Hy]; [exists i, r; split; [left; reflexivity|exact S]|]. destruct (IH y Hy) as (j & r' & Hr & Hs). exists j, r'. split; [right; exact Hr|exact Hs].
Qed.
Lemma relations_ok trim slug il ev g doc rs : (forall n, ev_ok ev n = true) -> ev_fk ev = true -> (forall r, In r rs -> NoDup (map fst (tl_meta r)) /\ not_nan (tl_weight r)) -> weights_numbers g ->
  exists g' ids, upsert_relations trim slug il true ev g doc rs = (g', Ok ids) /\ weights_numbers g'.
Proof.
  intros O F M W. destruct rs as [|a rs]; [exists g, []; split; [reflexivity|exact W]|].
  destruct (relations_written_exact trim slug il ev g doc (a :: rs) ltac:(discriminate) O F (fun r H => proj1 (M r H))) as (g' & xs & E & D & _ & _ & He). exists g', (map ge_id xs). split; [exact E|].
  intros x Hx. apply He in Hx as [[Hx _]|[Hx _]]; [|apply W; exact Hx]. destruct (drawn_in _ _ _ _ _ _ _ D x Hx) as (j & r & Hr & (_ & _ & _ & _ & Hw & _)). rewrite Hw. destruct (feq _ _); [discriminate|apply M; exact Hr].
Qed.
Lemma replaced_weights trim vec gone g g' id title content d pieces : graph_replaced trim vec gone g g' id title content d pieces -> weights_numbers g -> weights_numbers g'.
Proof.
  intros [_ H] W x Hx. apply H in Hx as [(i & _ & Hx)|[(i & _ & Hx)|(Hx & _)]]; [| |apply W; exact Hx].
  - destruct Hx as (_ & _ & _ & _ & Hw & _). rewrite Hw. discriminate.
  - destruct Hx as (_ & _ & _ & _ & Hw & _). rewrite Hw. discriminate.
Qed.

Section K.
Variable I : index_ops.
Notation store := (store I).
Notation kdb := (kdb I).
Notation sound := (sound I).
Notation get_by_id := (get_by_id I).
Notation get_document := (get_document I).
Notation get_collection := (get_collection I).
Notation k_store := (k_store I).
Notation k_graph := (k_graph I).

Lemma dim_iff (s : store) name d : name <> "" -> st_closed I s = false -> (text_dimension I s name d <-> d = lexical_dim I s name).
Proof using Type.
  intros N C. unfold text_dimension, lexical_dim. destruct (String.eqb_spec name ""); [contradiction|]. unfold StoreModel.get_collection. rewrite C. change lexical_default with 64%Z.
  destruct (find_coll (st_db I s) name) as [c|]; [destruct (Z.ltb_spec 0 (c_dims c))|].
  - split; [intros [(c' & [= <-] & _ & E)|[H0 _]]; [exact E|specialize (H0 c eq_refl); lia]|]. intros ->. left. exists c. auto.
  - split; [intros [(c' & [= <-] & H1 & _)|[_ E]]; [lia|exact E]|]. intros ->. right. split; [|reflexivity]. intros c' [= <-]. exact H.
  - split; [intros [(c' & Ec & _)|[_ E]]; [discriminate|exact E]|]. intros ->. right. split; [discriminate|reflexivity].
Qed.
Lemma dim_pos (s : store) name : (0 < lexical_dim I s name)%Z.
Proof using Type.
  unfold lexical_dim, lexical_default. destruct (Z.ltb_spec 0 (st_dim I s)); destruct (String.eqb name ""); try lia; destruct (get_collection s name) as [c| |]; try lia; destruct (Z.ltb_spec 0 (c_dims c)); lia.
Qed.

Variables (trim slug : string -> string) (vec : Z -> string -> list N) (split : string -> Z -> Z -> list string) (id_list : list string -> string).
Variables (by_time : list row -> list row) (ord : string -> list gedge -> list gedge) (ssort : list string -> list string).

(** *** Reading *)
Lemma chunks_listed (k : kdb) id : (forall l, Permutation l (by_time l)) -> sound k -> id <> "" -> exists cs, get_by_doc I by_time (k_store k) id = Ok cs /\ lists_chunks I (k_store k) id (map e_id cs).
Proof using Type.
  intros P (R & C & _) N. destruct (get_by_doc_lemma I fk_env by_time (k_store k) id P R C N) as (es & E & Nd & Hin). exists es. split; [exact E|]. split; [exact Nd|]. intros x. rewrite in_map_iff. split.
  - intros (e & <- & He). apply Hin in He as (y & e0 & G & D & ->). cbn. destruct (get_two I (k_store k) y R C) as [G'|(e1 & G1 & Ee)]; [congruence|]. rewrite G in G1. injection G1 as <-. rewrite Ee. exists e0. auto.
  - intros (e0 & G & D). exists (blank e0). split; [|apply Hin; eauto]. cbn. destruct (get_two I (k_store k) x R C) as [G'|(e1 & G1 & Ee)]; [congruence|]. rewrite G in G1. injection G1 as <-. exact Ee.
Qed.
Lemma collection_read (k : kdb) id cs : sound k -> get_by_doc I by_time (k_store k) id = Ok cs -> lists_chunks I (k_store k) id (map e_id cs) ->
  exists name, knowledge_collection I by_time (k_store k) id = Ok name /\
    ((name = "graphrag_chunks" /\ forall c, ~ in_doc I (k_store k) id c) \/ exists c e, get_by_id (k_store k) c = Ok e /\ e_doc e = id /\ name = e_coll e).
Proof using Type.
  intros S G [_ L]. unfold knowledge_collection. rewrite G. cbn [bind]. destruct cs as [|c cs].
  - eexists. split; [reflexivity|]. left. split; [reflexivity|]. intros c Hc. apply L in Hc. destruct Hc.
  - assert (Hc : in_doc I (k_store k) id (e_id c)) by (apply L; left; reflexivity). destruct Hc as (e & Ge & D). rewrite Ge. cbn [bind]. eexists. split; [reflexivity|]. right. exists (e_id c), e. auto.
Qed.
Lemma read_lemma (k : kdb) id x : (forall l, Permutation l (by_time l)) -> any_order ord -> sort_ok String.ltb ssort -> sound k -> weights_numbers (k_graph k) -> id <> "" -> get_document (k_store k) id = Ok x ->
  exists r, get_knowledge I trim by_time ord ssort k id = Ok r /\ kr_id r = id /\ kr_title r = d_title x /\ kr_content r = d_content x /\ kr_url r = d_url x /\ kr_author r = d_author x /\ kr_meta r = d_meta x /\
    lists_chunks I (k_store k) id (kr_chunks r) /\
    ((kr_coll r = "graphrag_chunks" /\ forall c, ~ in_doc I (k_store k) id c) \/ exists c e, get_by_id (k_store k) c = Ok e /\ e_doc e = id /\ kr_coll r = e_coll e) /\
    ((forall c, in_doc I (k_store k) id c -> at_most (k_graph k) 1 32 c) -> entities_near I trim (k_store k) (k_graph k) id (kr_ents r)).
Proof using Type.
  intros P O S Sd W N D. destruct (chunks_listed k id P Sd N) as (cs & G & L). destruct (collection_read k id cs Sd G L) as (name & En & Hn).
  destruct (entities_total ord ssort (k_graph k) (map e_id cs) W O) as [es Ee]. unfold get_knowledge. destruct (String.eqb_spec id ""); [contradiction|]. rewrite D. cbn [bind]. rewrite G. cbn [bind]. rewrite Ee. cbn [bind]. rewrite En. cbn [bind].
  eexists. split; [reflexivity|]. cbn [kr_id kr_title kr_content kr_url kr_author kr_meta kr_chunks kr_coll kr_ents]. split; [exact (get_document_id I _ _ _ D)|]. repeat (split; [reflexivity|]). split; [exact L|]. split; [exact Hn|].
  intros A. destruct Sd as (_ & _ & Rg). destruct L as [_ L]. destruct (entities_in ord ssort (k_graph k) (map e_id cs) Rg W O S) as (es' & Ee' & Hes); [intros c Hc; apply A, L, Hc|]. rewrite Ee in Ee'. injection Ee' as <-.
  destruct (unique_sorted_ok trim ssort es S) as (U1 & U2 & U3). split; [exact U1|]. split; [exact U2|]. intros y. rewrite U3, Hes. split.
  - intros [(c & n' & Hc & H) Ht]. split; [exact Ht|]. exists c, n'. split; [apply L; exact Hc|exact H].
  - intros [Ht (c & n' & Hc & H)]. split; [|exact Ht]. exists c, n'. split; [apply L; exact Hc|exact H].
Qed.

(** *** Removing *)
Lemma cleanup_lemma kv (k : kdb) id : (forall l, Permutation l (by_time l)) -> sound k -> calm kv -> id <> "" ->
  exists k', cleanup I by_time true kv k id = (k', Ok tt) /\ sound k' /\
    get_document (k_store k') id = Err ENotFound /\ (forall y, y <> id -> get_document (k_store k') y = get_document (k_store k) y) /\
    (forall x, in_doc I (k_store k) id x -> get_by_id (k_store k') x = Err ENotFound) /\ (forall x, ~ in_doc I (k_store k) id x -> get_by_id (k_store k') x = get_by_id (k_store k) x) /\
    (forall n, get_collection (k_store k') n = get_collection (k_store k) n) /\ st_dim I (k_store k') = st_dim I (k_store k) /\
    (forall n, In n (g_nodes (k_graph k')) <-> In n (g_nodes (k_graph k)) /\ ~ (n_id n = ("doc:" ++ id)%string \/ in_doc I (k_store k) id (n_id n))) /\
    (forall e, In e (g_edges (k_graph k')) <-> In e (g_edges (k_graph k)) /\ ~ (ge_from e = ("doc:" ++ id)%string \/ in_doc I (k_store k) id (ge_from e)) /\ ~ (ge_to e = ("doc:" ++ id)%string \/ in_doc I (k_store k) id (ge_to e))).
Proof using Type.
  intros P Sd C N. destruct (chunks_listed k id P Sd N) as (cs & G & [_ L]). destruct Sd as (R & Cl & Rg). unfold cleanup, when. rewrite G.
  destruct (nodes_gone (kv 0%nat) (k_graph k) (document_node_id id :: map e_id cs) Rg (proj1 (C 0%nat)) (proj2 (C 0%nat))) as (g' & r & E & Rg' & Hn & He).
  unfold on_graph. rewrite E. cbn [next]. unfold on_store. cbn [KnowModel.k_store set_graph].
  destruct (delete_ok I (kv 1%nat) (k_store k) id R Cl (proj1 (C 1%nat)) (proj2 (C 1%nat))) as (s' & Es). rewrite Es. destruct (delete_facts I _ _ _ _ _ R Cl (proj1 (C 1%nat)) N Es) as (R' & Cl' & D1 & Co & Dm & H1 & H2). destruct (H2 eq_refl) as [D2 H3].
  eexists. split; [reflexivity|]. cbn [KnowModel.k_store KnowModel.k_graph set_store set_graph]. split; [split; auto|]. split; [exact D2|]. split; [exact D1|]. split; [exact H3|]. split; [exact H1|]. split; [exact Co|]. split; [exact Dm|].
  assert (Ids : forall x, In x (document_node_id id :: map e_id cs) <-> x = ("doc:" ++ id)%string \/ in_doc I (k_store k) id x).
  { intros x. cbn [In]. rewrite L. split; (intros [H|H]; [left; symmetry; exact H|right; exact H]). }
  split.
  - intros n. rewrite Hn, Ids. reflexivity.
  - intros e. rewrite He, !Ids. reflexivity.
Qed.

(** *** Ingesting *)
Section Ingest.
Variables (id title content coll name : string) (size overlap n o dim : Z) (meta : option smap).
Hypothesis (Id : id <> "") (Cont : trim content <> "") (HName : name = if String.eqb coll "" then "graphrag_chunks" else coll) (Opts : chunk_options size overlap n o).
Hypothesis Pieces : split content n o <> [].
Hypothesis Bits : forall t, vec dim t <> [] /\ float32_bits (vec dim t) /\ (N.of_nat (length (vec dim t)) <= 2^31 - 1)%N.
Hypothesis Meta : match meta with Some m => NoDup (map fst m) | None => True end.
Lemma name_nonempty : name <> "".
Proof using HName. rewrite HName. destruct (String.eqb_spec coll ""); [discriminate|assumption]. Qed.
Lemma ingest_lemma kv (k : kdb) : sound k -> calm kv -> text_dimension I (k_store k) name dim ->
  exists k', ingest_document I trim vec split true kv k id title content coll size overlap meta = (k', Ok tt) /\ sound k' /\
    (exists x, get_document (k_store k') id = Ok x /\ d_acl x = match get_document (k_store k) id with Ok y => d_acl y | _ => [] end) /\
    (forall y, y <> id -> get_document (k_store k') y = get_document (k_store k) y) /\
    (forall i p, nth_error (split content n o) i = Some p -> exists e, get_by_id (k_store k') (chunk_node_id id i) = Ok e /\ piece_row vec id title name meta dim i p e) /\
    (forall x, (forall i, (i < length (split content n o))%nat -> x <> chunk_node_id id i) -> get_by_id (k_store k') x = get_by_id (k_store k) x) /\
    graph_replaced trim vec (fun _ => False) (k_graph k) (k_graph k') id title content dim (split content n o).
Proof using Id Cont HName Opts Pieces Bits Meta.
  intros (R & Cl & Rg) C Dim. pose proof name_nonempty as Nn. unfold ingest_document. destruct (String.eqb_spec id ""); [contradiction|]. destruct (String.eqb_spec (trim content) ""); [contradiction|].
  change rag_collection with "graphrag_chunks". rewrite <- HName. rewrite (proj1 (defaults_options _ _ _ _) Opts). unfold when. apply (dim_iff _ _ _ Nn Cl) in Dim. rewrite <- Dim. cbv zeta.
  assert (Dp : (0 <= dim)%Z) by (rewrite Dim; apply Z.lt_le_incl, dim_pos).
  unfold on_store at 1. destruct (ensure_ok I (kv 2%nat) (k_store k) name dim Cl (proj2 (C 2%nat) 0%nat) Dp) as (s1 & E1). rewrite E1. cbn [next].
  destruct (ensure_facts I _ _ _ _ _ _ R (proj1 (C 2%nat)) E1) as (R1 & [A1 Cl1] & D1 & Co1 & _). destruct (Co1 eq_refl) as [c Hc]. rewrite Cl in Cl1.
  set (ps := split content n o) in *. destruct (number 0 ps) as [|p0 ps0] eqn:Eps; [exfalso; apply number_nil in Eps; contradiction|]. rewrite <- Eps. clear p0 ps0 Eps.
  unfold on_store at 1. cbn [KnowModel.k_store set_store]. destruct (record_ok I (kv 3%nat) s1 id title content Cl1 (proj2 (C 3%nat) 0%nat)) as (s2 & E2). rewrite E2. cbn [next].
  destruct (record_facts I _ _ _ _ _ _ _ R1 (proj1 (C 3%nat)) E2) as (R2 & [A2 Cl2] & D2 & Dx & Co2 & _). destruct (Dx eq_refl) as (x & Gx & Ax). rewrite Cl1 in Cl2.
  assert (Vec : forall t, vec dim t <> []) by (intros t; apply Bits).
  destruct (graph_written trim vec id title content dim ps Vec kv (k_graph k) Rg C) as (g1 & g2 & g3 & r2 & r3 & G1 & G2 & G3 & Rg3 & Rep).
  unfold on_graph at 1. cbn [KnowModel.k_store KnowModel.k_graph set_store set_graph]. rewrite G1. cbn [next].
  unfold on_store at 1. cbn [KnowModel.k_store KnowModel.k_graph set_store set_graph].
  assert (B : forall t, float32_bits (vec dim t) /\ (N.of_nat (length (vec dim t)) <= 2^31 - 1)%N) by (intros t; apply Bits).
  destruct (batch_ok I vec id title name meta dim ps B Nn (kv 5%nat) s2 c x R2 Cl2 (proj2 (C 5%nat))) as (s3 & E3); [rewrite Co2; exact Hc|exact Gx|]. rewrite E3. cbn [next].
  destruct (batch_facts I vec id title name meta dim ps B Meta Nn (kv 5%nat) s2 s3 R2 (proj1 (C 5%nat)) E3) as (R3 & Cl3 & D3 & _ & Rows & Other). rewrite Cl2 in Cl3.
  unfold on_graph at 1. cbn [KnowModel.k_store KnowModel.k_graph set_store set_graph]. rewrite G2. cbn [next].
  unfold on_graph at 1. cbn [KnowModel.k_store KnowModel.k_graph set_store set_graph]. rewrite G3. cbn [next].
  eexists. split; [reflexivity|]. cbn [KnowModel.k_store KnowModel.k_graph set_store set_graph]. split; [split; auto|].
  split; [exists x; split; [rewrite D3; exact Gx|rewrite Ax, D1; reflexivity]|]. split; [intros y Hy; rewrite D3, D2, D1; auto|]. split; [exact Rows|]. split; [intros y Hy; rewrite (Other y Hy), A2, A1; reflexivity|exact Rep].
Qed.
End Ingest.
End K.

Lemma entities_written_lemma trim slug vec e1 e2 g es : (forall t, vec t <> []) -> (forall n, ev_ok e1 n = true) -> (forall n, ev_ok e2 n = true) -> ev_fk e2 = true -> (forall e, In e es -> NoDup (map fst (te_meta e))) ->
  exists g' ids m, upsert_entities trim slug vec true e1 e2 g es = (g', Ok (ids, m)) /\ entities_written trim slug vec g es g' ids.
Proof.
  intros V O1 O2 F M. destruct es as [|a es].
  - exists g, [], 0%Z. split; [reflexivity|]. exists []. split; [constructor|]. split; [constructor|]. split; [intros n Hn; right; split; [exact Hn|intros e []]|].
    split; [intros e id (l1 & l2 & El & _); destruct l1; discriminate|]. split; [auto|]. intros x. split; [intros H; right; split; [exact H|intros c n []]|].
    intros [(l1 & c & n & l2 & El & _)|[H _]]; [destruct l1; discriminate|exact H].
  - destruct (entities_written_exact trim slug vec e1 e2 g (a :: es) V ltac:(discriminate) O1 O2 F M) as (g' & ids & ps & E & H). exists g', ids, (Z.of_nat (length ps)). split; [exact E|]. exists ps. exact H.
Qed.
Lemma relations_written_lemma trim slug il ev g doc rs : (forall n, ev_ok ev n = true) -> ev_fk ev = true -> (forall r, In r rs -> NoDup (map fst (tl_meta r))) ->
  exists g' ids, upsert_relations trim slug il true ev g doc rs = (g', Ok ids) /\ relations_written trim slug il doc g rs g' ids.
Proof.
  intros O F M. destruct rs as [|a rs].
  - exists g, []. split; [reflexivity|]. exists []. split; [reflexivity|]. split; [constructor|]. split; [reflexivity|]. intros x. split; [intros H; right; split; [exact H|intros y []]|intros [[[] _]|[H _]]; exact H].
  - destruct (relations_written_exact trim slug il ev g doc (a :: rs) ltac:(discriminate) O F M) as (g' & xs & E & D & _ & H). exists g', (map ge_id xs). split; [exact E|]. exists xs. split; [reflexivity|]. split; [exact D|exact H].
Qed.
Lemma write_graph_lemma (I : index_ops) trim slug vec il kv (k : kdb I) id es rs : sound I k -> calm kv -> storable vec -> weights_numbers (k_graph I k) ->
  (forall e, In e es -> NoDup (map fst (te_meta e))) -> (forall r, In r rs -> NoDup (map fst (tl_meta r)) /\ not_nan (tl_weight r)) ->
  exists k' ids rids d g2, write_graph I trim slug vec il true kv k id es rs = (k', Ok (ids, rids)) /\ sound I k' /\ k_store I k' = k_store I k /\ weights_numbers (k_graph I k') /\
    text_dimension I (k_store I k) "graphrag_chunks" d /\ entities_written trim slug (vec d) (k_graph I k) es g2 ids /\ relations_written trim slug il id g2 rs (k_graph I k') rids.
Proof.
  intros (R & Cl & Rg) C V W M1 M2. unfold write_graph. set (d := lexical_dim I (k_store I k) rag_collection).
  assert (Hd : text_dimension I (k_store I k) "graphrag_chunks" d) by (apply dim_iff; [discriminate|exact Cl|reflexivity]).
  destruct (C 8%nat) as [F8 O8], (C 9%nat) as [F9 O9], (C 10%nat) as [F10 O10].
  destruct (entities_written_lemma trim slug (vec d) (kv 8%nat) (kv 9%nat) (k_graph I k) es (fun t => proj1 (V d t)) O8 O9 F9 M1) as (g2 & ids & m & E1 & H1).
  destruct (entities_ok trim slug (vec d) (kv 8%nat) (kv 9%nat) (k_graph I k) es (fun t => proj1 (V d t)) O8 O9 F9 M1 W) as (g2' & ids' & m' & E1' & W2). rewrite E1 in E1'. injection E1' as <- <- <-.
  pose proof (entities_graph trim slug (vec d) true (kv 8%nat) (kv 9%nat) (k_graph I k) es g2 _ Rg F8 F9 E1) as Rg2.
  destruct (relations_written_lemma trim slug il (kv 10%nat) g2 id rs O10 F10 (fun r H => proj1 (M2 r H))) as (g3 & rids & E2 & H2).
  destruct (relations_ok trim slug il (kv 10%nat) g2 id rs O10 F10 M2 W2) as (g3' & rids' & E2' & W3). rewrite E2 in E2'. injection E2' as <- <-.
  pose proof (relations_graph trim slug il true (kv 10%nat) g2 id rs g3 _ Rg2 F10 E2) as Rg3.
  unfold on_graph at 1. rewrite E1. cbn [next]. unfold on_graph. cbn [KnowModel.k_graph set_graph]. rewrite E2. cbn [next fst]. exists (set_graph I (set_graph I k g2) g3), ids, rids, d, g2.
  split; [reflexivity|]. cbn [KnowModel.k_store KnowModel.k_graph set_graph]. split; [split; auto|]. auto.
Qed.
