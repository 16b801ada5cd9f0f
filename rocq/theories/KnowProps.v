(** Theorems on saving, updating, reading and deleting knowledge. *)
From Coq Require Import String Ascii List NArith ZArith Bool Permutation Sorted Lia.
From Coq Require Import Floats.SpecFloat.
From Verif Require Import Base Floats64 EncodingSpec SearchModel RagModel RagSpec RagProps ToolGraphModel StoreModel StoreSpec StoreProps StoreQuerySpec StoreQueryProofs StoreProofs2
  GraphModel GraphSpec GraphProofs GraphProps ToolGraphSpec ToolGraphProofs ToolGraphProofs2 ToolGraphProps KnowModel KnowSpec KnowProofs KnowProofs2 KnowProofs3.
Import ListNotations.
Open Scope string_scope.
Open Scope list_scope.

Lemma dimension_same I s s' name d : (forall n, get_collection I s' n = get_collection I s n) -> st_dim I s' = st_dim I s -> text_dimension I s name d -> text_dimension I s' name d.
Proof. intros H1 H2. unfold text_dimension. rewrite H1, H2. auto. Qed.

(** Reading: the stored fields, the ids of exactly the document's chunks, the collection of one
    of them, and the names of the entities next to them. *)
Theorem knowledge_read_exact : forall I trim by_time ord ssort (k : kdb I) id,
  (forall l, Permutation l (by_time l)) -> any_order ord -> sort_ok String.ltb ssort -> sound I k -> weights_numbers (k_graph I k) -> id <> "" ->
  match get_document I (k_store I k) id with
  | Ok x => exists r, get_knowledge I trim by_time ord ssort k id = Ok r /\
      kr_id r = id /\ kr_title r = d_title x /\ kr_content r = d_content x /\ kr_url r = d_url x /\ kr_author r = d_author x /\ kr_meta r = d_meta x /\
      lists_chunks I (k_store I k) id (kr_chunks r) /\
      ((kr_coll r = "graphrag_chunks" /\ forall c, ~ in_doc I (k_store I k) id c) \/ exists c e, get_by_id I (k_store I k) c = Ok e /\ e_doc e = id /\ kr_coll r = e_coll e) /\
      ((forall c, in_doc I (k_store I k) id c -> at_most (k_graph I k) 1 32 c) -> entities_near I trim (k_store I k) (k_graph I k) id (kr_ents r))
  | _ => get_knowledge I trim by_time ord ssort k id = Err ENotFound
  end.
Proof.
  intros I trim by_time ord ssort k id P O S Sd W N. destruct (get_document_two I (k_store I k) id) as [G|[x G]]; [apply Sd| |].
  - rewrite G. unfold get_knowledge. destruct (String.eqb_spec id ""); [contradiction|]. rewrite G. reflexivity.
  - rewrite G. apply read_lemma; auto.
Qed.

(** Deleting: the document, its chunks, their nodes and the edges at them go, nothing else. *)
Theorem knowledge_deleted_exact : forall I by_time kv (k : kdb I) id,
  (forall l, Permutation l (by_time l)) -> sound I k -> calm kv -> id <> "" ->
  match get_document I (k_store I k) id with
  | Ok _ => exists k', delete_knowledge I by_time true kv k id = (k', Ok tt) /\ sound I k' /\
      get_document I (k_store I k') id = Err ENotFound /\ (forall y, y <> id -> get_document I (k_store I k') y = get_document I (k_store I k) y) /\
      (forall x, in_doc I (k_store I k) id x -> get_by_id I (k_store I k') x = Err ENotFound) /\
      (forall x, ~ in_doc I (k_store I k) id x -> get_by_id I (k_store I k') x = get_by_id I (k_store I k) x) /\
      (forall n, In n (g_nodes (k_graph I k')) <-> In n (g_nodes (k_graph I k)) /\ n_id n <> ("doc:" ++ id)%string /\ ~ in_doc I (k_store I k) id (n_id n)) /\
      (forall e, In e (g_edges (k_graph I k')) <-> In e (g_edges (k_graph I k)) /\
         ge_from e <> ("doc:" ++ id)%string /\ ge_to e <> ("doc:" ++ id)%string /\ ~ in_doc I (k_store I k) id (ge_from e) /\ ~ in_doc I (k_store I k) id (ge_to e))
  | _ => delete_knowledge I by_time true kv k id = (k, Err ENotFound)
  end.
Proof.
  intros I by_time kv k id P Sd C N. destruct (get_document_two I (k_store I k) id) as [G|[x G]]; [apply Sd| |]; rewrite G.
  - unfold delete_knowledge. destruct (String.eqb_spec id ""); [contradiction|]. rewrite G. reflexivity.
  - unfold delete_knowledge. destruct (String.eqb_spec id ""); [contradiction|]. rewrite G. destruct (cleanup_lemma I by_time kv k id P Sd C N) as (k' & E & S' & H1 & H2 & H3 & H4 & _ & _ & H5 & H6).
    exists k'. repeat (split; [assumption|]). split.
    + intros n0. rewrite H5. tauto.
    + intros e. rewrite H6. tauto.
Qed.

Section Save.
Variable I : index_ops.
Variable by_time : list row -> list row.
Notation doc_of k x := (get_document I (k_store I k) x).
Notation row_of k x := (get_by_id I (k_store I k) x).

Lemma no_rows (k : kdb I) id x : sound I k -> id <> "" -> doc_of k id = Err ENotFound -> ~ in_doc I (k_store I k) id x.
Proof using Type. intros (R & C & _) N G H. destruct (in_doc_document I _ _ _ R C N H) as [d Hd]. congruence. Qed.
Lemma clean_or_not kv (k : kdb I) id : (forall l, Permutation l (by_time l)) -> sound I k -> calm kv -> id <> "" -> weights_numbers (k_graph I k) ->
  exists k1, (match match doc_of k id with Ok x => Some x | _ => None end with Some _ => cleanup I by_time true kv k id | None => (k, Ok tt) end) = (k1, Ok tt) /\
  sound I k1 /\ weights_numbers (k_graph I k1) /\
  doc_of k1 id = Err ENotFound /\ (forall y, y <> id -> doc_of k1 y = doc_of k y) /\
  (forall x, in_doc I (k_store I k) id x -> row_of k1 x = Err ENotFound) /\ (forall x, ~ in_doc I (k_store I k) id x -> row_of k1 x = row_of k x) /\
  (forall m, get_collection I (k_store I k1) m = get_collection I (k_store I k) m) /\ st_dim I (k_store I k1) = st_dim I (k_store I k) /\
  (let gone x := (exists y, doc_of k id = Ok y) /\ (x = ("doc:" ++ id)%string \/ in_doc I (k_store I k) id x) in
   (forall m, In m (g_nodes (k_graph I k1)) <-> In m (g_nodes (k_graph I k)) /\ ~ gone (n_id m)) /\
   (forall e, In e (g_edges (k_graph I k1)) <-> In e (g_edges (k_graph I k)) /\ ~ gone (ge_from e) /\ ~ gone (ge_to e))).
Proof using Type.
  intros P Sd C N W. destruct (get_document_two I (k_store I k) id) as [G|[x G]]; [apply Sd| |]; rewrite G.
  - exists k. split; [reflexivity|]. split; [exact Sd|]. split; [exact W|]. split; [exact G|]. split; [auto|]. split; [intros x Hx; destruct (no_rows k id x Sd N G Hx)|]. split; [auto|]. split; [auto|]. split; [auto|].
    assert (Z : ~ exists y, Err ENotFound = Ok y :> outcome document) by (intros [y Hy]; discriminate). cbv zeta. split; intros; tauto.
  - destruct (cleanup_lemma I by_time kv k id P Sd C N) as (k1 & E & S1 & H1 & H2 & H3 & H4 & H5 & H6 & H7 & H8). exists k1. split; [exact E|]. split; [exact S1|]. split; [intros e He; apply W; apply H8 in He; apply He|].
    assert (Z : exists y, Ok x = Ok y :> outcome document) by eauto. repeat (split; [assumption|]). cbv zeta. split; [intros m; rewrite H7|intros e; rewrite H8]; tauto.
Qed.

Variables (trim slug : string -> string) (vec : Z -> string -> list N) (split : string -> Z -> Z -> list string) (il : list string -> string).
Variables (ord : string -> list gedge -> list gedge) (ssort : list string -> list string).

(** What [k'] and the answer are after knowledge [id] was replaced in [k]. *)
Definition replaced (k k' : kdb I) (id title content url author name : string) (n o dim : Z) (meta : option smap) (es : list tentity) (rs : list trelation) (a : kanswer) : Prop :=
  let pieces := split content n o in
  doc_of k' id = Ok {| d_id := id; d_title := title; d_url := url; d_content := content; d_version := match doc_of k id with Ok x => d_version x + 1 | _ => 1 end;
                       d_author := author; d_meta := meta; d_acl := [] |} /\
  (forall y, y <> id -> doc_of k' y = doc_of k y) /\
  rows_replaced I vec (k_store I k) (k_store I k') id title name meta dim pieces /\
  (exists g1 g2 d2 ids rids,
     graph_replaced trim vec (fun x => (exists y, doc_of k id = Ok y) /\ (x = ("doc:" ++ id)%string \/ in_doc I (k_store I k) id x)) (k_graph I k) g1 id title content dim pieces /\
     text_dimension I (k_store I k') "graphrag_chunks" d2 /\
     entities_written trim slug (vec d2) g1 es g2 ids /\ relations_written trim slug il id g2 rs (k_graph I k') rids /\
     set_of trim ids (ka_ents a) /\ set_of trim rids (ka_rels a)) /\
  ka_node a = ("doc:" ++ id)%string /\
  get_knowledge I trim by_time ord ssort k' id = Ok (ka_record a) /\ kr_coll (ka_record a) = name /\
  (forall c, In c (kr_chunks (ka_record a)) <-> exists i, (i < length pieces)%nat /\ c = chunk_node_id id i).

Lemma after_ingest kv (k0 k : kdb I) id title content url author coll name size overlap n o dim meta es rs v :
  (forall l, Permutation l (by_time l)) -> any_order ord -> sort_ok String.ltb ssort -> calm kv -> storable vec ->
  chunk_options size overlap n o -> proper trim id content (split content n o) meta es rs -> name = (if String.eqb coll "" then "graphrag_chunks" else coll) ->
  text_dimension I (k_store I k0) name dim -> v = match doc_of k0 id with Ok x => (d_version x + 1)%Z | _ => 1%Z end ->
  sound I k -> weights_numbers (k_graph I k) ->
  doc_of k id = Err ENotFound -> (forall y, y <> id -> doc_of k y = doc_of k0 y) ->
  (forall x, in_doc I (k_store I k0) id x -> row_of k x = Err ENotFound) -> (forall x, ~ in_doc I (k_store I k0) id x -> row_of k x = row_of k0 x) ->
  (forall m, get_collection I (k_store I k) m = get_collection I (k_store I k0) m) -> st_dim I (k_store I k) = st_dim I (k_store I k0) ->
  (let gone x := (exists y, doc_of k0 id = Ok y) /\ (x = ("doc:" ++ id)%string \/ in_doc I (k_store I k0) id x) in
   (forall m, In m (g_nodes (k_graph I k)) <-> In m (g_nodes (k_graph I k0)) /\ ~ gone (n_id m)) /\
   (forall e, In e (g_edges (k_graph I k)) <-> In e (g_edges (k_graph I k0)) /\ ~ gone (ge_from e) /\ ~ gone (ge_to e))) ->
  exists k' a, next I (ingest_knowledge I trim slug vec split il true kv k id title content coll size overlap meta es rs) (fun k r =>
      next I (on_store I k (fun s => put_document I (kv 11%nat) s {| d_id := id; d_title := title; d_url := url; d_content := content; d_version := v; d_author := author; d_meta := meta; d_acl := [] |})) (fun k _ =>
      answer I trim by_time ord ssort k id (fst r) (snd r))) = (k', Ok a) /\
    sound I k' /\ weights_numbers (k_graph I k') /\ replaced k0 k' id title content url author name n o dim meta es rs a.
Proof using Type.
  intros P O S C V Opt Pr Hname Dim -> Sd W D0 D1 R1 R2 Co Dm [Gn Ge]. destruct Pr as [Pid Pco Ppi Pme Pen Pre].
  destruct (ingest_lemma I trim vec split id title content coll name size overlap n o dim meta Pid Pco Hname Opt Ppi (V dim) Pme kv k Sd C (dimension_same I _ _ _ _ Co Dm Dim)) as (k2 & E2 & S2 & (x2 & Gx & Ax) & O2 & Rows & Rest & Rep).
  rewrite D0 in Ax. unfold ingest_knowledge. rewrite E2. cbn [next].
  destruct (write_graph_lemma I trim slug vec il kv k2 id es rs S2 C V (replaced_weights _ _ _ _ _ _ _ _ _ _ Rep W) Pen Pre) as (k3 & ids & rids & d2 & g2 & E3 & S3 & St & W3 & Dd & Ent & Rel).
  rewrite E3. cbn [next fst snd]. destruct S3 as (R3 & C3 & Rg3). rewrite St in R3, C3.
  set (x := {| d_id := id; d_title := title; d_url := url; d_content := content; d_version := _; d_author := author; d_meta := meta; d_acl := [] |}).
  destruct (put_ok I (kv 11%nat) (k_store I k2) x C3 (proj2 (C 11%nat) 0%nat)) as [s4 E4]. destruct (put_facts I _ _ _ _ _ R3 (proj1 (C 11%nat)) E4) as (R4 & [Al Cl4] & Po & Px & Pc & Pd). rewrite C3 in Cl4.
  unfold on_store. rewrite St, E4. cbn [next]. set (k4 := set_store I k3 s4). specialize (Px eq_refl). cbn [d_id d_title d_url d_content d_version d_author d_meta d_acl x] in Px, Po. rewrite Gx, Ax in Px.
  assert (S4 : sound I k4) by (split; [exact R4|split; [exact Cl4|exact Rg3]]).
  destruct (read_lemma I trim by_time ord ssort k4 id _ P O S S4 W3 Pid Px) as (r & Er & _ & _ & _ & _ & _ & _ & [_ Lc] & Hc & _).
  unfold answer. rewrite Er. cbn [bind]. eexists. eexists. split; [reflexivity|]. split; [exact S4|]. split; [exact W3|].
  assert (RR : rows_replaced I vec (k_store I k0) s4 id title name meta dim (split content n o)).
  { split.
    - intros i p Hp. rewrite Al. apply Rows. exact Hp.
    - intros y Hy. rewrite Al, (Rest y Hy). split; [apply R1|apply R2]. }
  assert (In4 : forall c, in_doc I s4 id c <-> exists i, (i < length (split content n o))%nat /\ c = chunk_node_id id i).
  { clear - RR. intros c. destruct RR as [H1 H2]. split.
    - intros (e & G & De). assert (Dec : (exists i, (i < length (split content n o))%nat /\ c = chunk_node_id id i) \/ forall i, (i < length (split content n o))%nat -> c <> chunk_node_id id i).
      { generalize (length (split content n o)) as m. induction m as [|m [IH|IH]]; [right; intros i Hi; inversion Hi|left; destruct IH as (i & Hi & E); exists i; split; [lia|exact E]|].
        destruct (string_dec c (chunk_node_id id m)) as [E|Ne]; [left; exists m; split; [lia|exact E]|right]. intros i Hi. assert (Hi' : (i < m)%nat \/ i = m) by lia. destruct Hi' as [Hi'| ->]; auto. }
      destruct Dec as [Dec|Dec]; [exact Dec|]. exfalso. destruct (H2 c Dec) as [A B]. assert (Nd : ~ in_doc I (k_store I k0) id c) by (intros Hin; rewrite (A Hin) in G; discriminate).
      rewrite (B Nd) in G. apply Nd. exists e. auto.
    - intros (i & Hi & ->). apply nth_error_Some in Hi. destruct (nth_error (split content n o) i) as [p|] eqn:En; [|contradiction]. destruct (H1 i p En) as (e & G & (_ & _ & _ & _ & De & _)). exists e. auto. }
  unfold replaced. cbn [ka_record ka_node ka_ents ka_rels KnowModel.k_store KnowModel.k_graph set_store k4].
  split; [exact Px|]. split; [intros y Hy; rewrite (Po y Hy), (O2 y Hy); apply D1; exact Hy|]. split; [exact RR|]. split.
  { exists (k_graph I k2), g2, d2, ids, rids. split; [exact (replaced_after _ _ _ _ _ _ _ _ _ _ _ Gn Ge Rep)|]. split; [exact (dimension_same I _ _ _ _ Pc Pd Dd)|]. split; [exact Ent|]. split; [exact Rel|]. split; apply unique_sorted_ok; exact S. }
  split; [reflexivity|]. split; [exact Er|]. split; [|intros c; rewrite Lc; apply In4].
  destruct Hc as [[_ Hc]|(c & e & G & De & ->)].
  - exfalso. destruct (split content n o) as [|p ps] eqn:Es; [congruence|]. apply (Hc (chunk_node_id id 0)). apply In4. exists 0%nat. split; [cbn; lia|reflexivity].
  - assert (Hin : in_doc I s4 id c) by (exists e; auto). apply In4 in Hin as (i & Hi & ->). apply nth_error_Some in Hi. destruct (nth_error (split content n o) i) as [p|] eqn:En; [|contradiction].
    destruct RR as [H1 _]. destruct (H1 i p En) as (e' & G' & (_ & Hcoll & _)). unfold k4 in G. cbn [KnowModel.k_store set_store] in G. rewrite G in G'. injection G' as <-. exact Hcoll.
Qed.
(** Saving knowledge replaces what was stored under its id. *)
Theorem knowledge_saved_exact : forall kv (k : kdb I) q n o name dim,
  (forall l, Permutation l (by_time l)) -> any_order ord -> sort_ok String.ltb ssort -> storable vec -> sound I k -> calm kv -> weights_numbers (k_graph I k) ->
  chunk_options (ks_size q) (ks_overlap q) n o -> proper trim (ks_id q) (ks_content q) (split (ks_content q) n o) (ks_meta q) (ks_ents q) (ks_rels q) ->
  name = (if String.eqb (ks_coll q) "" then "graphrag_chunks" else ks_coll q) -> text_dimension I (k_store I k) name dim ->
  exists k' a, save_knowledge I trim slug vec split il by_time ord ssort true kv k q = (k', Ok a) /\ sound I k' /\ weights_numbers (k_graph I k') /\
    replaced k k' (ks_id q) (ks_title q) (ks_content q) (ks_url q) (ks_author q) name n o dim (ks_meta q) (ks_ents q) (ks_rels q) a.
Proof using Type.
  intros kv k q n o name dim P O S V Sd C W Opt Pr Hname Dim. unfold save_knowledge. destruct (String.eqb_spec (ks_id q) "") as [E0|N]; [destruct (p_id _ _ _ _ _ _ _ Pr E0)|].
  destruct (String.eqb_spec (trim (ks_content q)) "") as [E0|_]; [destruct (p_content _ _ _ _ _ _ _ Pr E0)|].
  destruct (clean_or_not kv k (ks_id q) P Sd C N W) as (k1 & E & S1 & W1 & H1 & H2 & H3 & H4 & H5 & H6 & H7).
  assert (Two : forall (T : Type) (a b : T), match doc_of k (ks_id q) with Panic => a | Ok _ | Err ENotFound => b | Err _ => a end = b).
  { intros T a b. destruct (get_document_two I (k_store I k) (ks_id q)) as [G|[x G]]; [apply Sd| |]; rewrite G; reflexivity. }
  destruct (after_ingest kv k k1 (ks_id q) (ks_title q) (ks_content q) (ks_url q) (ks_author q) (ks_coll q) name (ks_size q) (ks_overlap q) n o dim (ks_meta q) (ks_ents q) (ks_rels q) _
    P O S C V Opt Pr Hname Dim eq_refl S1 W1 H1 H2 H3 H4 H5 H6 H7) as (k' & a & Ei & Hrest).
  exists k', a. split; [|exact Hrest]. rewrite <- Ei. clear Ei Hrest Two. destruct (get_document_two I (k_store I k) (ks_id q)) as [G|[x G]]; [apply Sd| |]; rewrite G in *; rewrite E; reflexivity.
Qed.

(** Updating with new content, title, collection or metadata replaces the knowledge; fields not
    given keep their values, the collection that of a chunk, the chunk options their defaults. *)
Theorem knowledge_updated_exact : forall kv (k : kdb I) q x n o,
  (forall l, Permutation l (by_time l)) -> any_order ord -> sort_ok String.ltb ssort -> storable vec -> sound I k -> calm kv -> weights_numbers (k_graph I k) ->
  doc_of k (ku_id q) = Ok x ->
  ku_content q <> None \/ ku_title q <> None \/ ku_coll q <> None \/ ku_meta q <> None ->
  let title := match ku_title q with Some t => t | None => d_title x end in
  let content := match ku_content q with Some t => t | None => d_content x end in
  let url := match ku_url q with Some t => t | None => d_url x end in
  let author := match ku_author q with Some t => t | None => d_author x end in
  let meta := match ku_meta q with Some m => Some m | None => d_meta x end in
  chunk_options (match ku_size q with Some z => z | None => 0%Z end) (match ku_overlap q with Some z => z | None => 0%Z end) n o ->
  proper trim (ku_id q) content (split content n o) meta (ku_ents q) (ku_rels q) ->
  exists k' a coll dim, update_knowledge I trim slug vec split il by_time ord ssort true kv k q = (k', Ok a) /\ sound I k' /\ weights_numbers (k_graph I k') /\
    match ku_coll q with
    | Some c => coll = c
    | None => (coll = "graphrag_chunks" /\ forall c, ~ in_doc I (k_store I k) (ku_id q) c) \/ exists c e, row_of k c = Ok e /\ e_doc e = ku_id q /\ coll = e_coll e
    end /\
    let name := if String.eqb coll "" then "graphrag_chunks" else coll in
    text_dimension I (k_store I k) name dim /\
    replaced k k' (ku_id q) title content url author name n o dim meta (ku_ents q) (ku_rels q) a.
Proof using Type.
  intros kv k q x n o P O S V Sd C W G Any title content url author meta Opt Pr. pose proof (p_id _ _ _ _ _ _ _ Pr) as N.
  destruct (chunks_listed I by_time k (ku_id q) P Sd N) as (cs & Gd & L). destruct (collection_read I by_time k (ku_id q) cs Sd Gd L) as (old & En & Hold).
  set (coll := match ku_coll q with Some c => c | None => old end). set (name := if String.eqb coll "" then "graphrag_chunks" else coll).
  assert (Nn : name <> "") by (unfold name; destruct (String.eqb_spec coll ""); [discriminate|assumption]).
  set (dim := lexical_dim I (k_store I k) name). assert (Dim : text_dimension I (k_store I k) name dim) by (apply dim_iff; [exact Nn|apply Sd|reflexivity]).
  destruct (clean_or_not kv k (ku_id q) P Sd C N W) as (k1 & E & S1 & W1 & H1 & H2 & H3 & H4 & H5 & H6 & H7). assert (Ev : (d_version x + 1)%Z = match doc_of k (ku_id q) with Ok x => (d_version x + 1)%Z | _ => 1%Z end) by (rewrite G; reflexivity).
  destruct (after_ingest kv k k1 (ku_id q) title content url author coll name _ _ n o dim meta (ku_ents q) (ku_rels q) (d_version x + 1)%Z P O S C V Opt Pr eq_refl Dim Ev S1 W1 H1 H2 H3 H4 H5 H6 H7) as (k' & a & Ei & S' & W' & Hrest).
  exists k', a, coll, dim. split; [|split; [exact S'|split; [exact W'|split; [unfold coll; destruct (ku_coll q); [reflexivity|exact Hold]|split; [exact Dim|exact Hrest]]]]].
  unfold update_knowledge. destruct (String.eqb_spec (ku_id q) ""); [contradiction|]. rewrite G in E |- *.
  assert (Bl : match ku_content q with Some c => String.eqb (trim c) "" | None => false end = false).
  { pose proof (p_content _ _ _ _ _ _ _ Pr) as Pc. unfold content in Pc. destruct (ku_content q) as [c|]; [destruct (String.eqb_spec (trim c) ""); [contradiction|reflexivity]|reflexivity]. }
  rewrite Bl, En. assert (Rep : is_some (ku_content q) || is_some (ku_title q) || is_some (ku_coll q) || is_some (ku_meta q) = true).
  { destruct (ku_content q), (ku_title q), (ku_coll q), (ku_meta q); try reflexivity. destruct Any as [H|[H|[H|H]]]; destruct H; reflexivity. }
  rewrite Rep. cbv zeta. rewrite E. cbn [next]. rewrite <- Ei. reflexivity.
Qed.

(** Updating only the url, the author, entities or relations keeps the chunks. *)
Theorem knowledge_touched_exact : forall kv (k : kdb I) q x,
  (forall l, Permutation l (by_time l)) -> any_order ord -> sort_ok String.ltb ssort -> storable vec -> sound I k -> calm kv -> weights_numbers (k_graph I k) ->
  ku_id q <> "" -> doc_of k (ku_id q) = Ok x -> ku_content q = None -> ku_title q = None -> ku_coll q = None -> ku_meta q = None ->
  (forall e, In e (ku_ents q) -> NoDup (map fst (te_meta e))) -> (forall r, In r (ku_rels q) -> NoDup (map fst (tl_meta r)) /\ not_nan (tl_weight r)) ->
  exists k' a, update_knowledge I trim slug vec split il by_time ord ssort true kv k q = (k', Ok a) /\ sound I k' /\ weights_numbers (k_graph I k') /\
    doc_of k' (ku_id q) = Ok {| d_id := ku_id q; d_title := d_title x; d_url := match ku_url q with Some t => t | None => d_url x end; d_content := d_content x; d_version := d_version x + 1;
                                d_author := match ku_author q with Some t => t | None => d_author x end; d_meta := d_meta x; d_acl := d_acl x |} /\
    (forall y, y <> ku_id q -> doc_of k' y = doc_of k y) /\ (forall y, row_of k' y = row_of k y) /\
    (exists g2 d2 ids rids, text_dimension I (k_store I k) "graphrag_chunks" d2 /\ entities_written trim slug (vec d2) (k_graph I k) (ku_ents q) g2 ids /\
       relations_written trim slug il (ku_id q) g2 (ku_rels q) (k_graph I k') rids /\ set_of trim ids (ka_ents a) /\ set_of trim rids (ka_rels a)) /\
    ka_node a = "" /\ get_knowledge I trim by_time ord ssort k' (ku_id q) = Ok (ka_record a).
Proof using Type.
  intros kv k q x P O S V Sd C W N G Q1 Q2 Q3 Q4 M1 M2. destruct (chunks_listed I by_time k (ku_id q) P Sd N) as (cs & Gd & L). destruct (collection_read I by_time k (ku_id q) cs Sd Gd L) as (old & En & _).
  destruct (write_graph_lemma I trim slug vec il kv k (ku_id q) (ku_ents q) (ku_rels q) Sd C V W M1 M2) as (k3 & ids & rids & d2 & g2 & E3 & S3 & St & W3 & Dd & Ent & Rel).
  unfold update_knowledge. destruct (String.eqb_spec (ku_id q) ""); [contradiction|]. rewrite G, Q1, Q2, Q3, Q4. cbn [is_some orb given]. rewrite En, E3. cbn [next fst snd].
  destruct S3 as (R3 & C3 & Rg3). rewrite St in R3, C3.
  match goal with |- context [put_document I (kv 11%nat) _ ?y] => set (x' := y) end.
  destruct (put_ok I (kv 11%nat) (k_store I k) x' C3 (proj2 (C 11%nat) 0%nat)) as [s4 E4]. destruct (put_facts I _ _ _ _ _ R3 (proj1 (C 11%nat)) E4) as (R4 & [Al Cl4] & Po & Px & Pc & Pd). rewrite C3 in Cl4.
  unfold on_store. rewrite St, E4. cbn [next]. set (k4 := set_store I k3 s4). specialize (Px eq_refl). cbn [d_id d_title d_url d_content d_version d_author d_meta d_acl x'] in Px, Po. rewrite G in Px.
  assert (S4 : sound I k4) by (split; [exact R4|split; [exact Cl4|exact Rg3]]).
  destruct (read_lemma I trim by_time ord ssort k4 (ku_id q) _ P O S S4 W3 N Px) as (r & Er & _).
  unfold answer. rewrite Er. cbn [bind]. exists k4. eexists. split; [reflexivity|]. split; [exact S4|]. split; [exact W3|]. split; [exact Px|]. split; [exact Po|]. split; [exact Al|]. split.
  { exists g2, d2, ids, rids. split; [exact Dd|]. split; [exact Ent|]. split; [exact Rel|]. split; apply unique_sorted_ok; exact S. }
  split; [reflexivity|exact Er].
Qed.

(** *** Whatever fails *)
(** The store when only document [id] and rows of it, or rows under the ids of its first [m]
    pieces, may have changed. *)
Definition spares (s s' : store I) (id : string) (m : nat) : Prop :=
  reachable I fk_env s' /\ st_closed I s' = false /\ (forall y, y <> id -> get_document I s' y = get_document I s y) /\
  forall y, ~ in_doc I s id y -> (forall i, (i < m)%nat -> y <> chunk_node_id id i) -> get_by_id I s' y = get_by_id I s y.
Lemma spares_refl s id m : reachable I fk_env s -> st_closed I s = false -> spares s s id m.
Proof using Type. intros R C. split; [exact R|]. split; [exact C|]. split; auto. Qed.
Lemma cleanup_spares ready kv (k k' : kdb I) id r m : (forall i, ev_fk (kv i) = true) -> reachable I fk_env (k_store I k) -> st_closed I (k_store I k) = false -> id <> "" ->
  cleanup I by_time ready kv k id = (k', r) -> spares (k_store I k) (k_store I k') id m.
Proof using Type.
  intros F R C N. unfold cleanup, when. destruct ready; [|intros [= <- _]; apply spares_refl; auto]. destruct (get_by_doc _ _ _ _) as [cs| |]; [|intros [= <- _]; apply spares_refl; auto|intros [= <- _]; apply spares_refl; auto].
  unfold on_graph. destruct (delete_nodes_batch _ _ _) as [g [z| |]]; cbn [next]; [|intros [= <- _]; apply spares_refl; auto|intros [= <- _]; apply spares_refl; auto].
  unfold on_store. cbn [KnowModel.k_store set_graph]. destruct (delete_document I _ _ _) as [s' r'] eqn:E. intros [= <- _]. cbn [KnowModel.k_store set_store].
  destruct (delete_facts I _ _ _ _ _ R C (F 1%nat) N E) as (R' & C' & D & _ & _ & H & _). split; [exact R'|]. split; [exact C'|]. split; [exact D|]. intros y Hy _. apply H. exact Hy.
Qed.
(** Only the document [id] and rows under the ids of its first [m] pieces may have changed. *)
Definition adds (s s' : store I) (id : string) (m : nat) : Prop :=
  reachable I fk_env s' /\ st_closed I s' = false /\ (forall y, y <> id -> get_document I s' y = get_document I s y) /\
  forall y, (forall i, (i < m)%nat -> y <> chunk_node_id id i) -> get_by_id I s' y = get_by_id I s y.
Lemma adds_trans s1 s2 s3 id m : adds s1 s2 id m -> adds s2 s3 id m -> adds s1 s3 id m.
Proof using Type. intros (R1 & C1 & D1 & G1) (R2 & C2 & D2 & G2). split; [exact R2|]. split; [exact C2|]. split; [intros y Hy; rewrite D2, D1; auto|intros y Hy; rewrite G2, G1; auto]. Qed.
Lemma adds_alike s s' id m : reachable I fk_env s' -> st_closed I s = false -> alike I s s' -> (forall y, y <> id -> get_document I s' y = get_document I s y) -> adds s s' id m.
Proof using Type. intros R C [A1 A2] D. split; [exact R|]. split; [congruence|]. split; [exact D|]. intros y _. apply A1. Qed.
Lemma spares_adds s1 s2 s3 id m : spares s1 s2 id m -> adds s2 s3 id m -> spares s1 s3 id m.
Proof using Type. intros (R1 & C1 & D1 & G1) (R2 & C2 & D2 & G2). split; [exact R2|]. split; [exact C2|]. split; [intros y Hy; rewrite D2, D1; auto|intros y Hy1 Hy2; rewrite G2, G1; auto]. Qed.
Lemma ingest_adds ready kv (k k' : kdb I) id title content coll size overlap n o meta r :
  (forall i, ev_fk (kv i) = true) -> storable vec -> match meta with Some m => NoDup (map fst m) | None => True end -> chunk_options size overlap n o -> reachable I fk_env (k_store I k) -> st_closed I (k_store I k) = false ->
  ingest_document I trim vec split ready kv k id title content coll size overlap meta = (k', r) -> adds (k_store I k) (k_store I k') id (length (split content n o)).
Proof using Type.
  intros F V M Opt R C. set (m := length (split content n o)). assert (Refl : adds (k_store I k) (k_store I k) id m) by (split; [exact R|]; split; [exact C|]; split; auto).
  unfold ingest_document. destruct (String.eqb id ""); [intros [= <- _]; exact Refl|]. destruct (String.eqb (trim content) ""); [intros [= <- _]; exact Refl|].
  rewrite (proj1 (defaults_options _ _ _ _) Opt). unfold when. destruct ready; [|intros [= <- _]; exact Refl]. cbv zeta. set (name := if String.eqb coll "" then rag_collection else coll).
  assert (Nn : name <> "") by (unfold name; destruct (String.eqb_spec coll ""); [discriminate|assumption]). set (dim := lexical_dim I (k_store I k) name).
  unfold on_store at 1. destruct (ensure_collection I (kv 2%nat) (k_store I k) name dim) as [s1 r1] eqn:E1. destruct (ensure_facts I _ _ _ _ _ _ R (F 2%nat) E1) as (R1 & A1 & D1 & _).
  assert (H1 : adds (k_store I k) s1 id m) by (apply adds_alike; auto). pose proof (proj1 (proj2 H1)) as C1.
  destruct r1 as [[]| |]; cbn [next]; [|intros [= <- _]; exact H1|intros [= <- _]; exact H1].
  destruct (number 0 (split content n o)) as [|p0 ps0] eqn:Eps; [intros [= <- _]; exact H1|]. rewrite <- Eps. clear p0 ps0 Eps.
  unfold on_store at 1. cbn [KnowModel.k_store set_store]. destruct (record_document I (kv 3%nat) s1 id title content) as [s2 r2] eqn:E2. destruct (record_facts I _ _ _ _ _ _ _ R1 (F 3%nat) E2) as (R2 & A2 & D2 & _).
  assert (H2 : adds (k_store I k) s2 id m) by (eapply adds_trans; [exact H1|apply adds_alike; auto]). pose proof (proj1 (proj2 H2)) as C2.
  destruct r2 as [[]| |]; cbn [next]; [|intros [= <- _]; exact H2|intros [= <- _]; exact H2].
  unfold on_graph at 1. destruct (upsert_node _ _ _) as [g1 [z1| |]]; cbn [next]; [|intros [= <- _]; exact H2|intros [= <- _]; exact H2].
  unfold on_store at 1. cbn [KnowModel.k_store set_store set_graph]. destruct (upsert_batch I _ _ _) as [s3 r3] eqn:E3.
  destruct (batch_frame I vec id title name meta dim (split content n o) (fun t => proj2 (V dim t)) M Nn (kv 5%nat) s2 s3 r3 R2 (F 5%nat) E3) as (R3 & C3 & D3 & G3).
  assert (H3 : adds (k_store I k) s3 id m) by (eapply adds_trans; [exact H2|]; split; [exact R3|]; split; [congruence|]; split; [intros; apply D3|exact G3]).
  destruct r3 as [[]| |]; cbn [next]; [|intros [= <- _]; exact H3|intros [= <- _]; exact H3].
  unfold on_graph at 1. destruct (upsert_nodes_batch _ _ _) as [g2 [z2| |]]; cbn [next]; [|intros [= <- _]; exact H3|intros [= <- _]; exact H3].
  unfold on_graph at 1. destruct (upsert_edges_batch _ _ _) as [g3 [z3| |]]; cbn [next]; intros [= <- _]; exact H3.
Qed.
Lemma write_graph_store ready kv (k k' : kdb I) id es rs r : write_graph I trim slug vec il ready kv k id es rs = (k', r) -> k_store I k' = k_store I k.
Proof using Type.
  unfold write_graph, on_graph. destruct (upsert_entities _ _ _ _ _ _ _ _) as [g1 [z| |]]; cbn [next]; [|intros [= <- _]; reflexivity|intros [= <- _]; reflexivity].
  destruct (upsert_relations _ _ _ _ _ _ _ _) as [g2 [z2| |]]; cbn [next]; intros [= <- _]; reflexivity.
Qed.
Lemma tail_adds ready kv (k k' : kdb I) id title content coll size overlap n o meta es rs x r :
  (forall i, ev_fk (kv i) = true) -> storable vec -> match meta with Some m => NoDup (map fst m) | None => True end -> chunk_options size overlap n o -> reachable I fk_env (k_store I k) -> st_closed I (k_store I k) = false -> d_id x = id ->
  next I (ingest_knowledge I trim slug vec split il ready kv k id title content coll size overlap meta es rs) (fun k r =>
      next I (on_store I k (fun s => put_document I (kv 11%nat) s x)) (fun k _ => answer I trim by_time ord ssort k id (fst r) (snd r))) = (k', r) ->
  adds (k_store I k) (k_store I k') id (length (split content n o)).
Proof using Type.
  intros F V M Opt R C Hx. unfold ingest_knowledge. destruct (ingest_document _ _ _ _ _ _ _ _ _ _ _ _ _ _) as [k1 r1] eqn:E1. pose proof (ingest_adds _ _ _ _ _ _ _ _ _ _ _ _ _ _ F V M Opt R C E1) as H1.
  destruct r1 as [[]| |]; cbn [next]; [|intros [= <- _]; exact H1|intros [= <- _]; exact H1].
  destruct (write_graph _ _ _ _ _ _ _ _ _ _ _) as [k2 r2] eqn:E2. apply write_graph_store in E2. rewrite <- E2 in H1. destruct r2 as [ab| |]; cbn [next]; [|intros [= <- _]; exact H1|intros [= <- _]; exact H1].
  unfold on_store. destruct (put_document I (kv 11%nat) (k_store I k2) x) as [s3 r3] eqn:E3. destruct (put_facts I _ _ _ _ _ (proj1 H1) (F 11%nat) E3) as (R3 & A3 & D3 & _). rewrite Hx in D3.
  assert (H3 : adds (k_store I k) s3 id (length (split content n o))) by (eapply adds_trans; [exact H1|apply adds_alike; auto; apply H1]).
  destruct r3 as [[]| |]; cbn [next]; [|intros [= <- _]; exact H3|intros [= <- _]; exact H3]. unfold answer. intros [= <- _]. exact H3.
Qed.

(** Saving, whatever fails and whatever is returned, changes no other document and no row that
    is neither one of the document's nor under the id of one of its new pieces. *)
Theorem knowledge_save_spares : forall ready kv (k k' : kdb I) q n o r,
  (forall i, ev_fk (kv i) = true) -> storable vec -> match ks_meta q with Some m => NoDup (map fst m) | None => True end -> chunk_options (ks_size q) (ks_overlap q) n o ->
  reachable I fk_env (k_store I k) -> st_closed I (k_store I k) = false ->
  save_knowledge I trim slug vec split il by_time ord ssort ready kv k q = (k', r) ->
  (forall y, y <> ks_id q -> doc_of k' y = doc_of k y) /\
  forall y, ~ in_doc I (k_store I k) (ks_id q) y -> (forall i, (i < length (split (ks_content q) n o))%nat -> y <> chunk_node_id (ks_id q) i) -> row_of k' y = row_of k y.
Proof using Type.
  intros ready kv k k' q n o r F V M Opt R C E. enough (H : spares (k_store I k) (k_store I k') (ks_id q) (length (split (ks_content q) n o))) by (destruct H as (_ & _ & H); exact H).
  pose proof (spares_refl (k_store I k) (ks_id q) (length (split (ks_content q) n o)) R C) as Refl.
  revert E. unfold save_knowledge. destruct (String.eqb_spec (ks_id q) "") as [_|N]; [intros [= <- _]; exact Refl|]. destruct (String.eqb (trim (ks_content q)) ""); [intros [= <- _]; exact Refl|].
  destruct (get_document_two I (k_store I k) (ks_id q) C) as [G|[x G]]; rewrite G; cbn [next].
  - intros E. eapply spares_adds; [exact Refl|]. eapply tail_adds in E; eauto.
  - destruct (cleanup I by_time ready kv k (ks_id q)) as [k1 r1] eqn:E1. pose proof (cleanup_spares _ _ _ _ _ _ (length (split (ks_content q) n o)) F R C N E1) as H1.
    destruct r1 as [[]| |]; cbn [next]; [|intros [= <- _]; exact H1|intros [= <- _]; exact H1]. intros E. eapply spares_adds; [exact H1|]. destruct H1 as (R1 & C1 & _). eapply tail_adds in E; eauto.
Qed.
End Save.
Print Assumptions knowledge_read_exact.
Print Assumptions knowledge_deleted_exact.
Print Assumptions knowledge_saved_exact.
Print Assumptions knowledge_updated_exact.
Print Assumptions knowledge_touched_exact.
Print Assumptions knowledge_save_spares.
