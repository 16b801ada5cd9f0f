(** What the theorems on the knowledge calls are stated in terms of. *)
From Coq Require Import String Ascii List NArith ZArith Bool Permutation Sorted.
From Coq Require Import Floats.SpecFloat.
From Verif Require Import Base Floats64 EncodingSpec SearchModel RagModel RagSpec ToolGraphModel StoreModel StoreSpec GraphModel GraphSpec ToolGraphSpec KnowModel.
Import ListNotations.
Open Scope string_scope.
Open Scope list_scope.

(** Chunk size and overlap after defaults: 120 without a size, no negative overlap, and a
    quarter of the size instead of an overlap that is not smaller than the size. *)
Definition chunk_options (size overlap n o : Z) : Prop :=
  n = (if Z.ltb 0 size then size else 120%Z) /\ o = (if Z.ltb (Z.max 0 overlap) n then Z.max 0 overlap else (n / 4)%Z).

Section Know.
Variable I : index_ops.
(** A database that is open and was built with foreign keys enforced. *)
Definition sound (k : kdb I) : Prop :=
  reachable I fk_env (k_store I k) /\ st_closed I (k_store I k) = false /\ greachable fk_env (k_graph I k).
(** Every call of a write goes through. *)
Definition calm (kv : nat -> env) : Prop := forall i, ev_fk (kv i) = true /\ forall n, ev_ok (kv i) n = true.

(** The dimension of the vectors of texts: the collection's, else the store's, else 64. *)
Definition text_dimension (s : store I) (name : string) (d : Z) : Prop :=
  (exists c, get_collection I s name = Ok c /\ (0 < c_dims c)%Z /\ d = c_dims c) \/
  ((forall c, get_collection I s name = Ok c -> (c_dims c <= 0)%Z) /\ d = if Z.ltb 0 (st_dim I s) then st_dim I s else 64%Z).

(** [e] is piece [i] of document [id]. *)
Definition piece_row (vec : Z -> string -> list N) (id title name : string) (meta : option smap) (d : Z) (i : nat) (piece : string) (e : embedding) : Prop :=
  e_id e = chunk_node_id id i /\ e_coll e = name /\ e_vec e = Some (vec d piece) /\ e_content e = piece /\ e_doc e = id /\ e_acl e = [] /\
  overrides (match meta with Some m => m | None => [] end)
    [("graph_kind", "chunk"); ("document_id", id); ("chunk_index", fmt_d (Z.of_nat i)); ("title", title)] (e_meta e).
(** The rows of document [id] are replaced by its new pieces; no other row changes, unless a
    piece takes its id. *)
Definition rows_replaced (vec : Z -> string -> list N) (s s' : store I) (id title name : string) (meta : option smap) (d : Z) (pieces : list string) : Prop :=
  (forall i p, nth_error pieces i = Some p -> exists e, get_by_id I s' (chunk_node_id id i) = Ok e /\ piece_row vec id title name meta d i p e) /\
  forall x, (forall i, i < length pieces -> x <> chunk_node_id id i) ->
    (in_doc I s id x -> get_by_id I s' x = Err ENotFound) /\ (~ in_doc I s id x -> get_by_id I s' x = get_by_id I s x).

(** The nodes of a document. *)
Definition is_doc_node (trim : string -> string) (vec : Z -> string -> list N) (id title content : string) (d : Z) (n : gnode) : Prop :=
  n_id n = ("doc:" ++ id)%string /\ or_else trim title content (n_content n) /\ n_vec n = vec d (n_content n) /\ n_type n = "document" /\
  n_props n = Some [("document_id", id); ("title", title)].
Definition is_chunk_node (vec : Z -> string -> list N) (id title : string) (d : Z) (i : nat) (piece : string) (n : gnode) : Prop :=
  n_id n = chunk_node_id id i /\ n_content n = piece /\ n_vec n = vec d piece /\ n_type n = "chunk" /\
  n_props n = Some [("document_id", id); ("chunk_index", fmt_d (Z.of_nat i)); ("title", title)].
(** The edges of a document: to each piece, and from each piece to the next. *)
Definition doc_edge_id (id : string) (i : nat) : string := ("edge:doc_chunk:" ++ id ++ ":" ++ fmt_d (Z.of_nat i))%string.
Definition next_edge_id (id : string) (i : nat) : string := ("edge:chunk_next:" ++ id ++ ":" ++ fmt_d (Z.of_nat i))%string.
Definition plain_edge (x : gedge) : Prop := ge_weight x = f64_of_Z 1 /\ ge_props x = None /\ ge_vec x = [].
Definition doc_edge (id : string) (i : nat) (x : gedge) : Prop :=
  ge_id x = doc_edge_id id i /\ ge_from x = ("doc:" ++ id)%string /\ ge_to x = chunk_node_id id i /\ ge_type x = "has_chunk" /\ plain_edge x.
Definition next_edge (id : string) (i : nat) (x : gedge) : Prop :=
  ge_id x = next_edge_id id (S i) /\ ge_from x = chunk_node_id id i /\ ge_to x = chunk_node_id id (S i) /\ ge_type x = "next" /\ plain_edge x.
(** The graph with the nodes [gone] removed and the document written; [gone] holds of ids. *)
Definition graph_replaced (trim : string -> string) (vec : Z -> string -> list N) (gone : string -> Prop) (g g' : gdb) (id title content : string) (d : Z) (pieces : list string) : Prop :=
  (forall n, In n (g_nodes g') <->
     is_doc_node trim vec id title content d n \/ (exists i p, nth_error pieces i = Some p /\ is_chunk_node vec id title d i p n) \/
     (In n (g_nodes g) /\ ~ gone (n_id n) /\ n_id n <> ("doc:" ++ id)%string /\ forall i, i < length pieces -> n_id n <> chunk_node_id id i)) /\
  (forall x, In x (g_edges g') <->
     (exists i, i < length pieces /\ doc_edge id i x) \/ (exists i, S i < length pieces /\ next_edge id i x) \/
     (In x (g_edges g) /\ ~ gone (ge_from x) /\ ~ gone (ge_to x) /\
      (forall i, i < length pieces -> ge_id x <> doc_edge_id id i) /\ forall i, 0 < i < length pieces -> ge_id x <> next_edge_id id i)).

(** [l] lists the ids of the chunks of document [id]. *)
Definition lists_chunks (s : store I) (id : string) (l : list string) : Prop := NoDup l /\ forall x, In x l <-> in_doc I s id x.
(** The names that are not blank among those of the entities next to the chunks of [id], each
    once and sorted. *)
Definition entities_near (trim : string -> string) (s : store I) (g : gdb) (id : string) (l : list string) : Prop :=
  NoDup l /\ alphabetical l /\
  forall x, In x l <-> trim x <> "" /\ exists c n, in_doc I s id c /\ In n (g_nodes g) /\ n_type n = "entity" /\ within g 1 c (n_id n) /\ n_content n = x.
(** The strings of [l] that are not blank, each once and sorted. *)
Definition set_of (trim : string -> string) (l l' : list string) : Prop :=
  NoDup l' /\ alphabetical l' /\ forall x, In x l' <-> In x l /\ trim x <> "".
End Know.

(** *** Entities and relations *)
(** The graph with entities written; [ids] are the ids reported. *)
Definition entities_written (trim slug : string -> string) (vec : string -> list N) (d : gdb) (es : list tentity) (d' : gdb) (ids : list string) : Prop :=
  exists ps, reported trim slug es ids /\ asked trim slug es ps /\
    (forall n, In n (g_nodes d') -> (exists e, last_entity trim slug es e (n_id n) /\ entity_stored trim slug vec e n) \/ (In n (g_nodes d) /\ unnamed_by trim slug es (n_id n))) /\
    (forall e id, last_entity trim slug es e id -> exists n, In n (g_nodes d') /\ n_id n = id /\ entity_stored trim slug vec e n) /\
    (forall n, In n (g_nodes d) -> unnamed_by trim slug es (n_id n) -> In n (g_nodes d')) /\
    forall x, In x (g_edges d') <->
      (exists l1 c n l2, ps = l1 ++ (c, n) :: l2 /\ has_node d' c /\ mentions c n x /\ forall c' n', In (c', n') l2 -> has_node d' c' -> mention_id c' n' <> mention_id c n) \/
      (In x (g_edges d) /\ forall c n, In (c, n) ps -> has_node d' c -> ge_id x <> mention_id c n).
(** The graph with the relations of document [doc] written. *)
Definition relations_written (trim slug : string -> string) (il : list string -> string) (doc : string) (d : gdb) (rs : list trelation) (d' : gdb) (ids : list string) : Prop :=
  exists xs, ids = map ge_id xs /\ drawn trim slug il doc 0 rs xs /\ g_nodes d' = g_nodes d /\
    forall x, In x (g_edges d') <-> (In x xs /\ both_ends d x) \/ (In x (g_edges d) /\ forall y, In y xs -> both_ends d y -> ge_id y <> ge_id x).

(** A request that can be stored: an id and content, chunks, maps with each key once, and
    weights that are numbers. *)
Record proper (trim : string -> string) (id content : string) (pieces : list string) (meta : option smap) (es : list tentity) (rs : list trelation) : Prop := {
  p_id : id <> "";
  p_content : trim content <> "";
  p_pieces : pieces <> [];
  p_meta : match meta with Some m => NoDup (map fst m) | None => True end;
  p_ents : forall e, In e es -> NoDup (map fst (te_meta e));
  p_rels : forall r, In r rs -> NoDup (map fst (tl_meta r)) /\ not_nan (tl_weight r) }.
(** Texts have vectors that can be stored. *)
Definition storable (vec : Z -> string -> list N) : Prop :=
  forall d t, vec d t <> [] /\ float32_bits (vec d t) /\ (N.of_nat (length (vec d t)) <= 2^31 - 1)%N.

(** *** Found chunks grouped by knowledge *)
(** [c] counts for knowledge [id]: its document, or itself without one. *)
Definition counts_for (c : rchunk) (id : string) : Prop := (c_doc c <> "" /\ id = c_doc c) \/ (c_doc c = "" /\ id = RagModel.c_id c).
(** [h] sums up the chunks of [cs] that count for it. *)
Record sums_up (I : index_ops) (trim snippet : string -> string) (s : store I) (cs : list rchunk) (h : khit) : Prop := {
  (** The score and, unless blank, the text of the first of its best chunks. *)
  su_best : exists l1 c l2, cs = l1 ++ c :: l2 /\ counts_for c (kh_id h) /\ kh_score h = c_score c /\
    (forall d, In d l1 -> counts_for d (kh_id h) -> flt (c_score d) (c_score c) = true) /\
    (forall d, In d l2 -> counts_for d (kh_id h) -> fle (c_score d) (c_score c) = true) /\
    (snippet (c_content c) <> "" -> kh_snippet h = snippet (c_content c));
  (** The text is one of a chunk of it. *)
  su_text : exists c, In c cs /\ counts_for c (kh_id h) /\ kh_snippet h = snippet (c_content c);
  (** The ids of its chunks, each once. *)
  su_chunks : NoDup (kh_chunks h) /\ forall x, In x (kh_chunks h) <-> exists c, In c cs /\ counts_for c (kh_id h) /\ RagModel.c_id c = x;
  (** Their entities, each once and sorted. *)
  su_ents : NoDup (kh_ents h) /\ alphabetical (kh_ents h) /\ forall x, In x (kh_ents h) <-> trim x <> "" /\ exists c, In c cs /\ counts_for c (kh_id h) /\ In x (c_ents c);
  (** The fields of the document, or nothing. *)
  su_doc : ((exists c, In c cs /\ c_doc c <> "" /\ c_doc c = kh_id h) ->
            exists x, get_document I s (kh_id h) = Ok x /\ kh_title h = d_title x /\ kh_url h = d_url x /\ kh_author h = d_author x /\ kh_meta h = d_meta x) /\
           (~ (exists c, In c cs /\ c_doc c <> "" /\ c_doc c = kh_id h) -> kh_title h = "" /\ kh_url h = "" /\ kh_author h = "" /\ kh_meta h = None) }.
(** Better scores first, then by id. *)
Definition before (a b : khit) : bool := fgt (kh_score a) (kh_score b) || (feq (kh_score a) (kh_score b) && String.ltb (kh_id a) (kh_id b)).
