(** What the theorems on the graph tools are stated in terms of. *)
From Coq Require Import String Ascii List NArith ZArith Bool Permutation Sorted.
From Coq Require Import Floats.SpecFloat.
From Verif Require Import Base Floats64 TopK StoreModel RagModel RagSpec GraphModel GraphSpec ToolGraphModel.
Import ListNotations.
Open Scope string_scope.
Open Scope list_scope.

(** *** Writing *)
Section Writing.
Variables (trim slug : string -> string) (vec : string -> list N) (id_list : list string -> string).
Definition tagged (s : string) : Prop := exists t, s = ("entity:" ++ t)%string.
(** The node id of an entity: an id or name that already is one, else made from the id if
    there is one, else from the name. *)
Definition known_as (id name r : string) : Prop :=
  (tagged id /\ r = id) \/ (~ tagged id /\ tagged name /\ r = name) \/
  (~ tagged id /\ ~ tagged name /\
     ((trim id <> "" /\ r = ("entity:" ++ slug id)%string) \/ (trim id = "" /\ trim name <> "" /\ r = ("entity:" ++ slug name)%string) \/
      (trim id = "" /\ trim name = "" /\ r = ""))).
(** The first that is not blank. *)
Definition or_else (a b r : string) : Prop :=
  (trim a <> "" /\ r = a) \/ (trim a = "" /\ trim b <> "" /\ r = b) \/ (trim a = "" /\ trim b = "" /\ r = "").
(** A map in which [meta] overrides the optional entries. *)
Definition overrides (meta : smap) (base : list (string * string)) (props : option smap) : Prop :=
  exists p, props = Some p /\ forall k, assoc k p = match assoc k meta with Some v => Some v | None => assoc k base end.
Definition named_or_id (e : tentity) : Prop := trim (te_name e) <> "" \/ trim (te_id e) <> "".
(** [n] is entity [e] as stored. *)
Definition entity_stored (e : tentity) (n : gnode) : Prop :=
  known_as (te_id e) (te_name e) (n_id n) /\ n_vec n = vec (trim (te_name e ++ " " ++ te_desc e)%string) /\
  or_else (te_name e) (te_id e) (n_content n) /\ or_else (te_type e) "entity" (n_type n) /\
  overrides (te_meta e) ((if String.eqb (te_name e) "" then [] else [("name", te_name e)]) ++ (if String.eqb (te_desc e) "" then [] else [("description", te_desc e)])) (n_props n).
(** The id of the edge linking chunk [c] to entity [n]. *)
Definition mention_id (c n : string) : string := ("edge:mention:" ++ c ++ ":" ++ n)%string.
(** [x] links chunk [c] to entity [n]. *)
Definition mentions (c n : string) (x : gedge) : Prop :=
  ge_id x = mention_id c n /\ ge_from x = c /\ ge_to x = n /\ ge_type x = "mentions" /\ ge_weight x = f64_of_Z 1 /\ ge_props x = None /\ ge_vec x = [].
(** The mentions asked for: pairs of a chunk and an entity, in order. *)
Inductive asked : list tentity -> list (string * string) -> Prop :=
| asked_none : asked [] []
| asked_skip e es l : ~ named_or_id e -> asked es l -> asked (e :: es) l
| asked_more e es l r : named_or_id e -> known_as (te_id e) (te_name e) r -> asked es l ->
    asked (e :: es) (map (fun c => (c, r)) (filter (fun c => negb (String.eqb c "")) (te_chunks e)) ++ l).
(** The ids reported, in order. *)
Inductive reported : list tentity -> list string -> Prop :=
| reported_none : reported [] []
| reported_skip e es l : ~ named_or_id e -> reported es l -> reported (e :: es) l
| reported_more e es l r : named_or_id e -> known_as (te_id e) (te_name e) r -> reported es l -> reported (e :: es) (r :: l).
Definition unnamed_by (es : list tentity) (id : string) : Prop := forall e, In e es -> named_or_id e -> ~ known_as (te_id e) (te_name e) id.
(** [e] is the last usable entity known by its id. *)
Definition last_entity (es : list tentity) (e : tentity) (id : string) : Prop :=
  exists l1 l2, es = l1 ++ e :: l2 /\ named_or_id e /\ known_as (te_id e) (te_name e) id /\ forall e', In e' l2 -> named_or_id e' -> ~ known_as (te_id e') (te_name e') id.

(** [x] is relation [r], at position [i] of the request. *)
Definition relation_stored (doc : string) (i : nat) (r : trelation) (x : gedge) : Prop :=
  known_as "" (tl_from r) (ge_from x) /\ known_as "" (tl_to r) (ge_to x) /\ or_else (tl_type r) "related_to" (ge_type x) /\
  ge_id x = ("edge:relation:" ++ ge_from x ++ ":" ++ ge_to x ++ ":" ++ ge_type x ++ ":" ++ SearchModel.fmt_d (Z.of_nat i))%string /\
  ge_weight x = (if feq (tl_weight r) f_zero then f64_of_Z 1 else tl_weight r) /\ ge_vec x = [] /\
  overrides (tl_meta r) ((if String.eqb doc "" then [] else [("document_id", doc)]) ++ (match tl_chunks r with [] => [] | cs => [("chunk_ids", id_list cs)] end)) (ge_props x).
(** The edges of the relations from position [i] on that name both ends. *)
Inductive drawn (doc : string) : nat -> list trelation -> list gedge -> Prop :=
| drawn_none i : drawn doc i [] []
| drawn_skip i r rs l : known_as "" (tl_from r) "" \/ known_as "" (tl_to r) "" -> drawn doc (S i) rs l -> drawn doc i (r :: rs) l
| drawn_more i r rs x l : ge_from x <> "" -> ge_to x <> "" -> relation_stored doc i r x -> drawn doc (S i) rs l -> drawn doc i (r :: rs) (x :: l).
End Writing.
Definition both_ends (d : gdb) (x : gedge) : Prop := has_node d (ge_from x) /\ has_node d (ge_to x).

(** *** Reading *)
(** [y] is another node within [h] hops of [x]. *)
Definition within (d : gdb) (h : Z) (x y : string) : Prop := y <> x /\ exists n, hops d "both" [] n x y /\ (1 <= Z.of_nat n <= h)%Z.
(** At most [m] nodes are within [h] hops of [x]. *)
Definition at_most (d : gdb) (h m : Z) (x : string) : Prop :=
  forall l, NoDup l -> (forall y, In y l -> within d h x y) -> (Z.of_nat (length l) <= m)%Z.
(** The sorted names of the entities next to a chunk. *)
Definition next_entities (d : gdb) (c : string) (es : list string) : Prop :=
  alphabetical es /\ exists ns, NoDup ns /\ (forall n, In n ns <-> In n (g_nodes d) /\ n_type n = "entity" /\ within d 1 c (n_id n)) /\ Permutation es (map n_content ns).
(** An entity is linked to chunk [c]. *)
Definition linked (trim slug : string -> string) (d : gdb) (h : Z) (c name : string) : Prop :=
  exists x n, known_as trim slug "" name x /\ In n (g_nodes d) /\ n_id n = c /\ n_type n = "chunk" /\ within d h x c.
Definition more_names (a b : string * Z) : bool := Z.ltb (snd b) (snd a) || (Z.eqb (snd a) (snd b) && String.ltb (fst a) (fst b)).
(** [t] is chunk [id] as stored. *)
Definition shows (read : string -> option (string * string)) (id : string) (t : tchunk) : Prop :=
  tc_id t = id /\ read id = Some (tc_doc t, tc_content t).
(** The chunks [ids] that are stored, in order, each shown as [good] says. *)
Inductive listing (read : string -> option (string * string)) (good : string -> tchunk -> Prop) : list string -> list tchunk -> Prop :=
| listing_none : listing read good [] []
| listing_lost id ids ts : read id = None -> listing read good ids ts -> listing read good (id :: ids) ts
| listing_more id ids t ts : shows read id t -> good id t -> listing read good ids ts -> listing read good (id :: ids) (t :: ts).
(** A node that was asked for, or one of the types asked for within [h] hops of one. *)
Definition reached (d : gdb) (ids : list string) (h : Z) (etypes ntypes : list string) (y : string) : Prop :=
  (y <> "" /\ In y ids) \/
  exists x n k, In x ids /\ x <> "" /\ In n (g_nodes d) /\ n_id n = y /\ (ntypes = [] \/ In (n_type n) ntypes) /\ y <> x /\
    hops d "both" etypes k x y /\ (1 <= Z.of_nat k <= h)%Z.
(** The chunk at position [i] of [n], as a candidate for the context. *)
Definition as_candidate (n i : nat) (t : tchunk) (c : rchunk) : Prop :=
  c_id c = tc_id t /\ c_doc c = tc_doc t /\ c_content c = tc_content t /\ c_ents c = tc_ents t /\
  c_score c = f64_of_Z (Z.of_nat (n - i)) /\ c_base c = c_score c /\ c_rerank c = c_score c.
