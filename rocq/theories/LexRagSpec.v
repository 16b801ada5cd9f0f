(** What the theorems on lexical GraphRAG search are stated in terms of. *)
From Coq Require Import String Ascii List NArith ZArith Bool Permutation Sorted.
From Coq Require Import Floats.SpecFloat.
From Verif Require Import Base Floats64 TopK RagModel RagSpec.
Import ListNotations.
Open Scope list_scope.
Open Scope nat_scope.

(** The hops in force. *)
Definition hops_limit (o : qopts) : Z := or_positive (q_hops o) 2.
(** The graph is consulted, and for which names. *)
Definition graph_wanted (names : string -> list string) (o : qopts) (q : string) (given : list string) : Prop :=
  q_nograph o = false /\ (q_mode o = MGraph \/ (q_mode o = MAuto /\ (given <> [] \/ names q <> []))).
Definition names_wanted (names : string -> list string) (q : string) (given : list string) : list string :=
  match given with [] => names q | _ => given end.
(** A chunk found through an entity counts for at least 0.75. *)
Definition raised (s : seed) : seed :=
  {| s_id := s_id s; s_doc := s_doc s; s_content := s_content s;
     s_score := if flt (s_score s) (f64_div (f64_of_Z 3) (f64_of_Z 4)) then f64_div (f64_of_Z 3) (f64_of_Z 4) else s_score s |}.
(** A chunk node met from a seed counts for 0.5. *)
Definition met_chunk (n : gnode) : seed :=
  {| s_id := n_id n; s_doc := match n_doc n with Some d => d | None => EmptyString end; s_content := n_content n;
     s_score := f64_div (f64_of_Z 1) (f64_of_Z 2) |}.
(** The distinct elements of [l] in the order of their first occurrence. *)
Definition first_order (l ids : list string) : Prop :=
  (forall id, In id l <-> In id ids) /\
  forall i id, nth_error ids i = Some id -> exists before after, l = before ++ id :: after /\ ~ In id before /\ forall x, In x before <-> In x (firstn i ids).
(** The candidate made of all the hits for one chunk: text of the first one, score of the
    best one. *)
Definition offered (hits : list seed) (c : rchunk) : Prop :=
  (exists before s after, hits = before ++ s :: after /\ ~ In (c_id c) (map s_id before) /\
     s_id s = c_id c /\ c_doc c = s_doc s /\ c_content c = s_content s) /\
  (exists s, In s hits /\ s_id s = c_id c /\ c_score c = s_score s) /\
  (forall s, In s hits -> s_id s = c_id c -> flt (c_score c) (s_score s) = false) /\
  c_base c = c_score c.
Definition is_chunk (n : gnode) : bool := String.eqb (n_type n) "chunk".
