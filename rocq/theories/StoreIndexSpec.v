(** Vocabulary for C19 and C20. *)
From Coq Require Import String List NArith ZArith Bool.
From Verif Require Import Base StoreModel HnswModel HnswSpec StoreSpec StoreIndexModel.
Import ListNotations.

Section Spec.
Variable dist : list N -> list N -> Floats64.float.
Variable keep : list N -> list N.
Variable ef : nat.
Notation I := (hnsw_ops dist keep ef).

(** What an index holds: ids not deleted, each with the vector kept for it. *)
Definition holds (h : hnsw (list N)) (id : string) (x : list N) : Prop :=
  exists n, get (h_nodes h) id = Some n /\ n_del n = false /\ n_vec n = x.
(** The index holds exactly the stored ids, each with its current vector. *)
Definition index_matches_store (s : store I) (h : hnsw (list N)) : Prop :=
  forall id x, holds h id x <-> exists e, get_by_id I s id = Ok e /\ x = keep (vec_of e).

(** Every statement succeeds, with foreign keys enforced. *)
Definition statements_succeed (ev : env) : Prop := ev_fk ev = true /\ forall n, ev_ok ev n = true.
(** The ids an operation writes. *)
Definition written (o : op) : list string :=
  match o with OUpsert e => [e_id e] | OUpsertBatch es => map e_id es | _ => [] end.
(** Operations that tell the index what they do. *)
Definition tells_index (o : op) : Prop :=
  match o with ODeleteByDoc _ | OClear | OClearDocs _ | ODeleteColl _ => False | _ => True end.
Definition well_formed_op (o : op) : Prop :=
  match o with OUpsert e => emb_bits e | OUpsertBatch es => Forall emb_bits es | _ => True end.
(** Histories that write every id once and use only those operations. *)
Definition write_once (h : list (env * op)) : Prop :=
  NoDup (flat_map (fun eo => written (snd eo)) h) /\
  Forall (fun eo => statements_succeed (fst eo) /\ tells_index (snd eo) /\ well_formed_op (snd eo)) h.
(** Saves, closings and reopenings: everything but operations. *)
Definition not_an_operation (e : event) : Prop := match e with EOp _ _ => False | _ => True end.
(** No vector of the index is at a NaN distance from the query. *)
Definition index_distances_are_numbers (i : hix) (q : list N) : Prop :=
  forall id n, get (h_nodes (hx_graph i)) id = Some n -> Floats64.not_nan (dist q (n_vec n)).
End Spec.
