(** Model of scalar quantisation inside the store: when the quantiser is trained and what
    the HNSW index then holds for each embedding. /repo/pkg/core/store_crud.go:32-69,
    131-150, 172-198, 283-297, store_index.go:311-358, /repo/pkg/index/hnsw.go:78-97,
    172-215.

    The store has a fixed dimension and refuses vectors of another one (StrictMode). The
    layers and links of the index are in HnswModel; here an index entry is what the node
    keeps of its vector. A deleted embedding's node stays in the index with a mark
    (hnsw.go:484-506); the mark is left out. Whether the database accepts a call is part of
    the operation. *)
From Coq Require Import String List NArith ZArith QArith Bool.
From Verif Require Import Base QuantModel.
Import ListNotations.

Section QStore.
Variable A : arith.
Local Notation vec := (list (num A)).
(** HNSWNode.Vector or HNSWNode.Quantized, hnsw.go:22-23. *)
Inductive kept := KFull (v : vec) | KCode (bs : list N).
Record qstore := { qs_rows : list (string * vec); qs_quant : squant A; qs_nodes : list (string * kept) }.
(** A store without data, store_index.go:22-34. *)
Definition new_qstore (q : squant A) : qstore := {| qs_rows := []; qs_quant := q; qs_nodes := [] |}.

Inductive qop :=
| QUpsert (id : string) (v : vec) (accepted : bool)
| QBatch (l : list (string * vec)) (accepted : bool)
| QTrain
| QDelete (id : string).

Section Steps.
(** The order in which SELECT vector FROM embeddings gives the rows. *)
Variable ord : list (string * vec) -> list (string * vec).
(** A failing Train is logged and ignored. *)
Definition train_with (q : squant A) (vs : list vec) : outcome (squant A) :=
  match sq_train A q vs with Ok q' => Ok q' | Err _ => Ok q | Panic => Panic end.
(** TrainQuantizer, store_index.go:311-358. *)
Definition train_rows (s : qstore) : outcome (squant A) := train_with (qs_quant s) (firstn 1000 (map snd (ord (qs_rows s)))).
(** Auto-train, store_crud.go:55-69. *)
Definition auto_train (s : qstore) : outcome (squant A) := if sq_trained A (qs_quant s) then Ok (qs_quant s) else train_rows s.
(** store_crud.go:172-198. *)
Definition auto_train_batch (s : qstore) (l : list (string * vec)) : outcome (squant A) :=
  if sq_trained A (qs_quant s) then Ok (qs_quant s) else train_with (qs_quant s) (firstn 1000 (map snd l)).

(** hnsw.go:181-198. *)
Definition keep_of (q : squant A) (v : vec) : kept := match sq_encode A q v with Ok bs => KCode bs | _ => KFull v end.
(** Insert, hnsw.go:173-215: an id that is there already is refused. *)
Definition index_insert (q : squant A) (ns : list (string * kept)) (e : string * vec) : list (string * kept) :=
  if existsb (fun n => String.eqb (fst n) (fst e)) ns then ns else ns ++ [(fst e, keep_of q (snd e))].
(** INSERT OR REPLACE. *)
Definition row_put (rows : list (string * vec)) (e : string * vec) : list (string * vec) :=
  filter (fun r => negb (String.eqb (fst r) (fst e))) rows ++ [e].
Definition sized (q : squant A) (v : vec) : bool := Nat.eqb (length v) (sq_dim A q).

Definition qstep (s : qstore) (o : qop) : outcome qstore :=
  match o with
  | QUpsert id v ok =>
      bind (auto_train s) (fun q =>
      if ok && sized q v
      then Ok {| qs_rows := row_put (qs_rows s) (id, v); qs_quant := q; qs_nodes := index_insert q (qs_nodes s) (id, v) |}
      else Ok {| qs_rows := qs_rows s; qs_quant := q; qs_nodes := qs_nodes s |})
  | QBatch [] _ => Ok s
  | QBatch l ok =>
      bind (auto_train_batch s l) (fun q =>
      if ok && forallb (fun e => sized q (snd e)) l
      then Ok {| qs_rows := fold_left row_put l (qs_rows s); qs_quant := q; qs_nodes := fold_left (index_insert q) l (qs_nodes s) |}
      else Ok {| qs_rows := qs_rows s; qs_quant := q; qs_nodes := qs_nodes s |})
  | QTrain => bind (train_rows s) (fun q => Ok {| qs_rows := qs_rows s; qs_quant := q; qs_nodes := qs_nodes s |})
  | QDelete id => Ok {| qs_rows := filter (fun r => negb (String.eqb (fst r) id)) (qs_rows s); qs_quant := qs_quant s; qs_nodes := qs_nodes s |}
  end.
Fixpoint qrun (s : qstore) (ops : list qop) : outcome qstore :=
  match ops with [] => Ok s | o :: ops' => bind (qstep s o) (fun s' => qrun s' ops') end.
End Steps.

(** The vector that calculateDistance compares queries with, hnsw.go:78-97; None when it
    falls back to the largest distance. *)
Definition index_vector (s : qstore) (id : string) : option vec :=
  match find (fun n => String.eqb (fst n) id) (qs_nodes s) with
  | None => None
  | Some (_, KFull v) => Some v
  | Some (_, KCode bs) => match sq_decode A (qs_quant s) bs with Ok w => Some w | _ => None end
  end.
End QStore.

(** *** Reopening the store *)
(** The parts of the configuration that matter: Quantization.Enabled, VectorDim and
    Quantization.NBits; the type is not "binary". *)
Record qconf := { qc_enabled : bool; qc_dim : nat; qc_bits : Z }.
Section Reopen.
Variable A : arith.
Local Notation vec := (list (num A)).
(** The index after opening: the quantiser, if there is one, and the nodes. *)
Record reopened := { ro_quant : option (squant A); ro_nodes : list (string * kept A) }.
(** store_index.go:22-34. *)
Definition init_quant (c : qconf) : option (squant A) :=
  if qc_enabled c && Nat.ltb 0 (qc_dim c) then match sq_new A (qc_dim c) (qc_bits c) with Ok q => Some q | _ => None end else None.
(** loadIndexSnapshot, store_index.go:416-437: the saved quantiser is read into a new one; when
    the configuration does not allow one, Decode is given a nil pointer and fails. *)
Definition load_quant (c : qconf) (saved : option (squant A)) (q : option (squant A)) : option (squant A) :=
  match saved with
  | None => q
  | Some s => match sq_new A (qc_dim c) (qc_bits c) with Ok _ => Some s | _ => q end
  end.
(** initHNSWIndex, store_index.go:17-72: the snapshots of quantiser and nodes are each there or
    not. Without nodes the quantiser is trained and the rows are inserted one after the
    other. *)
Definition reopen (ord : list (string * vec) -> list (string * vec)) (c : qconf) (saved : option (squant A)) (nodes : option (list (string * kept A))) (rows : list (string * vec)) : outcome reopened :=
  let q := load_quant c saved (init_quant c) in
  match nodes with
  | Some ns => Ok {| ro_quant := q; ro_nodes := ns |}
  | None =>
      match q with
      | None => Ok {| ro_quant := None; ro_nodes := fold_left (fun ns e => if existsb (fun n => String.eqb (fst n) (fst e)) ns then ns else ns ++ [(fst e, KFull A (snd e))]) (ord rows) [] |}
      | Some q0 => bind (train_with A q0 (firstn 1000 (map snd (ord rows)))) (fun q1 =>
                   Ok {| ro_quant := Some q1; ro_nodes := fold_left (index_insert A q1) (ord rows) [] |})
      end
  end.
(** saveIndexSnapshot, store_index.go:361-411: two statements, each of which may fail, or not
    be reached; the second is not tried when the first has failed. The pair is what the
    database holds of quantiser and nodes. *)
Definition save_both (nodes_ok quant_ok : bool) (s : qstore A) (old : option (squant A) * option (list (string * kept A))) : option (squant A) * option (list (string * kept A)) :=
  if nodes_ok then (if quant_ok then Some (qs_quant A s) else fst old, Some (qs_nodes A s)) else old.
(** calculateDistance, hnsw.go:78-97, as in [index_vector]. *)
Definition reopened_vector (r : reopened) (id : string) : option vec :=
  match find (fun n => String.eqb (fst n) id) (ro_nodes r) with
  | None => None
  | Some (_, KFull _ v) => Some v
  | Some (_, KCode _ bs) => match ro_quant r with
                            | None => None
                            | Some q => match sq_decode A q bs with Ok w => Some w | _ => None end
                            end
  end.
End Reopen.
