(** The HNSW index behind the store and its life on disk:
    /repo/pkg/core/store_index.go, store_close.go and the index calls of
    store_crud.go. Quantiser training is not modelled: [keep] of HnswModel.v stands
    for what the index keeps of a vector. *)
From Coq Require Import String List NArith ZArith Bool.
From Coq Require Import Floats.SpecFloat.
From Verif Require Import Base Floats64 EncodingModel DimensionModel StoreModel HnswModel.
Import ListNotations.
Open Scope string_scope.
Open Scope list_scope.

(** The index with its source of randomness: levels (hnsw.go:159-171) and the map
    iteration of Delete (hnsw.go:495-502) are drawn from an arbitrary stream. *)
Record hix := { hx_graph : hnsw (list N); hx_rand : nat -> nat; hx_used : nat }.

Section Ix.
Variable dist : list N -> list N -> float.
Variable keep : list N -> list N.
Variable ef : nat.

Definition hx_set (i : hix) (h : hnsw (list N)) : hix :=
  {| hx_graph := h; hx_rand := hx_rand i; hx_used := S (hx_used i) |}.
(** store_crud.go:144-149, 286-297: a failing Insert is logged and ignored. *)
Definition hx_insert (i : hix) (id : string) (v : list N) : hix :=
  match hnsw_insert dist keep (hx_graph i) id v (hx_rand i (hx_used i)) with Ok h => hx_set i h | _ => i end.
(** store_crud.go:344-349, 443-449: likewise. *)
Definition hx_delete (i : hix) (id : string) : hix :=
  match hnsw_delete (hx_graph i) id (hx_rand i (hx_used i)) with Ok h => hx_set i h | _ => i end.
(** store_search.go:133-138. *)
Definition hx_search (i : hix) (q : list N) (k : nat) : list string :=
  match hnsw_search dist (hx_graph i) q (Z.of_nat k) ef with Ok out => map snd out | _ => [] end.
Definition hnsw_ops : index_ops :=
  {| ix := hix; ix_insert := hx_insert; ix_delete := hx_delete; ix_search := hx_search |}.

(** The configuration of one run of the program: dimension, policy, M,
    EfConstruction, NumWorkers, and its randomness. *)
Record session := { ss_dim : Z; ss_policy : policy; ss_M : nat; ss_efc : nat; ss_workers : nat; ss_rand : nat -> nat }.

(** rebuildHNSWIndex, store_index.go:75-170: rows that do not decode are skipped;
    NumWorkers <= 0 means 4. *)
Fixpoint rebuild_vectors (rs : list row) : list (string * list N) :=
  match rs with
  | [] => []
  | r :: rs' => match decode_vector (r_blob r) with
                | Ok v => (r_id r, v) :: rebuild_vectors rs'
                | _ => rebuild_vectors rs'
                end
  end.
Definition with_levels (rand : nat -> nat) (vs : list (string * list N)) : list (string * list N * nat) :=
  combine vs (map rand (seq 0 (length vs))).
Definition rebuild (c : session) (d : db) : outcome (hnsw (list N)) :=
  let vs := with_levels (ss_rand c) (rebuild_vectors (t_rows d)) in
  let w := if Nat.eqb (ss_workers c) 0 then 4 else ss_workers c in
  let h := new_hnsw (ss_M c) (ss_efc c) in
  if Nat.leb 100 (length vs) && Nat.ltb 1 w then insert_parallel dist keep h vs w else insert_all dist keep true h vs.

(** A store and the index snapshot in its database file (table index_snapshots). *)
Record sys := { y_store : store hnsw_ops; y_snap : option (hnsw (list N)) }.

(** initHNSWIndex, store_index.go:17-72: the snapshot if there is one, else a
    rebuild. Save and Load (hnsw.go:99-157, gob) are taken to be lossless. *)
Definition load_index (c : session) (d : db) (snap : option (hnsw (list N))) : outcome hix :=
  bind (match snap with Some h => Ok h | None => rebuild c d end)
       (fun h => Ok {| hx_graph := h; hx_rand := ss_rand c; hx_used := length (t_rows d) |}).
(** New and Init on an existing file (store_init.go:13-69). *)
Definition open_sys (c : session) (d : db) (snap : option (hnsw (list N))) : outcome sys :=
  bind (load_index c d snap) (fun i =>
  bind (open_store hnsw_ops (ss_dim c) (ss_policy c) d i) (fun s => Ok {| y_store := s; y_snap := snap |})).

(** What happens to a store: an operation, an automatic save (store_index.go:479-510),
    Close, whose save may fail (store_close.go:9-40), or the loss of memory and a new
    session on the same file. *)
Inductive event :=
| EOp (ev : env) (o : op)
| EAutoSave (saved : bool)
| EClose (saved : bool)
| EReopen (c : session).
Definition save (saved : bool) (y : sys) : option (hnsw (list N)) :=
  if saved then Some (hx_graph (st_ix hnsw_ops (y_store y))) else y_snap y.
Definition sys_step (y : sys) (e : event) : outcome sys :=
  match e with
  | EOp ev o => Ok {| y_store := fst (step hnsw_ops ev (y_store y) o); y_snap := y_snap y |}
  | EAutoSave b => Ok {| y_store := y_store y; y_snap := if st_closed hnsw_ops (y_store y) then y_snap y else save b y |}
  | EClose b => if st_closed hnsw_ops (y_store y) then Ok y
                else Ok {| y_store := fst (close hnsw_ops (y_store y)); y_snap := save b y |}
  | EReopen c => open_sys c (st_db hnsw_ops (y_store y)) (y_snap y)
  end.
Fixpoint sys_run (y : sys) (es : list event) : outcome sys :=
  match es with
  | [] => Ok y
  | e :: es' => bind (sys_step y e) (fun y' => sys_run y' es')
  end.
End Ix.
