(** Sessions of a store on one database file, with both indexes and their snapshots:
    initHNSWIndex, initIVFIndex, saveIndexSnapshot and loadIndexSnapshot of
    /repo/pkg/core/store_index.go, and Close, /repo/pkg/core/store_close.go:9-40.

    The table of embeddings is reduced to ids and vectors that decode, with one vector per
    id; the calls themselves are StoreModel's. Snapshots are the values gob wrote (SnapModel).
    Quantisers are QStoreModel's. Levels and the choices of Delete come with the call. *)
From Coq Require Import String List NArith ZArith Bool.
From Coq Require Import Floats.SpecFloat.
From Verif Require Import Base Floats64 HnswModel IvfModel SnapModel TrainModel.
Import ListNotations.

Local Notation vec := (list N).
(** IndexType, embedding.go:131-137. *)
Inductive itype := THnsw | TIvf | TFlat.
Definition is_hnsw (t : itype) : bool := match t with THnsw => true | _ => false end.
Definition is_ivf (t : itype) : bool := match t with TIvf => true | _ => false end.
(** The parts of Config concerned: HNSW.Enabled, IndexType, HNSW.M, EfConstruction,
    NumWorkers, VectorDim, IVF.NCentroids and IVF.NProbe. *)
Record sconf := { sc_on : bool; sc_type : itype; sc_M : nat; sc_efc : nat; sc_workers : nat; sc_dim : Z; sc_nc : Z; sc_nprobe : Z }.
Definition sc_ivf (c : sconf) : iconf := {| cf_ivf := is_ivf (sc_type c); cf_nc := sc_nc c; cf_nprobe := sc_nprobe c |}.

(** The database file: the embeddings, and the rows "HNSW" and "IVF" of index_snapshots. *)
Record file := { f_rows : list (string * vec); f_hnsw : option gfile; f_ivf : option gfile }.
(** The open store: its configuration and indexes. *)
Record mem := { m_conf : sconf; m_hnsw : option (hnsw vec); m_ivf : option ivf }.

Section Start.
Variable dist : vec -> vec -> float.
Variable keep : vec -> vec.
Variable idist : vec -> vec -> float.

(** rebuildHNSWIndex, store_index.go:75-170, on the index as it is; as in
    StoreIndexModel.rebuild, but the index need not be new. *)
Definition rebuild_on (c : sconf) (rand : nat -> nat) (h : hnsw vec) (rows : list (string * vec)) : outcome (hnsw vec) :=
  let vs := combine rows (map rand (seq 0 (length rows))) in
  let w := if Nat.eqb (sc_workers c) 0 then 4 else sc_workers c in
  if Nat.leb 100 (length vs) && Nat.ltb 1 w then insert_parallel dist keep h vs w else insert_all dist keep true h vs.
(** loadIndexSnapshot for "HNSW", store_index.go:438-454: [reads] tells whether the query
    succeeds. The index afterwards, and whether it counts as loaded. *)
Definition load_hnsw (reads : bool) (h : hnsw vec) (snap : option gfile) : hnsw vec * bool :=
  match (if reads then snap else None) with None => (h, false) | Some g => hnsw_load h g end.
(** initHNSWIndex, store_index.go:16-72: a failed load is logged and followed by a rebuild. *)
Definition start_hnsw (c : sconf) (reads : bool) (rand : nat -> nat) (f : file) : outcome (option (hnsw vec)) :=
  if sc_on c then
    let '(h, loaded) := load_hnsw reads (new_hnsw (sc_M c) (sc_efc c)) (f_hnsw f) in
    if loaded then Ok (Some h) else bind (rebuild_on c rand h (f_rows f)) (fun h' => Ok (Some h'))
  else Ok None.
(** initIVFIndex, store_index.go:173-213: no rebuild follows a failed load. *)
Definition start_ivf (c : sconf) (reads : bool) (f : file) : option ivf :=
  match init_ivf (sc_ivf c) (sc_dim c) with
  | None => None
  | Some x => match (if reads then f_ivf f else None) with None => Some x | Some g => Some (fst (ivf_load x g)) end
  end.
(** Init, store_init.go:13-69, on an existing file. *)
Definition start (c : sconf) (reads : bool) (rand : nat -> nat) (f : file) : outcome mem :=
  bind (start_hnsw c reads rand f) (fun h => Ok {| m_conf := c; m_hnsw := h; m_ivf := start_ivf c reads f |}).

(** saveIndexSnapshot, store_index.go:361-411; [saved] tells whether the statement succeeds. *)
Definition save_snapshot (ord : nodes vec -> nodes vec) (saved : bool) (m : mem) (f : file) : file :=
  match is_hnsw (sc_type (m_conf m)), m_hnsw m, is_ivf (sc_type (m_conf m)), m_ivf m with
  | true, Some h, _, _ => if saved then {| f_rows := f_rows f; f_hnsw := Some (hnsw_save ord h); f_ivf := f_ivf f |} else f
  | _, _, true, Some x => if i_trained x && saved then {| f_rows := f_rows f; f_hnsw := f_hnsw f; f_ivf := Some (ivf_save x) |} else f
  | _, _, _, _ => f
  end.

(** The row and the indexes after Upsert, store_crud.go:128-155. *)
Definition put_row (rows : list (string * vec)) (id : string) (v : vec) : list (string * vec) :=
  filter (fun r => negb (String.eqb (fst r) id)) rows ++ [(id, v)].
Definition or_same {A} (x : A) (o : outcome A) : A := match o with Ok y => y | _ => x end.
Definition do_upsert (id : string) (v : vec) (lvl : nat) (f : file) (m : mem) : file * mem :=
  ({| f_rows := put_row (f_rows f) id v; f_hnsw := f_hnsw f; f_ivf := f_ivf f |},
   {| m_conf := m_conf m;
      m_hnsw := if sc_on (m_conf m) then option_map (fun h => or_same h (hnsw_insert dist keep h id v lvl)) (m_hnsw m) else m_hnsw m;
      m_ivf := if is_ivf (sc_type (m_conf m)) then option_map (fun x => or_same x (ivf_add idist x id v)) (m_ivf m) else m_ivf m |}).
(** Delete of a stored id, store_crud.go:325-356; of another one it changes nothing. *)
Definition do_delete (id : string) (choice : nat) (f : file) (m : mem) : file * mem :=
  if existsb (fun r => String.eqb (fst r) id) (f_rows f) then
    ({| f_rows := filter (fun r => negb (String.eqb (fst r) id)) (f_rows f); f_hnsw := f_hnsw f; f_ivf := f_ivf f |},
     {| m_conf := m_conf m;
        m_hnsw := if sc_on (m_conf m) then option_map (fun h => or_same h (hnsw_delete h id choice)) (m_hnsw m) else m_hnsw m;
        m_ivf := option_map (fun x => or_same x (ivf_delete x id)) (m_ivf m) |})
  else (f, m).
(** TrainIndex(0), store_index.go:216-308, as in TrainModel.train_index when its statement
    succeeds; [cents] is what the clustering found. *)
Definition do_train (cents : list vec) (f : file) (m : mem) : mem :=
  if is_ivf (sc_type (m_conf m)) then
    let n := Z.to_nat (conf_centroids (sc_ivf (m_conf m))) in
    let fresh := new_ivf (Z.to_nat (sc_dim (m_conf m))) n in
    match (match m_ivf m with
           | None => if Z.leb (sc_dim (m_conf m)) 0 then None else Some fresh
           | Some x => Some (if Nat.eqb (i_nc x) n then ivf_clear x else fresh)
           end) with
    | None => m
    | Some x =>
        let y := match f_rows f with
                 | [] => x
                 | _ => match ivf_train x (map snd (f_rows f)) cents with
                        | Ok y => fold_left (fun z p => or_same z (ivf_add idist z (fst p) (snd p))) (f_rows f) y
                        | _ => x
                        end
                 end in
        {| m_conf := m_conf m; m_hnsw := m_hnsw m; m_ivf := Some y |}
    end
  else m.

(** What happens to a file: calls on the open store, an automatic save
    (store_index.go:479-510), Close, and the start of a session; starting one while another
    is open means that the process had died. *)
Inductive sev :=
| SUpsert (id : string) (v : vec) (lvl : nat)
| SDelete (id : string) (choice : nat)
| STrain (cents : list vec)
| SSave (saved : bool)
| SClose (saved : bool)
| SOpen (c : sconf) (reads : bool) (rand : nat -> nat).
(** The file and the open store, if any. Calls on a closed store change nothing. *)
Record world := { w_file : file; w_mem : option mem }.
Definition sstep (ord : nodes vec -> nodes vec) (w : world) (e : sev) : outcome world :=
  match e, w_mem w with
  | SOpen c reads rand, _ => bind (start c reads rand (w_file w)) (fun m => Ok {| w_file := w_file w; w_mem := Some m |})
  | _, None => Ok w
  | SUpsert id v lvl, Some m => let '(f, m') := do_upsert id v lvl (w_file w) m in Ok {| w_file := f; w_mem := Some m' |}
  | SDelete id ch, Some m => let '(f, m') := do_delete id ch (w_file w) m in Ok {| w_file := f; w_mem := Some m' |}
  | STrain cents, Some m => Ok {| w_file := w_file w; w_mem := Some (do_train cents (w_file w) m) |}
  | SSave b, Some m => Ok {| w_file := save_snapshot ord b m (w_file w); w_mem := Some m |}
  | SClose b, Some m => Ok {| w_file := save_snapshot ord b m (w_file w); w_mem := None |}
  end.
Fixpoint srun (ord : nodes vec -> nodes vec) (w : world) (es : list sev) : outcome world :=
  match es with [] => Ok w | e :: es' => bind (sstep ord w e) (fun w' => srun ord w' es') end.
End Start.
(** A file that does not exist yet. *)
Definition no_file : world := {| w_file := {| f_rows := []; f_hnsw := None; f_ivf := None |}; w_mem := None |}.
