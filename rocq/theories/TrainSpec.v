(** Vocabulary for the training of the store's IVF index. *)
From Coq Require Import String List NArith ZArith Bool Permutation.
From Coq Require Import Floats.SpecFloat.
From Verif Require Import Base Floats64 TopK DimensionModel StoreModel StoreSpec SearchModel IvfModel TrainModel.
Import ListNotations.

(** The number of centroids a call asks for: the argument, else the configured number, else 100. *)
Definition centroids_wanted (cf : iconf) (n k : Z) : Prop :=
  (0 < n /\ k = n)%Z \/ (n <= 0 /\ 0 < cf_nc cf /\ k = cf_nc cf)%Z \/ (n <= 0 /\ cf_nc cf <= 0 /\ k = 100)%Z.

(** What the clustering does: any centroids, as many as asked for; it can fail only on
    vectors of different lengths. *)
Definition clusters (kmeans : list (list N) -> nat -> outcome (list (list N))) : Prop :=
  (forall vs k cs, kmeans vs k = Ok cs -> length cs = k) /\
  (forall vs k d, k <> 0 -> k <= length vs -> (forall v, In v vs -> length v = d) -> exists cs, kmeans vs k = Ok cs).
Definition reads_all (scan : list row -> list row) : Prop := forall rs, Permutation rs (scan rs).

Section S.
Variable dist : list N -> list N -> float.
Variable csrt : list (float * nat) -> list (float * nat).
Notation I := (ivf_ix dist csrt).

(** Stores used with configuration [cf]: opened, changed by any calls and trained any number
    of times, with any outcome, and opened again. *)
Inductive ivf_store (cf : iconf) (envs : env -> Prop) : store I -> Prop :=
| iv_new dim p s : open_store I dim p empty_db (init_ivf cf dim) = Ok s -> ivf_store cf envs s
| iv_step s ev o : ivf_store cf envs s -> envs ev -> ivf_store cf envs (fst (step I ev s o))
| iv_train s ev scan kmeans n : ivf_store cf envs s -> reads_all scan -> clusters kmeans ->
    ivf_store cf envs (fst (train_index dist csrt cf ev scan kmeans s n))
| iv_reopen s dim p s' : ivf_store cf envs s -> open_store I dim p (st_db I s) (init_ivf cf dim) = Ok s' -> ivf_store cf envs s'.

(** Stores on which no training has succeeded since they were opened. *)
Inductive untrained (cf : iconf) (envs : env -> Prop) : store I -> Prop :=
| un_open s dim p s' : (st_db I s = empty_db \/ ivf_store cf envs s) ->
    open_store I dim p (st_db I s) (init_ivf cf dim) = Ok s' -> untrained cf envs s'
| un_step s ev o : untrained cf envs s -> envs ev -> untrained cf envs (fst (step I ev s o))
| un_train s ev scan kmeans n s' r : untrained cf envs s -> reads_all scan -> clusters kmeans ->
    train_index dist csrt cf ev scan kmeans s n = (s', r) -> r <> Ok tt -> untrained cf envs s'.

(** The ids of the stored embeddings, once each. *)
Definition stored_ids (s : store I) (ids : list string) : Prop :=
  NoDup ids /\ forall id, In id ids <-> exists e, get_by_id I s id = Ok e.
(** All stored vectors have the store's dimension. *)
Definition uniform (s : store I) : Prop :=
  forall id e, get_by_id I s id = Ok e -> Z.of_nat (length (vec_of e)) = st_dim I s.
End S.

(** Calls that remove nothing from the index. *)
Definition keeps_index (o : op) : Prop :=
  match o with ODelete _ | ODeleteBatch _ | ODeleteWhere _ | ODeleteDoc _ => False | _ => True end.
(** The number of embeddings given to a sequence of calls. *)
Fixpoint embeddings_given (h : list (env * op)) : nat :=
  match h with
  | [] => 0
  | (_, OUpsert _) :: h' => S (embeddings_given h')
  | (_, OUpsertBatch es) :: h' => length es + embeddings_given h'
  | _ :: h' => embeddings_given h'
  end.
