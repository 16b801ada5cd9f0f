(** Model of the IVF index behind the store: initIVFIndex and TrainIndex of
    /repo/pkg/core/store_index.go. The index itself is IvfModel; snapshots are not
    modelled here. *)
From Coq Require Import String List NArith ZArith Bool.
From Coq Require Import Floats.SpecFloat.
From Verif Require Import Base Floats64 TopK EncodingModel DimensionModel StoreModel SearchModel IvfModel.
Import ListNotations.

(** The part of Config concerned, types.go: IndexType = IVF, IVF.NCentroids, IVF.NProbe. *)
Record iconf := { cf_ivf : bool; cf_nc : Z; cf_nprobe : Z }.

(** The number of centroids when none is asked for, store_index.go:183-186, 229-234. *)
Definition conf_centroids (cf : iconf) : Z := if Z.leb (cf_nc cf) 0 then 100%Z else cf_nc cf.

(** initIVFIndex, store_index.go:173-213, without a snapshot; None is a nil index. *)
Definition init_ivf (cf : iconf) (dim : Z) : option ivf :=
  if negb (cf_ivf cf) then None
  else if Z.leb dim 0 then None
  else let x := new_ivf (Z.to_nat dim) (Z.to_nat (conf_centroids cf)) in
       Some (if Z.ltb 0 (cf_nprobe cf) then ivf_set_nprobe x (cf_nprobe cf) else x).

Section Train.
Variable dist : list N -> list N -> float.
Variable csrt : list (float * nat) -> list (float * nat).

(** What the store calls on the index: Add and Search only when trained
    (store_crud.go:151-155, 300-308; store_search.go:49, 162), Delete whenever there is one
    (store_crud.go:351-355). A search that fails makes the caller search linearly
    (store_search.go:163-170): no ids. A search that panics is not represented (no ids too);
    the theorems about searches say that it does not happen. *)
Definition ivf_ix : index_ops :=
  {| ix := option ivf;
     ix_insert := fun o id v => option_map (fun x => istep dist x (IAdd id v)) o;
     ix_delete := fun o id => option_map (fun x => istep dist x (IDelete id)) o;
     ix_search := fun o q k => match o with
                               | Some x => match ivf_search dist csrt x q (Z.of_nat k) with Ok l => map snd l | _ => [] end
                               | None => []
                               end |}.
Notation store := (store ivf_ix).

(** TrainIndex, store_index.go:216-308. [scan] is the order in which the rows come, [kmeans]
    what kMeansIVF answers. The statement can fail (ev_ok 0); rows that do not decode are
    skipped; failing Adds are only logged. *)
Definition train_index (cf : iconf) (ev : env) (scan : list row -> list row)
  (kmeans : list (list N) -> nat -> outcome (list (list N))) (s : store) (n : Z) : store * outcome unit :=
  if st_closed ivf_ix s then (s, Err EClosed)
  else if negb (cf_ivf cf) then (s, Err EOther)
  else
    let n1 := if Z.leb n 0 then conf_centroids cf else n in
    let fresh := new_ivf (Z.to_nat (st_dim ivf_ix s)) (Z.to_nat n1) in
    match (match st_ix ivf_ix s with
           | None => if Z.leb (st_dim ivf_ix s) 0 then None else Some fresh
           | Some x => Some (if Nat.eqb (i_nc x) (Z.to_nat n1) then ivf_clear x else fresh)
           end) with
    | None => (s, Err EOther)
    | Some x =>
        let s1 := with_ix ivf_ix s (Some x) in
        if negb (ev_ok ev 0) then (s1, Err EOther)
        else
          let pairs := oks (map (fun r => bind (decode_vector (r_blob r)) (fun v => Ok (r_id r, v)))
                                (scan (t_rows (st_db ivf_ix s)))) in
          match pairs with
          | [] => (s1, Err EOther)
          | _ =>
              if Nat.ltb (length pairs) (i_nc x) then (s1, Err EOther)
              else match kmeans (map snd pairs) (i_nc x) with
                   | Err e => (s1, Err e)
                   | Panic => (s1, Panic)
                   | Ok cents =>
                       match ivf_train x (map snd pairs) cents with
                       | Err e => (s1, Err e)
                       | Panic => (s1, Panic)
                       | Ok y => (with_ix ivf_ix s (Some (fold_left (fun z p => istep dist z (IAdd (fst p) (snd p))) pairs y)), Ok tt)
                       end
                   end
          end
    end.
End Train.
