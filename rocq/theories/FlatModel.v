(** Model of /repo/pkg/index/flat.go. Vectors are lists of float32 bit patterns. The Go map
    is a list of pairs with distinct ids; iterating over it visits the pairs in an
    arbitrary order, a parameter of each search. Locks are not modelled. *)
From Coq Require Import String List NArith ZArith Bool.
From Coq Require Import Floats.SpecFloat.
From Verif Require Import Base Floats64 HeapModel HeapTopK IndexDistModel StoreModel.
Import ListNotations.

(** FlatIndex, flat.go:12-18. *)
Record flat := { fl_vecs : list (string * list N); fl_dim : nat; fl_normalized : bool }.

(** NewFlatIndex, flat.go:21-30, and NewFlatIndexCosine, 33-40. *)
Definition new_flat (dim : nat) (normalized : bool) : flat := {| fl_vecs := []; fl_dim := dim; fl_normalized := normalized |}.

(** normalize, flat.go:225-241. *)
Definition flat_normalize (v : list N) : list N :=
  let sum := dot32 v v in
  if feq sum f_zero then v
  else let norm := sqrt32 sum in map (fun n => bits_of_f32 (f32_div (f32_of_bits n) norm)) v.
Definition prepare (normalized : bool) (v : list N) : list N := if normalized then flat_normalize v else v.

(** f.vectors[id] = v, and delete(f.vectors, id). *)
Definition map_del (id : string) (l : list (string * list N)) : list (string * list N) :=
  filter (fun p => negb (String.eqb (fst p) id)) l.
Definition map_set (id : string) (v : list N) (l : list (string * list N)) : list (string * list N) := (id, v) :: map_del id l.
Definition map_get (id : string) (l : list (string * list N)) : option (list N) :=
  option_map snd (find (fun p => String.eqb (fst p) id) l).
Definition with_vecs (x : flat) (l : list (string * list N)) : flat :=
  {| fl_vecs := l; fl_dim := fl_dim x; fl_normalized := fl_normalized x |}.

(** Insert, flat.go:43-62. *)
Definition flat_insert (x : flat) (id : string) (v : list N) : outcome flat :=
  if negb (Nat.eqb (length v) (fl_dim x)) then Err EInvalidDim
  else Ok (with_vecs x (map_set id (prepare (fl_normalized x) v) (fl_vecs x))).

(** BatchInsert, flat.go:185-209: the loop stops at the first bad vector, keeping the ones
    before it. The answer says whether the call succeeded. *)
Fixpoint flat_batch_loop (x : flat) (items : list (string * list N)) : flat * bool :=
  match items with
  | [] => (x, true)
  | (id, v) :: items' => match flat_insert x id v with Ok y => flat_batch_loop y items' | _ => (x, false) end
  end.
Definition flat_batch (x : flat) (ids : list string) (vs : list (list N)) : flat * bool :=
  if negb (Nat.eqb (length ids) (length vs)) then (x, false) else flat_batch_loop x (combine ids vs).

(** Delete, flat.go:146-155. *)
Definition flat_delete (x : flat) (id : string) : flat * bool :=
  match map_get id (fl_vecs x) with
  | Some _ => (with_vecs x (map_del id (fl_vecs x)), true)
  | None => (x, false)
  end.
(** Clear, flat.go:165-169; GetVector, 172-182; Size, 158-162. *)
Definition flat_clear (x : flat) : flat := with_vecs x [].
Definition flat_get (x : flat) (id : string) : option (list N) := map_get id (fl_vecs x).
Definition flat_size (x : flat) : nat := length (fl_vecs x).

Section Search.
(** f.distFunc, any function. *)
Variable dist : list N -> list N -> float.

Definition flat_better (a b : float * string) : bool := flt (fst a) (fst b).
Definition measured (q : list N) (l : list (string * list N)) : list (float * string) := map (fun p => (dist q (snd p), fst p)) l.

(** Search, flat.go:65-111. [order] is the sequence in which the map is visited. A wrong
    query length gives nil results. *)
Definition flat_search (order : list (string * list N) -> list (string * list N)) (x : flat) (q : list N) (k : Z)
  : outcome (list (float * string)) :=
  if negb (Nat.eqb (length q) (fl_dim x)) then Ok []
  else match fl_vecs x with
       | [] => Ok []
       | _ :: _ =>
           match heap_scan flat_better (Z.to_nat k) (measured (prepare (fl_normalized x) q) (order (fl_vecs x))) [] with
           | Some h => Ok (heap_results flat_better h)
           | None => Panic
           end
       end.

(** partition, flat.go:252-267, on the segment before its last element: the elements not
    above the pivot met so far, the others in the order the swaps leave them. *)
Definition rotate {A} (l : list A) : list A := match l with [] => [] | x :: l' => l' ++ [x] end.
Fixpoint partition (pivot : float) (l le gt : list (float * string)) : list (float * string) * list (float * string) :=
  match l with
  | [] => (le, gt)
  | x :: l' => if fle (fst x) pivot then partition pivot l' (le ++ [x]) (rotate gt) else partition pivot l' le (gt ++ [x])
  end.
(** quickSortResults, flat.go:244-250; the depth is at most the length. The last
    element of the segment is the pivot; the final swap puts it between the two parts. *)
Fixpoint quick_sort (fuel : nat) (l : list (float * string)) : list (float * string) :=
  match fuel with
  | O => l
  | S f =>
      match rev l with
      | [] => []
      | pivot :: before =>
          let (le, gt) := partition (fst pivot) (rev before) [] [] in
          quick_sort f le ++ pivot :: quick_sort f (rotate gt)
      end
  end.
(** RangeSearch, flat.go:114-143. *)
Definition flat_range (order : list (string * list N) -> list (string * list N)) (x : flat) (q : list N) (radius : float)
  : list (float * string) :=
  if negb (Nat.eqb (length q) (fl_dim x)) then []
  else let found := filter (fun p => fle (fst p) radius) (measured (prepare (fl_normalized x) q) (order (fl_vecs x))) in
       quick_sort (length found) found.
End Search.

(** Histories of calls. *)
Inductive fop := FInsert (id : string) (v : list N) | FBatch (ids : list string) (vs : list (list N)) | FDelete (id : string) | FClear.
Definition fstep (x : flat) (o : fop) : flat :=
  match o with
  | FInsert id v => match flat_insert x id v with Ok y => y | _ => x end
  | FBatch ids vs => fst (flat_batch x ids vs)
  | FDelete id => fst (flat_delete x id)
  | FClear => flat_clear x
  end.
Definition frun (x : flat) (ops : list fop) : flat := fold_left fstep ops x.
