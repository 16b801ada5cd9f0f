(** Model of /repo/pkg/index/ivf.go. Vectors are lists of float32 bit patterns. The
    locks are not modelled (calls are sequential), nor Save and Load (gob), nor the
    clustering: Train takes the centroids kMeansIVF returned, which are arbitrary. *)
From Coq Require Import String List NArith ZArith Bool.
From Coq Require Import Floats.SpecFloat.
From Verif Require Import Base Floats64 TopK.
Import ListNotations.

Section Ivf.
(** euclideanDistanceIVF, ivf.go:381-388; any function here, see
    IndexDistModel.euclidean_distance for the actual one. *)
Variable dist : list N -> list N -> float.

(** IVFIndex, ivf.go:15-26. *)
Record ivf := { i_nc : nat; i_dim : nat; i_cents : list (list N); i_inv : list (list nat);
                i_vecs : list (list N); i_ids : list string; i_trained : bool; i_nprobe : Z }.

(** NewIVFIndex, ivf.go:29-38 (nCentroids not negative). *)
Definition new_ivf (dim nc : nat) : ivf :=
  {| i_nc := nc; i_dim := dim; i_cents := []; i_inv := repeat [] nc; i_vecs := []; i_ids := [];
     i_trained := false; i_nprobe := Z.min (Z.of_nat nc) 10 |}.

(** Train, ivf.go:87-107: [cents] is the result of kMeansIVF, which panics when no
    centroid is asked for (centroids[0], ivf.go:287). Vectors and ids are kept. *)
Definition ivf_train (x : ivf) (vectors : list (list N)) (cents : list (list N)) : outcome ivf :=
  if Nat.ltb (length vectors) (i_nc x) then Err EOther
  else if Nat.eqb (i_nc x) 0 then Panic
  else Ok {| i_nc := i_nc x; i_dim := i_dim x; i_cents := cents; i_inv := map (fun _ => []) (i_inv x);
             i_vecs := i_vecs x; i_ids := i_ids x; i_trained := true; i_nprobe := i_nprobe x |}.

(** findNearestCentroid, ivf.go:212-225. *)
Definition nearest_centroid (cents : list (list N)) (v : list N) : nat :=
  snd (argmin_loop (map (dist v) cents) 0 max_float32 0).

Definition push_list (c i : nat) (inv : list (list nat)) : list (list nat) :=
  map (fun p => if Nat.eqb (fst p) c then snd p ++ [i] else snd p) (combine (seq 0 (length inv)) inv).

(** Add, ivf.go:110-134. *)
Definition ivf_add (x : ivf) (id : string) (v : list N) : outcome ivf :=
  if negb (i_trained x) then Err EOther
  else if negb (Nat.eqb (length v) (i_dim x)) then Err EInvalidDim
  else Ok {| i_nc := i_nc x; i_dim := i_dim x; i_cents := i_cents x;
             i_inv := push_list (nearest_centroid (i_cents x) v) (length (i_vecs x)) (i_inv x);
             i_vecs := i_vecs x ++ [v]; i_ids := i_ids x ++ [id]; i_trained := true; i_nprobe := i_nprobe x |}.

(** The loop over one inverted list, ivf.go:171-178; Vectors[vectorIdx] panics when out of range. *)
Fixpoint gather (vecs : list (list N)) (q : list N) (l : list nat) : outcome (list (float * nat)) :=
  match l with
  | [] => Ok []
  | i :: l' => match nth_error vecs i with
               | None => Panic
               | Some v => bind (gather vecs q l') (fun r => Ok ((dist q v, i) :: r))
               end
  end.
(** ids[i] = ivf.IDs[candidates[i].idx], ivf.go:195-198. *)
Fixpoint name_results (ids : list string) (l : list (float * nat)) : outcome (list (float * string)) :=
  match l with
  | [] => Ok []
  | (d, i) :: l' => match nth_error ids i with
                    | None => Panic
                    | Some id => bind (name_results ids l') (fun r => Ok ((d, id) :: r))
                    end
  end.
Definition closer (a b : float * nat) : bool := flt (fst a) (fst b).
Definition centroid_dists (cents : list (list N)) (q : list N) : list (float * nat) :=
  combine (map (dist q) cents) (seq 0 (length cents)).

(** Search, ivf.go:137-202; [srt] is sort.Slice, whatever it does with ties. Answers
    are (distance, id) pairs. A negative k makes make([]string, topK) panic. *)
Definition ivf_search (srt : list (float * nat) -> list (float * nat)) (x : ivf) (q : list N) (k : Z)
  : outcome (list (float * string)) :=
  if negb (i_trained x) then Err EOther
  else if negb (Nat.eqb (length q) (i_dim x)) then Err EInvalidDim
  else
    let nprobe := Z.to_nat (Z.min (i_nprobe x) (Z.of_nat (i_nc x))) in
    let probed := firstn nprobe (srt (centroid_dists (i_cents x) q)) in
    bind (gather (i_vecs x) q (flat_map (fun p => nth (snd p) (i_inv x) []) probed)) (fun cands =>
    if Z.ltb k 0 then Panic
    else name_results (i_ids x) (firstn (Z.to_nat k) (srt cands))).

(** SetNProbe, ivf.go:205-209. *)
Definition ivf_set_nprobe (x : ivf) (n : Z) : ivf :=
  {| i_nc := i_nc x; i_dim := i_dim x; i_cents := i_cents x; i_inv := i_inv x; i_vecs := i_vecs x;
     i_ids := i_ids x; i_trained := i_trained x; i_nprobe := Z.min n (Z.of_nat (i_nc x)) |}.

(** Clear, ivf.go:267-276. *)
Definition ivf_clear (x : ivf) : ivf :=
  {| i_nc := i_nc x; i_dim := i_dim x; i_cents := i_cents x; i_inv := map (fun _ => []) (i_inv x); i_vecs := [];
     i_ids := []; i_trained := i_trained x; i_nprobe := i_nprobe x |}.

Fixpoint index_of (id : string) (l : list string) : option nat :=
  match l with
  | [] => None
  | x :: l' => if String.eqb x id then Some 0 else option_map S (index_of id l')
  end.
Definition remove_at {A} (i : nat) (l : list A) : list A := firstn i l ++ skipn (S i) l.
(** The loop over one inverted list, ivf.go:426-434: it stops at the removed index. *)
Fixpoint renumber (i : nat) (l : list nat) : list nat :=
  match l with
  | [] => []
  | j :: l' => if Nat.eqb j i then l'
               else (if Nat.ltb i j then j - 1 else j) :: renumber i l'
  end.
(** Delete, ivf.go:399-438. *)
Definition ivf_delete (x : ivf) (id : string) : outcome ivf :=
  if negb (i_trained x) then Err EOther
  else match index_of id (i_ids x) with
       | None => Err ENotFound
       | Some i => Ok {| i_nc := i_nc x; i_dim := i_dim x; i_cents := i_cents x; i_inv := map (renumber i) (i_inv x);
                         i_vecs := remove_at i (i_vecs x); i_ids := remove_at i (i_ids x);
                         i_trained := true; i_nprobe := i_nprobe x |}
       end.

(** A history on a trained index; a failing call leaves the index as it was. *)
Inductive iop := IAdd (id : string) (v : list N) | IDelete (id : string) | IClear | ISetProbe (n : Z).
Definition istep (x : ivf) (o : iop) : ivf :=
  match o with
  | IAdd id v => match ivf_add x id v with Ok y => y | _ => x end
  | IDelete id => match ivf_delete x id with Ok y => y | _ => x end
  | IClear => ivf_clear x
  | ISetProbe n => ivf_set_nprobe x n
  end.
Definition irun (x : ivf) (ops : list iop) : ivf := fold_left istep ops x.
End Ivf.
