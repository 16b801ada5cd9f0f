(** Model of /repo/pkg/index/lsh.go. Vectors are lists of float32 bit patterns; the random
    projections are arbitrary. A hash table (Go map from hash to a slice of ids) is the list
    of its (hash, id) entries in insertion order, a bucket being the entries with its hash.
    Not modelled: locks, Stats, SetDistanceFunc (dist is arbitrary but fixed), and the fact
    that Insert keeps the caller's slice without copying it. *)
From Coq Require Import String List NArith ZArith Bool.
From Coq Require Import Floats.SpecFloat.
From Verif Require Import Base Floats64 IndexDistModel FlatModel.
Import ListNotations.

Definition projections := list (list N).
Definition table : Type := projections * list (N * string).
(** LSHIndex, lsh.go:19-34. *)
Record lsh := { l_dim : nat; l_tables : list table; l_vecs : list (string * list N) }.

(** NewLSHIndex, lsh.go:55-93: the defaults, and the index for the drawn projections. *)
Definition lsh_tables (n : Z) : Z := if Z.leb n 0 then 10 else n.
Definition lsh_funcs (n : Z) : Z := if Z.leb n 0 then 8 else n.
Definition new_lsh (dim : nat) (projs : list projections) : lsh :=
  {| l_dim := dim; l_tables := map (fun p => (p, [])) projs; l_vecs := [] |}.

(** computeHash, lsh.go:306-324; 1 << i is 0 for i >= 64. *)
Definition positive_side (v p : list N) : bool := flt f_zero (dot32 v p).
Definition bit64 (i : N) : N := if N.ltb i 64 then N.shiftl 1 i else 0%N.
Fixpoint hash_from (i : N) (ps : projections) (v : list N) : N :=
  match ps with
  | [] => 0%N
  | p :: ps' => N.lor (if positive_side v p then bit64 i else 0%N) (hash_from (N.succ i) ps' v)
  end.
Definition compute_hash (ps : projections) (v : list N) : N := hash_from 0 ps v.

(** Insert, lsh.go:96-114. *)
Definition lsh_insert (x : lsh) (id : string) (v : list N) : outcome lsh :=
  if negb (Nat.eqb (length v) (l_dim x)) then Err EInvalidDim
  else Ok {| l_dim := l_dim x; l_tables := map (fun t => (fst t, snd t ++ [(compute_hash (fst t) v, id)])) (l_tables x);
             l_vecs := map_set id v (l_vecs x) |}.

(** Delete, lsh.go:218-249. *)
Definition lsh_delete (x : lsh) (id : string) : lsh * bool :=
  match map_get id (l_vecs x) with
  | None => (x, false)
  | Some v => ({| l_dim := l_dim x;
                  l_tables := map (fun t => (fst t, filter (fun e => negb (N.eqb (fst e) (compute_hash (fst t) v) && String.eqb (snd e) id)) (snd t))) (l_tables x);
                  l_vecs := map_del id (l_vecs x) |}, true)
  end.
(** Clear, lsh.go:252-260. *)
Definition lsh_clear (x : lsh) : lsh := {| l_dim := l_dim x; l_tables := map (fun t => (fst t, [])) (l_tables x); l_vecs := [] |}.

Definition bucket (t : table) (h : N) : list string := map snd (filter (fun e => N.eqb (fst e) h) (snd t)).

Section Search.
Variable dist : list N -> list N -> float.
Definition lsh_closer (a b : float * string) : bool := flt (fst a) (fst b).
(** Scoring and cutting, lsh.go:136-158 and 194-214: [order] is the sequence in which the
    candidate set is visited, [srt] is sort.Slice. results[:k] panics for negative k. *)
Definition score_candidates (x : lsh) (q : list N) (ids : list string) : list (float * string) :=
  flat_map (fun id => match map_get id (l_vecs x) with Some v => [(dist q v, id)] | None => [] end) ids.
Definition lsh_finish (order : list string -> list string) (srt : list (float * string) -> list (float * string))
  (x : lsh) (q : list N) (k : Z) (found : list string) : outcome (list (float * string)) :=
  let results := srt (score_candidates x q (order (nodup string_dec found))) in
  if Z.ltb k 0 then Panic else Ok (firstn (Z.to_nat k) results).

(** Search, lsh.go:117-159. *)
Definition lsh_search order srt (x : lsh) (q : list N) (k : Z) : outcome (list (float * string)) :=
  if negb (Nat.eqb (length q) (l_dim x)) then Err EInvalidDim
  else lsh_finish order srt x q k (flat_map (fun t => bucket t (compute_hash (fst t) q)) (l_tables x)).

(** getProbeHashes, lsh.go:327-365: [srtp] is sort.Slice; the bits of the smallest
    projections are flipped. A negative number of probes makes make panic. *)
Definition flip_closer (a b : float * N) : bool := flt (fst a) (fst b).
Definition flips (ps : projections) (q : list N) : list (float * N) :=
  combine (map (fun p => SFabs (dot32 q p)) ps) (map N.of_nat (seq 0 (length ps))).
Definition probe_hashes (srtp : list (float * N) -> list (float * N)) (ps : projections) (q : list N) (probes : nat) : list N :=
  map (fun f => N.lxor (compute_hash ps q) (bit64 (snd f))) (firstn probes (srtp (flips ps q))).
(** SearchWithMultiProbe, lsh.go:162-215. *)
Definition lsh_multi_probe order srt srtp (x : lsh) (q : list N) (k probes : Z) : outcome (list (float * string)) :=
  if negb (Nat.eqb (length q) (l_dim x)) then Err EInvalidDim
  else if Z.ltb probes 0 && negb (Nat.eqb (length (l_tables x)) 0) then Panic
  else lsh_finish order srt x q k
         (flat_map (fun t => flat_map (bucket t) (probe_hashes srtp (fst t) q (Z.to_nat probes)) ++ bucket t (compute_hash (fst t) q)) (l_tables x)).
End Search.

Inductive lop := LInsert (id : string) (v : list N) | LDelete (id : string) | LClear.
Definition lstep (x : lsh) (o : lop) : lsh :=
  match o with
  | LInsert id v => match lsh_insert x id v with Ok y => y | _ => x end
  | LDelete id => fst (lsh_delete x id)
  | LClear => lsh_clear x
  end.
Definition lrun (x : lsh) (ops : list lop) : lsh := fold_left lstep ops x.
