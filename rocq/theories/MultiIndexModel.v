(** Model of /repo/pkg/index/multi_index.go: the combination strategies of MultiIndex over
    arbitrary member indexes, and HybridIndex over the HNSW and IVF models. Iterating over a
    Go map visits it in an arbitrary order, given as a parameter. Not modelled: locks, Stats,
    and Insert with goroutines (config.Parallel). *)
From Coq Require Import String List NArith ZArith Bool.
From Coq Require Import Floats.SpecFloat.
From Verif Require Import Base Floats64 IvfModel HnswModel.
Import ListNotations.

(** The answer of a search: distances and ids. *)
Notation answer := (list (float * string)).
Definition multi_closer (a b : float * string) : bool := flt (fst a) (fst b).

Section Multi.
(** VectorIndex, multi_index.go:61-66: a member with its search, delete and insert. *)
Variable M : Type.
Variable m_search : M -> list N -> Z -> outcome answer.
Variable m_delete : M -> string -> option M.
Variable m_insert : M -> string -> list N -> option M.

(** MultiIndex and its configuration, multi_index.go:20-33. *)
Inductive strategy := PrimaryOnly | MergeAll | Rerank | Voting.
Record multi := { mi_members : list (string * M); mi_primary : string; mi_secondary : list string;
                  mi_strategy : strategy; mi_rerank : Z }.

Definition member (x : multi) (t : string) : option M := option_map snd (find (fun p => String.eqb (fst p) t) (mi_members x)).

(** Asking members one after the other. *)
Fixpoint ask (ms : list M) (q : list N) (k : Z) : outcome (list answer) :=
  match ms with
  | [] => Ok []
  | m :: ms' => bind (m_search m q k) (fun a => bind (ask ms' q k) (fun r => Ok (a :: r)))
  end.

(** if limit > len(results) { limit = len(results) }; make([]string, limit). *)
Definition top {A} (k : Z) (l : list A) : outcome (list A) := if Z.ltb k 0 then Panic else Ok (firstn (Z.to_nat k) l).

(** searchPrimaryOnly, multi_index.go:143-149. *)
Definition search_primary (x : multi) (q : list N) (k : Z) : outcome answer :=
  match member x (mi_primary x) with None => Ok [] | Some m => m_search m q k end.

(** The update of resultMap, multi_index.go:161-168. *)
Definition keep_best (acc : answer) (r : float * string) : answer :=
  match find (fun e => String.eqb (snd e) (snd r)) acc with
  | None => acc ++ [r]
  | Some e => if flt (fst r) (fst e)
              then map (fun e => if String.eqb (snd e) (snd r) then r else e) acc else acc
  end.
(** searchMergeAll, multi_index.go:152-194: [omem] and [ores] visit the two maps. *)
Definition search_merge (omem : list (string * M) -> list (string * M)) (ores srt : answer -> answer)
  (x : multi) (q : list N) (k : Z) : outcome answer :=
  bind (ask (map snd (omem (mi_members x))) q k) (fun answers =>
  top k (srt (ores (fold_left keep_best (concat answers) [])))).

(** searchWithRerank, multi_index.go:197-266: scores summed over the secondary answers. *)
Definition add_vote (acc : list (string * (float * nat))) (r : float * string) : list (string * (float * nat)) :=
  map (fun e => if String.eqb (fst e) (snd r) then (fst e, (f32_add (fst (snd e)) (fst r), S (snd (snd e)))) else e) acc.
Definition average (e : string * (float * nat)) : float * string :=
  (match snd (snd e) with O => fst (snd e) | n => f32_div (fst (snd e)) (f32_of_Z (Z.of_nat n)) end, fst e).
Definition search_rerank (ores : list (string * (float * nat)) -> list (string * (float * nat))) (srt : answer -> answer)
  (x : multi) (q : list N) (k : Z) : outcome answer :=
  match member x (mi_primary x) with
  | None => Ok []
  | Some p =>
      let ck := if Z.ltb 0 (mi_rerank x) then mi_rerank x else (k * 2)%Z in
      bind (m_search p q ck) (fun cands =>
      match cands with
      | [] => Ok []
      | _ =>
        let start := map (fun id => (id, (f_zero, O))) (nodup string_dec (map snd cands)) in
        bind (ask (flat_map (fun t => match member x t with Some m => [m] | None => [] end) (mi_secondary x)) q ck) (fun answers =>
        top k (srt (map average (ores (fold_left add_vote (concat answers) start)))))
      end)
  end.

(** searchWithVoting, multi_index.go:269-332. The third component counts the votes. *)
Definition cast_vote (acc : list (string * (float * nat))) (r : float * string) : list (string * (float * nat)) :=
  if existsb (fun e => String.eqb (fst e) (snd r)) acc then add_vote acc r else acc ++ [(snd r, (fst r, 1))].
Definition f32_tenth : float := f32_div (f32_of_Z 1) (f32_of_Z 10).
Definition vote_score (e : string * (float * nat)) : string * (float * nat) :=
  let n := f32_of_Z (Z.of_nat (snd (snd e))) in
  (fst e, (f32_sub (f32_div (fst (snd e)) n) (f32_mul n f32_tenth), snd (snd e))).
Definition more_votes (a b : string * (float * nat)) : bool :=
  if Nat.eqb (snd (snd a)) (snd (snd b)) then flt (fst (snd a)) (fst (snd b)) else Nat.ltb (snd (snd b)) (snd (snd a)).
Definition search_voting (omem : list (string * M) -> list (string * M)) (ores srt : list (string * (float * nat)) -> list (string * (float * nat)))
  (x : multi) (q : list N) (k : Z) : outcome answer :=
  bind (ask (map snd (omem (mi_members x))) q (k * 2)) (fun answers =>
  bind (top k (srt (map vote_score (ores (fold_left cast_vote (concat answers) []))))) (fun vs =>
  Ok (map (fun e => (fst (snd e), fst e)) vs))).

(** Search, multi_index.go:124-140. *)
Definition multi_search omem ores srt ovotes svotes (x : multi) (q : list N) (k : Z) : outcome answer :=
  match mi_strategy x with
  | PrimaryOnly => search_primary x q k
  | MergeAll => search_merge omem ores srt x q k
  | Rerank => search_rerank ovotes srt x q k
  | Voting => search_voting omem ovotes svotes x q k
  end.

(** Delete, multi_index.go:335-345, and Insert without goroutines, 115-121: one member after
    the other, stopping at the first error. [visit] lists the member names. *)
Definition set_member (x : multi) (t : string) (m : M) : multi :=
  {| mi_members := map (fun p => if String.eqb (fst p) t then (t, m) else p) (mi_members x); mi_primary := mi_primary x;
     mi_secondary := mi_secondary x; mi_strategy := mi_strategy x; mi_rerank := mi_rerank x |}.
Fixpoint multi_delete (x : multi) (visit : list string) (id : string) : multi * bool :=
  match visit with
  | [] => (x, true)
  | t :: visit' =>
      match member x t with
      | None => multi_delete x visit' id
      | Some m => match m_delete m id with
                  | None => (x, false)
                  | Some m' => multi_delete (set_member x t m') visit' id
                  end
      end
  end.
Fixpoint multi_insert (x : multi) (visit : list string) (id : string) (v : list N) : multi * bool :=
  match visit with
  | [] => (x, true)
  | t :: visit' =>
      match member x t with
      | None => multi_insert x visit' id v
      | Some m => match m_insert m id v with
                  | None => (x, false)
                  | Some m' => multi_insert (set_member x t m') visit' id v
                  end
      end
  end.
End Multi.

(** HybridIndex, multi_index.go:379-394 (alpha is never used). *)
Section Hybrid.
Variable dist : list N -> list N -> float.
Variable srt : list (float * nat) -> list (float * nat).
Variable srtr : answer -> answer.
Record hybrid := { hy_h : hnsw (list N); hy_i : ivf }.
Definition new_hybrid (dim m nc : nat) : hybrid := {| hy_h := new_hnsw m 200; hy_i := new_ivf dim nc |}.
Definition hy_train (x : hybrid) (vectors cents : list (list N)) : outcome hybrid :=
  bind (ivf_train (hy_i x) vectors cents) (fun i => Ok {| hy_h := hy_h x; hy_i := i |}).
(** Insert, multi_index.go:402-410: when the IVF part refuses, the HNSW part keeps the
    vector. HNSW stores the slice as it is. *)
Definition hy_insert (x : hybrid) (id : string) (v : list N) (lvl : nat) : hybrid * bool :=
  match hnsw_insert dist (fun v => v) (hy_h x) id v lvl with
  | Ok h => match ivf_add dist (hy_i x) id v with
            | Ok i => ({| hy_h := h; hy_i := i |}, true)
            | _ => ({| hy_h := h; hy_i := hy_i x |}, false)
            end
  | _ => (x, false)
  end.
(** The loop of multi_index.go:437-449. *)
Definition add_hnsw (ns : nodes (list N)) (q : list N) (k : Z) (seen : list string) (acc : answer) (id : string) : answer :=
  if negb (existsb (String.eqb id) seen) && Z.ltb (Z.of_nat (length acc)) k
  then match get ns id with Some n => acc ++ [(dist q (n_vec n), id)] | None => acc end
  else acc.
(** Search, multi_index.go:413-471; a failing IVF search gives no IVF results. *)
Definition hy_search (x : hybrid) (q : list N) (k : Z) : outcome answer :=
  bind (hnsw_search dist (hy_h x) q (k * 2) 50) (fun hs =>
  bind (match ivf_search dist srt (hy_i x) q k with Err _ => Ok [] | r => r end) (fun is_ =>
  top k (srtr (fold_left (add_hnsw (h_nodes (hy_h x)) q k (map snd is_)) (map snd hs) is_)))).
(** Delete, multi_index.go:474-484: the IVF part is left alone. *)
Definition hy_delete (x : hybrid) (id : string) (choice : nat) : hybrid :=
  match hnsw_delete (hy_h x) id choice with
  | Ok h => {| hy_h := h; hy_i := hy_i x |}
  | _ => x
  end.
End Hybrid.
