(** What the theorems on rerankers are stated in terms of. *)
From Coq Require Import String List NArith ZArith Bool Permutation.
From Verif Require Import Base Floats64 TopK DimensionModel StoreModel SearchModel SearchSpec DiversityModel DiversitySpec RerankModel.
Import ListNotations.

(** [out] is [results] with every score replaced by [f], best first when all the new
    scores are numbers. *)
Definition rescored (f : scored -> float) (results out : list scored) : Prop :=
  Permutation (map (fun r => (fst r, f r)) results) out /\
  ((forall r, In r results -> not_nan (f r)) -> best_first out).

(** The least and the greatest of the scores. *)
Definition least_score (results : list scored) (m : float) : Prop :=
  In m (map snd results) /\ forall r, In r results -> flt (snd r) m = false.
Definition greatest_score (results : list scored) (m : float) : Prop :=
  In m (map snd results) /\ forall r, In r results -> flt m (snd r) = false.

(** How many of the keywords occur in the text. *)
Definition occurs (k t : string) : Prop := exists a b, t = append a (append k b).
Definition count_of {A} (P : A -> Prop) (l : list A) (n : nat) : Prop :=
  exists l', length l' = n /\ (exists p, l' = filter p l /\ forall x, In x l -> (p x = true <-> P x)).

(** [rank] gives the results different ranks 1, 2, ..., higher values first (when they
    are all numbers). *)
Definition ranking (n : nat) (value : nat -> float) (rank : nat -> nat) : Prop :=
  Permutation (seq 1 n) (map rank (seq 0 n)) /\
  ((forall i, i < n -> not_nan (value i)) -> forall i j, i < n -> j < n -> rank i < rank j -> flt (value i) (value j) = false).

(** The built-in rerankers with their configurations. *)
Inductive builtin :=
| BNormalize (lo hi : float)
| BKeyword (boost : float) (case_sensitive : bool)
| BRrf (k vw tw : float)
| BDiversity (sim : option (list N -> list N -> float)) (lambda : float)
| BCustom (f : option (string -> scored -> float))
| BHybrid (parts : list builtin) (weights : list float).
Fixpoint rerank_with (T : text_ops) (srt : list scored -> list scored) (tsrt : list (nat * float) -> list (nat * float)) (b : builtin) : reranker :=
  match b with
  | BNormalize lo hi => normalize_scores srt lo hi
  | BKeyword boost cs => keyword_match T srt boost cs
  | BRrf k vw tw => rrf_rerank T srt tsrt k vw tw
  | BDiversity sim lambda => diversity_rerank sim lambda
  | BCustom f => custom_rerank srt f
  | BHybrid bs ws => hybrid_rerank srt (map (rerank_with T srt tsrt) bs) ws
  end.

(** Weighted mean of [xs] (as many as there are weights), or [x0] when the weights do
    not add up to something positive. *)
Definition weighted_mean (xs ws : list float) (x0 : float) : float :=
  let total := fold_left f64_add (map snd (combine xs ws)) f_zero in
  if fgt total f_zero
  then f64_div (fold_left f64_add (map (fun p => f64_mul (fst p) (snd p)) (combine xs ws)) f_zero) total else x0.

(** lambda * (similarity to the first result) - (1 - lambda) * (highest similarity to a
    result already taken). *)
Definition mmr_value (sim : list N -> list N -> float) (lambda : float) (first : embedding) (taken : list scored) (c : scored) (x : float) : Prop :=
  exists h, highest (map (fun t => sim (vec_of (fst c)) (vec_of (fst t))) taken) h /\
    x = f64_sub (f64_mul lambda (sim (vec_of first) (vec_of (fst c)))) (f64_mul (f64_sub (f64_of_Z 1) lambda) h).

(** The fraction of the query's words that occur among the content's words. *)
Definition overlap (T : text_ops) (query content : string) (x : float) : Prop :=
  (fields T (lower T query) = [] /\ x = f_zero) \/
  (fields T (lower T query) <> [] /\ exists n,
     count_of (fun w => In w (fields T (lower T content))) (fields T (lower T query)) n /\
     x = f64_div (f64_of_Z (Z.of_nat n)) (f64_of_Z (Z.of_nat (length (fields T (lower T query)))))).
