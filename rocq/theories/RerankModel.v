(** Model of /repo/pkg/core/reranker.go: the built-in rerankers and
    SearchWithReranker. strings.ToLower and strings.Fields are parameters. *)
From Coq Require Import String Ascii List NArith ZArith Bool Arith.
From Coq Require Import Floats.SpecFloat.
From Verif Require Import Base Floats64 TopK EncodingModel DimensionModel SimilarityModel StoreModel SearchModel DiversityModel.
Import ListNotations.
Open Scope string_scope.
Open Scope list_scope.

Record text_ops := { lower : string -> string; fields : string -> list string }.

(** strings.Contains. *)
Fixpoint contains (s t : string) : bool :=
  String.prefix t s || match s with EmptyString => false | String _ s' => contains s' t end.

(** The Reranker interface, reranker.go:13-17: a query text and results. *)
Definition reranker := string -> list scored -> outcome (list scored).

Section Rerankers.
Variable T : text_ops.
Variable srt : list scored -> list scored.

(** Smallest and largest score, reranker.go:128-137. *)
Definition min_score (l : list scored) (x : float) : float := fold_left (fun m r => if flt (snd r) m then snd r else m) l x.
Definition max_score (l : list scored) (x : float) : float := fold_left (fun m r => if fgt (snd r) m then snd r else m) l x.
(** ScoreNormalizationReranker.Rerank, reranker.go:122-160. *)
Definition normalize_scores (lo hi : float) : reranker := fun _ results =>
  match results with
  | [] => Ok []
  | r0 :: _ =>
      let mn := min_score results (snd r0) in
      let mx := max_score results (snd r0) in
      let range := if feq (f64_sub mx mn) f_zero then f_one else f64_sub mx mn in
      Ok (srt (map (fun r => (fst r, f64_add (f64_mul (f64_div (f64_sub (snd r) mn) range) (f64_sub hi lo)) lo)) results))
  end.

(** KeywordMatchReranker.Rerank, reranker.go:179-218. *)
Definition keyword_match (boost : float) (case_sensitive : bool) : reranker := fun query results =>
  let keywords := fields T (if case_sensitive then query else lower T query) in
  Ok (srt (map (fun r =>
    let content := if case_sensitive then e_content (fst r) else lower T (e_content (fst r)) in
    let n := length (filter (contains content) keywords) in
    if (0 <? n)%nat then (fst r, f64_mul (snd r) (f64_add f_one (f64_mul (f64_of_Z (Z.of_nat n)) boost))) else r) results)).

(** Word overlap, reranker.go:251-268: the fraction of query words among the content
    words. *)
Definition word_overlap (query content : string) : float :=
  let qw := fields T (lower T query) in
  let cw := fields T (lower T content) in
  let n := length (filter (fun w => existsb (String.eqb w) cw) qw) in
  if (0 <? length qw)%nat then f64_div (f64_of_Z (Z.of_nat n)) (f64_of_Z (Z.of_nat (length qw))) else f_zero.
(** Position of an index in the text ranking, counted from 1, else the number of
    results, reranker.go:277-297. *)
Fixpoint rank_in (i : nat) (l : list (nat * float)) (n default : nat) : nat :=
  match l with [] => default | (j, _) :: l' => if Nat.eqb j i then n else rank_in i l' (S n) default end.
(** [mapi f n l] is l with every element mapped along with its index. *)
Fixpoint mapi {A B} (f : nat -> A -> B) (n : nat) (l : list A) : list B :=
  match l with [] => [] | x :: l' => f n x :: mapi f (S n) l' end.
(** ReciprocalRankFusionReranker.Rerank, reranker.go:240-310. [tsrt] is the sort of
    the text ranking, the same for every result. *)
Definition rrf_rerank (tsrt : list (nat * float) -> list (nat * float)) (k vw tw : float) : reranker := fun query results =>
  let text_ranked := tsrt (mapi (fun i (r : scored) => (i, word_overlap query (e_content (fst r)))) 0 results) in
  Ok (srt (mapi (fun i (r : scored) =>
    (fst r, f64_add (f64_div vw (f64_add k (f64_of_Z (Z.of_nat (i + 1)))))
                    (f64_div tw (f64_add k (f64_of_Z (Z.of_nat (rank_in i text_ranked 1 (length results)))))))) 0 results)).

(** MMR score of the DiversityReranker, reranker.go:353-366. *)
Definition div_score (sim : list N -> list N -> float) (lambda : float) (qv : list N) (sel : list scored) (c : scored) : float :=
  let m := max_pos (map (fun s => sim (vec_of (fst c)) (vec_of (fst s))) sel) in
  f64_sub (f64_mul lambda (sim qv (vec_of (fst c)))) (f64_mul (f64_sub f_one lambda) m).
(** The loop, reranker.go:347-377: there is always a pick, index 0 by default. *)
Fixpoint div_loop (value : list scored -> scored -> float) (fuel : nat) (sel rem : list scored) : list scored :=
  match fuel with
  | O => sel
  | S fuel' =>
      match rem with
      | [] => sel
      | _ => match best_index (value sel) rem 0 (f64_of_Z (-1)) (Some 0) with
             | Some i => match nth_error rem i with
                         | Some x => div_loop value fuel' (sel ++ [x]) (remove_at i rem)
                         | None => sel
                         end
             | None => sel
             end
      end
  end.
(** DiversityReranker.Rerank, reranker.go:330-380; a nil similarity is cosine. *)
Definition diversity_rerank (sim : option (list N -> list N -> float)) (lambda : float) : reranker := fun _ results =>
  match results with
  | [] | [_] => Ok results
  | r0 :: _ => Ok (div_loop (div_score (match sim with Some f => f | None => cosine end) lambda (vec_of (fst r0)))
                            (length results) [] results)
  end.

(** CustomReranker.Rerank, reranker.go:396-412. *)
Definition custom_rerank (f : option (string -> scored -> float)) : reranker := fun query results =>
  Ok (srt (map (fun r => match f with Some g => (fst r, g query r) | None => r end) results)).

(** scores[k] = x, reranker.go:448; out of range panics. *)
Fixpoint set_nth {A} (k : nat) (x : A) (l : list A) : option (list A) :=
  match l, k with
  | [], _ => None
  | _ :: l', O => Some (x :: l')
  | y :: l', S k' => match set_nth k' x l' with Some l'' => Some (y :: l'') | None => None end
  end.
(** First result with the id, reranker.go:446-451. *)
Fixpoint index_of_id (id : string) (l : list scored) (n : nat) : option nat :=
  match l with [] => None | r :: l' => if String.eqb (e_id (fst r)) id then Some n else index_of_id id l' (S n) end.
(** Scores one reranker gives to the results, reranker.go:443-453. *)
Fixpoint assign_scores (results reranked : list scored) (scores : list float) : outcome (list float) :=
  match reranked with
  | [] => Ok scores
  | r :: rs => match index_of_id (e_id (fst r)) results 0 with
               | None => assign_scores results rs scores
               | Some k => match set_nth k (snd r) scores with
                           | Some scores' => assign_scores results rs scores'
                           | None => Panic
                           end
               end
  end.
Fixpoint all_scores (rs : list reranker) (query : string) (results : list scored) : outcome (list (list float)) :=
  match rs with
  | [] => Ok []
  | r :: rs' => bind (r query results) (fun reranked =>
                bind (assign_scores results reranked (map (fun _ => f_zero) reranked)) (fun sc =>
                bind (all_scores rs' query results) (fun scs => Ok (sc :: scs))))
  end.
(** Weighted sum of the scores of result [i] and sum of the weights,
    reranker.go:461-468; a score list that is too short panics. *)
Fixpoint combine_scores (scs : list (list float)) (ws : list float) (i : nat) (acc total : float) : outcome (float * float) :=
  match scs, ws with
  | sc :: scs', w :: ws' =>
      match nth_error sc i with
      | Some x => combine_scores scs' ws' i (f64_add acc (f64_mul x w)) (f64_add total w)
      | None => Panic
      end
  | _, _ => Ok (acc, total)
  end.
Fixpoint combine_all (scs : list (list float)) (ws : list float) (i : nat) (l : list scored) : outcome (list scored) :=
  match l with
  | [] => Ok []
  | r :: l' =>
      bind (combine_scores scs ws i f_zero f_zero) (fun p =>
      bind (combine_all scs ws (S i) l') (fun out =>
      Ok ((if fgt (snd p) f_zero then (fst r, f64_div (fst p) (snd p)) else r) :: out)))
  end.
(** HybridReranker.Rerank, reranker.go:431-480. *)
Definition hybrid_rerank (rs : list reranker) (ws : list float) : reranker := fun query results =>
  match rs with
  | [] => Ok results
  | _ => bind (all_scores rs query results) (fun scs =>
         bind (combine_all scs ws 0 results) (fun l => Ok (srt l)))
  end.

(** SearchWithReranker, reranker.go:48-103; PreserveOriginalScore is never read.
    Overflow of TopK*5 is not modelled. *)
Record ropts := { r_topk : Z; r_threshold : float; r_preserve : bool }.
Definition plain_opts (k : Z) : sopts :=
  {| o_coll := ""; o_topk := k; o_filter := []; o_threshold := f_zero; o_textw := f_zero; o_qtext := "" |}.
Definition cut (k : Z) (l : list scored) : list scored :=
  if (0 <? k)%Z && (k <? Z.of_nat (length l))%Z then firstn (Z.to_nat k) l else l.
Definition search_with_reranker (I : index_ops) (noise : nat -> float) (m : mode) (sc : scorer) (s : store I)
  (q : option (list N)) (query : string) (r : option reranker) (o : ropts) : outcome (list scored) :=
  if st_closed I s then Err EClosed
  else match r with
  | None => search I srt noise m sc s q (plain_opts (r_topk o))
  | Some rr =>
      bind (search I srt noise m sc s q (plain_opts (Z.max (r_topk o * 5) 50))) (fun initial =>
      match initial with
      | [] => Ok []
      | _ => bind (rr query initial) (fun reranked =>
             let kept := if fgt (r_threshold o) f_zero then filter (fun x => fge (snd x) (r_threshold o)) reranked else reranked in
             Ok (cut (r_topk o) kept))
      end)
  end.
End Rerankers.
