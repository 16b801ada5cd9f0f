(** Model of /repo/pkg/core/advanced_search.go, second half: SearchWithNegatives,
    SearchWithDiversity with its four methods, RecommendSimilar and FindAnomalies.
    Scores that the Go code keeps as float32 are rounded to float32 here; products and
    differences are rounded one by one (no fused multiply-add). *)
From Coq Require Import String List NArith ZArith Bool Arith.
From Coq Require Import Floats.SpecFloat.
From Verif Require Import Base Floats64 TopK EncodingModel DimensionModel StoreModel SearchModel SqlModel FilterModel.
Import ListNotations.
Open Scope list_scope.

Definition half_f32 : float := f32_div (f32_of_Z 1) (f32_of_Z 2).
Definition one_f32 : float := f32_of_Z 1.
(** The float32 nearest to 0.1. *)
Definition tenth_f32 : float := f32_div (f32_of_Z 1) (f32_of_Z 10).

(** The loops [m := 0; for s { if s > m { m = s } }], advanced_search.go:299-316,
    403-409. *)
Definition max_pos (l : list float) : float := fold_left (fun m x => if fgt x m then x else m) l f_zero.

(** float32(s.similarityFn(a, b)). *)
Definition sim32 (sc : scorer) (a b : list N) : float := f32_of_f64 (sc_sim sc a b).
(** float32(1.0 - s.similarityFn(a, b)), advanced_search.go:448, 611. *)
Definition dist32 (sc : scorer) (a b : list N) : float := f32_of_f64 (f64_sub f_one (sc_sim sc a b)).

(** Score of a candidate, advanced_search.go:294-326. *)
Definition negative_score (sc : scorer) (pos neg : list (list N)) (w : float) (e : embedding) : float :=
  let p := max_pos (map (fun v => sim32 sc v (vec_of e)) pos) in
  let n := max_pos (map (fun v => sim32 sc v (vec_of e)) neg) in
  let w := if feq w f_zero then half_f32 else w in
  f64_of_f32 (f32_sub p (f32_mul w n)).

(** The loop over the remaining candidates: index of the first one whose value
    exceeds all before it and the start value, advanced_search.go:398-418, 530-545;
    reranker.go:352-372. *)
Fixpoint best_index {A} (f : A -> float) (l : list A) (i : nat) (best : float) (idx : option nat) : option nat :=
  match l with
  | [] => idx
  | x :: l' => if fgt (f x) best then best_index f l' (S i) (f x) (Some i) else best_index f l' (S i) best idx
  end.
(** append(l[:i], l[i+1:]...). *)
Definition remove_at {A} (i : nat) (l : list A) : list A := firstn i l ++ skipn (S i) l.

(** MMR score, advanced_search.go:400-412. *)
Definition mmr_score (sc : scorer) (lambda : float) (sel : list scored) (c : scored) : float :=
  let m := max_pos (map (fun s => sim32 sc (vec_of (fst c)) (vec_of (fst s))) sel) in
  f32_sub (f32_mul lambda (f32_of_f64 (snd c))) (f32_mul (f32_sub one_f32 lambda) m).
(** The selection loop, advanced_search.go:394-427; [fuel] bounds the remaining
    candidates. *)
Fixpoint mmr_loop (sc : scorer) (lambda : float) (k : Z) (fuel : nat) (sel rem : list scored) : list scored :=
  match fuel with
  | O => sel
  | S fuel' =>
      if (Z.of_nat (length sel) <? k)%Z && negb (match rem with [] => true | _ => false end)
      then match best_index (mmr_score sc lambda sel) rem 0 (SFopp max_float32) None with
           | Some i => match nth_error rem i with
                       | Some x => mmr_loop sc lambda k fuel' (sel ++ [x]) (remove_at i rem)
                       | None => sel
                       end
           | None => sel
           end
      else sel
  end.
(** diversifyMMR, advanced_search.go:375-430. *)
Definition diversify_mmr (sc : scorer) (lambda : float) (k : Z) (cs : list scored) : list scored :=
  match cs with
  | [] => []
  | c :: rest => mmr_loop sc (if feq lambda f_zero then half_f32 else lambda) k (length rest) [c] rest
  end.

(** diversifyDistance, advanced_search.go:433-464. *)
Definition far_enough (sc : scorer) (mind : float) (sel : list scored) (c : scored) : bool :=
  forallb (fun s => negb (flt (dist32 sc (vec_of (fst c)) (vec_of (fst s))) mind)) sel.
Fixpoint distance_loop (sc : scorer) (mind : float) (k : Z) (cs sel : list scored) : list scored :=
  match cs with
  | [] => sel
  | c :: cs' =>
      if far_enough sc mind sel c
      then if (k <=? Z.of_nat (length (sel ++ [c])))%Z then sel ++ [c] else distance_loop sc mind k cs' (sel ++ [c])
      else distance_loop sc mind k cs' sel
  end.
Definition diversify_distance (sc : scorer) (mind : float) (k : Z) (cs : list scored) : list scored :=
  distance_loop sc (if feq mind f_zero then tenth_f32 else mind) k cs [].

(** diversifyRandom, advanced_search.go:467-493. [perm] is rand.Perm. Overflow of
    TopK*2 is not modelled. *)
Definition diversify_random (srt : list scored -> list scored) (perm : nat -> list nat) (k : Z) (cs : list scored) : outcome (list scored) :=
  if (Z.of_nat (length cs) <=? k)%Z then Ok cs
  else if (k <? 0)%Z then Panic
  else
    let pool := firstn (Nat.min (Z.to_nat k * 2) (length cs)) cs in
    Ok (srt (flat_map (fun i => match nth_error pool i with Some x => [x] | None => [] end)
                      (firstn (Z.to_nat k) (perm (length pool))))).

(** Kernel entry, advanced_search.go:508-519; the same index twice is the diagonal. *)
Definition kernel (sc : scorer) (cs : list scored) (i j : nat) : float :=
  match nth_error cs i, nth_error cs j with
  | Some a, Some b =>
      if Nat.eqb i j then f32_of_f64 (snd a)
      else f32_mul (sim32 sc (vec_of (fst a)) (vec_of (fst b))) (f32_of_f64 (f64_sqrt (f64_mul (snd a) (snd b))))
  | _, _ => f_zero
  end.
(** Marginal gain, advanced_search.go:536-539. [order i sel] is the iteration order of
    the map of selected indices. *)
Definition dpp_gain (sc : scorer) (order : nat -> list nat -> list nat) (cs : list scored) (sel : list nat) (i : nat) : float :=
  fold_left (fun g j => f32_sub g (f32_div (f32_mul (kernel sc cs i j) (kernel sc cs i j)) (kernel sc cs j j)))
            (order i sel) (kernel sc cs i i).
(** The selection loop, advanced_search.go:526-553. *)
Fixpoint dpp_loop (gain : list nat -> nat -> float) (k : Z) (n fuel : nat) (sel : list nat) : list nat :=
  match fuel with
  | O => sel
  | S fuel' =>
      if (Z.of_nat (length sel) <? k)%Z && (length sel <? n)%nat
      then let rem := filter (fun i => negb (existsb (Nat.eqb i) sel)) (seq 0 n) in
           match best_index (gain sel) rem 0 f_zero None with
           | Some p => match nth_error rem p with
                       | Some i => dpp_loop gain k n fuel' (sel ++ [i])
                       | None => sel
                       end
           | None => sel
           end
      else sel
  end.
(** diversifyDPP, advanced_search.go:496-556. *)
Definition diversify_dpp (sc : scorer) (order : nat -> list nat -> list nat) (k : Z) (cs : list scored) : list scored :=
  if (Z.of_nat (length cs) <=? k)%Z then cs
  else
    let n := Nat.min (length cs) 100 in
    flat_map (fun i => match nth_error cs i with Some x => [x] | None => [] end)
             (dpp_loop (dpp_gain sc order cs) k n n []).

(** Options of SearchWithDiversity; any other method string means MMR,
    advanced_search.go:360-371. *)
Inductive dmethod := DMmr | DDistance | DRandom | DDpp.
Record dopts := { d_lambda : float; d_method : dmethod; d_mindist : float; d_opts : sopts }.
Definition with_topk (o : sopts) (k : Z) : sopts :=
  {| o_coll := o_coll o; o_topk := k; o_filter := o_filter o; o_threshold := o_threshold o;
     o_textw := o_textw o; o_qtext := o_qtext o |}.

(** Distances to all others, advanced_search.go:605-614. *)
Fixpoint each_with_others {A} (before l : list A) : list (A * list A) :=
  match l with [] => [] | x :: l' => (x, before ++ l') :: each_with_others (before ++ [x]) l' end.
(** Average of the first [limit] distances, advanced_search.go:622-635. *)
Definition avg_first (limit : nat) (ds : list float) : float :=
  let s := fold_left f32_add (firstn limit ds) f_zero in
  if (0 <? Nat.min limit (length ds))%nat then f32_div s (f32_of_Z (Z.of_nat (Nat.min limit (length ds)))) else s.

Section Diverse.
Variable I : index_ops.
Variable srt : list scored -> list scored.

(** SearchWithNegatives, advanced_search.go:279-339. [w] is a float32. *)
Definition search_with_negatives (sc : scorer) (s : store I) (pos neg : list (list N)) (w : float) (o : sopts) : outcome (list scored) :=
  if st_closed I s then Err EClosed
  else Ok (limit o (srt (map (fun e => (e, negative_score sc pos neg w e)) (fetch_candidates (st_db I s) o)))).

(** RecommendSimilar, advanced_search.go:559-584: ids that cannot be read are skipped. *)
Definition example_vectors (s : store I) (ids : list string) : list (list N) :=
  flat_map (fun id => match get_by_id I s id with Ok e => [vec_of e] | _ => [] end) ids.
Definition recommend_similar (sc : scorer) (s : store I) (pos neg : list string) (o : sopts) : outcome (list scored) :=
  search_with_negatives sc s (example_vectors s pos) (example_vectors s neg) half_f32 o.

(** SearchWithDiversity, advanced_search.go:342-372. Overflow of TopK*3 is not modelled. *)
Definition search_with_diversity (perm : nat -> list nat) (order : nat -> list nat -> list nat)
  (noise : nat -> float) (m : mode) (sc : scorer) (s : store I) (q : option (list N)) (d : dopts) : outcome (list scored) :=
  if st_closed I s then Err EClosed
  else
    let k := o_topk (d_opts d) in
    bind (search I srt noise m sc s q (with_topk (d_opts d) (k * 3))) (fun cs =>
    match d_method d with
    | DMmr => Ok (diversify_mmr sc (d_lambda d) k cs)
    | DDistance => Ok (diversify_distance sc (d_mindist d) k cs)
    | DRandom => diversify_random srt perm k cs
    | DDpp => Ok (diversify_dpp sc order k cs)
    end).

(** FindAnomalies, advanced_search.go:587-650; [dsrt] sorts the distances. *)
Definition anomaly_score (dsrt : list float -> list float) (sc : scorer) (e : embedding) (others : list embedding) : float :=
  f64_of_f32 (avg_first 5 (dsrt (map (fun x => dist32 sc (vec_of e) (vec_of x)) others))).
Definition find_anomalies (dsrt : list float -> list float) (sc : scorer) (s : store I) (o : sopts) : outcome (list scored) :=
  if st_closed I s then Err EClosed
  else Ok (limit o (srt (map (fun p => (fst p, anomaly_score dsrt sc (fst p) (snd p)))
                             (each_with_others [] (fetch_candidates (st_db I s) o))))).
End Diverse.
