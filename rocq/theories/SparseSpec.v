(** What the theorems about sparse encoders and routers are stated in terms of. *)
From Coq Require Import String List NArith ZArith Bool Permutation.
From Verif Require Import Base Floats64 StoreModel RouterModel SparseModel.
Import ListNotations.
Open Scope string_scope.
Open Scope list_scope.

Section Text.
Variables (lower : string -> string) (fields : string -> list string).
(** The terms of a text: its lower-case words of more than one byte that are no stop
    words; [times] counts one of them, [size] all. *)
Definition term_of (t text : string) : Prop :=
  In t (fields (lower text)) /\ ~ In t stop_words /\ (1 < String.length t)%nat.
Definition times (t text : string) : nat := count_occ string_dec (fields (lower text)) t.
Definition size (text : string) (n : nat) : Prop :=
  exists words skipped, Permutation (fields (lower text)) (words ++ skipped) /\ length words = n /\
    (forall t, In t words -> term_of t text) /\ (forall t, In t skipped -> ~ term_of t text).
(** [n] of the documents contain the term. *)
Definition documents_with (t : string) (docs : list string) (n : nat) : Prop :=
  exists l r, Permutation docs (l ++ r) /\ length l = n /\ (forall d, In d l -> term_of t d) /\ (forall d, In d r -> ~ term_of t d).
End Text.

(** A map seen in one of its iteration orders. *)
Definition same_map (a b : weights) : Prop := Permutation a b.

(** The cosine of two term vectors, 0 when one of them has no length. *)
Definition total (l : list float) : float := fold_left f64_add l f_zero.
Definition sparse_cosine (a b : weights) (x : float) : Prop :=
  let dot := total (map (fun p => f64_mul (snd p) (match assoc (fst p) b with Some y => y | None => f_zero end)) a) in
  let na := total (map (fun p => f64_mul (snd p) (snd p)) a) in
  let nb := total (map (fun p => f64_mul (snd p) (snd p)) b) in
  (feq na f_zero = true \/ feq nb f_zero = true -> x = f_zero) /\
  (feq na f_zero = false -> feq nb f_zero = false -> x = f64_div dot (f64_mul (f64_sqrt na) (f64_sqrt nb))).

(** The routes with the scores of their utterances: every score is the similarity of the
    query and the utterance, summed in some order of the terms. *)
Definition score_of (encode : string -> weights) (q u : string) (x : float) : Prop :=
  exists a b, same_map (encode q) a /\ same_map (encode u) b /\ sparse_cosine a b x.
Definition scored_routes (encode : string -> weights) (q : string) (cur : list route) (table : list (route * list float)) : Prop :=
  Forall2 (fun r e => fst e = r /\ Forall2 (score_of encode q) (rt_utts r) (snd e)) cur table.

(** The first route with the highest positive score. *)
Definition best_answer (table : list (route * list float)) (thr : float) (a : answer) : Prop :=
  ((forall r xs x, In (r, xs) table -> In x xs -> fgt x f_zero = false) ->
     an_name a = "" /\ an_score a = f_zero /\ an_matched a = false /\ an_handler a = None) /\
  ((exists r xs x, In (r, xs) table /\ In x xs /\ fgt x f_zero = true) ->
     exists before r xs after, table = before ++ (r, xs) :: after /\
       an_name a = rt_name r /\ an_handler a = rt_handler r /\ In (an_score a) xs /\ fgt (an_score a) f_zero = true /\
       (forall r' ys y, In (r', ys) table -> In y ys -> fgt y (an_score a) = false) /\
       (forall r' ys y, In (r', ys) before -> In y ys -> fge y (an_score a) = false) /\
       (an_matched a = true <-> fge (an_score a) thr = true)).
