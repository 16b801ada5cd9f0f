(** What the theorems on GraphRAG chunking, packing, reranking and search are stated in
    terms of. *)
From Coq Require Import String Ascii List NArith ZArith Bool Permutation Sorted.
From Coq Require Import Floats.SpecFloat.
From Verif Require Import Base Floats64 TopK DiversitySpec RagModel.
Import ListNotations.
Open Scope list_scope.
Open Scope nat_scope.

(** *** Words and chunks *)
(** [ws] are the maximal runs of non-separators of [t], in order. *)
Inductive runs (sep : N -> bool) : list N -> list (list N) -> Prop :=
| runs_none s : (forall r, In r s -> sep r = true) -> runs sep s []
| runs_one s w t ws : (forall r, In r s -> sep r = true) -> w <> [] -> (forall r, In r w -> sep r = false) ->
    (t = [] \/ exists r t', t = r :: t' /\ sep r = true) -> runs sep t ws -> runs sep (s ++ w ++ t) (w :: ws).
(** White space as Unicode (and Go) defines it, and line breaks. *)
Definition white (r : N) : bool :=
  existsb (N.eqb r) [9; 10; 11; 12; 13; 32; 133; 160; 5760; 8192; 8193; 8194; 8195; 8196; 8197; 8198; 8199; 8200; 8201; 8202; 8232; 8233; 8239; 8287; 12288]%N.
Definition line_break (r : N) : bool := existsb (N.eqb r) [10; 13]%N.

(** The chunk size and overlap in force for the given options. *)
Definition chunk_params (size overlap : Z) (n o : nat) : Prop :=
  (size > 0 -> Z.of_nat n = size)%Z /\ (size <= 0 -> Z.of_nat n = 120)%Z /\
  (overlap < 0 -> Z.of_nat o = 0)%Z /\ (0 <= overlap < Z.of_nat n -> Z.of_nat o = overlap)%Z /\
  (Z.of_nat n <= overlap -> Z.of_nat o = Z.of_nat n / 4)%Z.

(** The words [ws] are cut into the chunks [cs]: of at most [n] words, two consecutive
    ones sharing exactly [o] words, all words covered in order. *)
Definition cut (n o : nat) (ws : list (list N)) (cs : list (list (list N))) : Prop :=
  (forall c, In c cs -> 1 <= length c <= n) /\
  (forall i c d, nth_error cs i = Some c -> nth_error cs (S i) = Some d ->
     length c = n /\ o < length d /\ firstn o d = skipn (n - o) c) /\
  ws = match cs with [] => [] | c :: rest => c ++ flat_map (skipn o) rest end.

(** *** Packing *)
Definition or_positive (x d : Z) : Z := if (x <=? 0)%Z then d else x.
(** The limits in force for the given options. *)
Definition topk_limit (o : qopts) : Z := or_positive (q_topk o) 4.
Definition related_limit (o : qopts) : Z := or_positive (q_related o) (topk_limit o).
Definition chunks_limit (o : qopts) : Z := or_positive (q_chunks o) (topk_limit o + related_limit o).
Definition chars_limit (o : qopts) : Z := or_positive (q_chars o) 2400.
Definition doc_limit (o : qopts) : Z := or_positive (q_perdoc o) 2.
Definition lambda_in_force (o : qopts) : float :=
  if flt f_zero (q_lambda o) && fle (q_lambda o) (f64_of_Z 1) then q_lambda o
  else if is_nanb (q_lambda o) then S754_nan else f64_div (f64_of_Z 3) (f64_of_Z 4).

(** What a chunk counts for. *)
Definition weight (c : rchunk) : Z :=
  Z.of_nat (String.length (c_content c) + String.length (c_id c) + String.length (c_doc c) + 8).
Definition total_weight (cs : list rchunk) : Z := fold_right Z.add 0%Z (map weight cs).
Definition of_document (d : string) (cs : list rchunk) : nat := length (filter (fun c => String.eqb (c_doc c) d) cs).

(** A chunk may follow those already taken. *)
Definition admissible (o : qopts) (taken : list rchunk) (c : rchunk) : Prop :=
  (Z.of_nat (length taken) < chunks_limit o)%Z /\
  (c_doc c = EmptyString \/ Z.of_nat (of_document (c_doc c) taken) < doc_limit o)%Z /\
  (taken = [] \/ total_weight taken + weight c <= chars_limit o)%Z.
(** The elements marked true. *)
Definition marked {A} (keep : list bool) (l : list A) : list A := map snd (filter fst (List.combine keep l)).
(** [out] takes every chunk that may follow those taken before it, in order. *)
Definition packed (o : qopts) (cs out : list rchunk) : Prop :=
  exists keep, length keep = length cs /\ out = marked keep cs /\
    forall i c, nth_error cs i = Some c -> (nth_error keep i = Some true <-> admissible o (marked (firstn i keep) (firstn i cs)) c).
(** An order-preserving selection. *)
Inductive subsequence {A} : list A -> list A -> Prop :=
| sub_nil l : subsequence [] l
| sub_take x l' l : subsequence l' l -> subsequence (x :: l') (x :: l)
| sub_skip x l' l : subsequence l' l -> subsequence l' (x :: l).

(** The text handed to a language model: one line per chunk. *)
Fixpoint lines_of (ls : list string) : string :=
  match ls with
  | [] => EmptyString
  | l :: [] => l
  | l :: ls' => (l ++ String (Ascii.ascii_of_nat 10) (lines_of ls'))%string
  end.
Definition chunk_line (c : rchunk) : string :=
  match c_doc c with
  | EmptyString => ("[" ++ c_id c ++ "] " ++ c_content c)%string
  | d => ("[" ++ d ++ "/" ++ c_id c ++ "] " ++ c_content c)%string
  end.

(** *** Reranking *)
Definition same_chunk (a b : rchunk) : Prop :=
  c_id a = c_id b /\ c_doc a = c_doc b /\ c_content a = c_content b /\ c_score a = c_score b /\ c_base a = c_base b /\ c_ents a = c_ents b.
(** The distinct words (of at least two bytes) of a text. *)
Definition distinct_words (tokens : string -> list string) (t : string) (ws : list string) : Prop :=
  NoDup ws /\ forall w, In w ws <-> In w (tokens t) /\ 2 <= String.length w.
(** Shared words of two texts over the larger number of words. *)
Definition word_overlap (tokens : string -> list string) (s t : string) (x : float) : Prop :=
  exists a b both, distinct_words tokens s a /\ distinct_words tokens t b /\ NoDup both /\ (forall w, In w both <-> In w a /\ In w b) /\
    x = match a, b with
        | [], _ | _, [] => f_zero
        | _, _ => f64_div (f64_of_Z (Z.of_nat (length both))) (f64_of_Z (Z.max (Z.of_nat (length a)) (Z.of_nat (length b))))
        end.
(** A score mapped linearly so that the least score becomes 0 and the greatest 1; all
    become 1 when they are (nearly) equal. *)
Definition least_of (xs : list float) (m : float) : Prop := In m xs /\ forall x, In x xs -> flt x m = false.
Definition greatest_of (xs : list float) (m : float) : Prop := In m xs /\ forall x, In x xs -> flt m x = false.
Definition normalised (xs : list float) (x y : float) : Prop :=
  exists lo hi, least_of xs lo /\ greatest_of xs hi /\
    y = if flt (f64_sub hi lo) (f64_div (f64_of_Z 1) (f64_of_Z 1000000000)) then f64_of_Z 1
        else f64_div (f64_sub x lo) (f64_sub hi lo).
(** The combined score of a chunk: 60 % normalised score, 25 % words shared with the
    query, 15 % words shared between the query's names and the chunk's entities. *)
Definition combined (tokens names : string -> list string) (q : string) (cs : list rchunk) (c : rchunk) (x : float) : Prop :=
  exists y t e, normalised (map c_score cs) (c_score c) y /\ word_overlap tokens q (c_content c) t /\
    word_overlap tokens (String.concat " " (names q)) (String.concat " " (c_ents c)) e /\
    x = f64_add (f64_add (f64_mul y (f64_div (f64_of_Z 6) (f64_of_Z 10))) (f64_mul t (f64_div (f64_of_Z 25) (f64_of_Z 100))))
                (f64_mul e (f64_div (f64_of_Z 15) (f64_of_Z 100))).
(** How much a chunk repeats another one: their word overlap, but at least 0.85 when they
    come from the same document. *)
Definition repeats (tokens : string -> list string) (c d : rchunk) (x : float) : Prop :=
  exists s, word_overlap tokens (c_content c) (c_content d) s /\
    ((c_doc c <> EmptyString /\ c_doc c = c_doc d /\ x = (if flt (f64_div (f64_of_Z 85) (f64_of_Z 100)) s then s else f64_div (f64_of_Z 85) (f64_of_Z 100)))
     \/ ((c_doc c = EmptyString \/ c_doc c <> c_doc d) /\ x = s)).
(** lambda * combined score - (1 - lambda) * (how much it repeats a taken chunk at most). *)
Definition marginal (tokens : string -> list string) (lambda : float) (taken : list rchunk) (c : rchunk) (x : float) : Prop :=
  exists reps h, Forall2 (fun d r => repeats tokens c d r) taken reps /\ highest reps h /\
    x = f64_sub (f64_mul lambda (c_rerank c)) (f64_mul (f64_sub (f64_of_Z 1) lambda) h).
(** [out] lists candidates (with their combined scores), as many as [n] allows, each time
    one whose marginal value no remaining candidate exceeds. *)
Definition reranked (tokens names : string -> list string) (lambda : float) (n : nat) (q : string) (cs out : list rchunk) : Prop :=
  exists scored idxs,
    Forall2 (fun c d => same_chunk c d /\ combined tokens names q cs c (c_rerank d)) cs scored /\
    picked scored idxs out /\ length out = Nat.min n (length cs) /\
    forall k i j ci cj, nth_error idxs k = Some i -> nth_error scored i = Some ci -> nth_error scored j = Some cj -> ~ In j (firstn k idxs) ->
      exists vi vj, marginal tokens lambda (firstn k out) ci vi /\ marginal tokens lambda (firstn k out) cj vj /\
        (flt vi vj = false \/ (flt (SFopp max_float64) vj = false /\ i <= j)).

(** *** Search *)
Definition half (x : float) : float := f64_mul x (f64_div (f64_of_Z 1) (f64_of_Z 2)).
Definition alphabetical (l : list string) : Prop := StronglySorted (fun a b => String.ltb b a = false) l.
(** Expanding [s] met the node [n]. *)
Definition meets (nb : string -> option (list gnode)) (s : seed) (n : gnode) : Prop := exists ns, nb (s_id s) = Some ns /\ In n ns.
(** The entities next to a chunk. *)
Definition entities_next (ent : string -> option (list string)) (id : string) (es : list string) : Prop :=
  exists l, ent id = Some l /\ Permutation l es /\ alphabetical es.

(** A seed as a candidate. *)
Definition seed_entry (ents : string -> list string -> Prop) (s : seed) (c : rchunk) : Prop :=
  c_id c = s_id s /\ c_doc c = s_doc s /\ c_content c = s_content s /\ c_score c = s_score s /\ c_base c = s_score s /\ ents (s_id s) (c_ents c).
(** The chunks met from the seeds that are no seeds themselves, each with half the score
    of the best seed it was met from. *)
Definition related_entries (nb : string -> option (list gnode)) (ent : string -> option (list string)) (seeds : list seed) (pool : list rchunk) : Prop :=
  NoDup (map c_id pool) /\
  (forall id, In id (map c_id pool) <->
     ~ In id (map s_id seeds) /\ exists s n, In s seeds /\ meets nb s n /\ n_type n = "chunk"%string /\ n_id n = id) /\
  (forall c, In c pool ->
     (exists s n, In s seeds /\ meets nb s n /\ n_type n = "chunk"%string /\ n_id n = c_id c /\ c_content c = n_content n /\
        c_doc c = match n_doc n with Some d => d | None => EmptyString end) /\
     (exists s n, In s seeds /\ meets nb s n /\ n_type n = "chunk"%string /\ n_id n = c_id c /\ c_score c = half (s_score s)) /\
     (forall s n, In s seeds -> meets nb s n -> n_type n = "chunk"%string -> n_id n = c_id c -> flt (c_score c) (half (s_score s)) = false) /\
     c_base c = c_score c /\ entities_next ent (c_id c) (c_ents c)).
(** The graph is consulted. *)
Definition graph_used (names : string -> list string) (o : qopts) (q : string) : Prop :=
  q_nograph o = false /\ (q_mode o = MGraph \/ (q_mode o = MAuto /\ names q <> [])).
(** From candidates to the packed result. *)
Definition from_candidates (tokens names : string -> list string) (o : qopts) (q : string) (cands out : list rchunk) : Prop :=
  exists ranked, reranked tokens names (lambda_in_force o) (Z.to_nat (chunks_limit o)) q cands ranked /\ packed o ranked out.
