(** Model of /repo/pkg/cortexdb/graphrag_tools.go: the queries planned for a lexical
    search, the search over them, and the word-count vectors used without an embedder.
    strings.ToLower, unicode.IsLetter/IsDigit, the hash, the full-text search of one
    query and sort.Slice are parameters. Texts are lists of runes as in RagModel. *)
From Coq Require Import String Ascii List NArith ZArith Bool Arith.
From Coq Require Import Floats.SpecFloat.
From Verif Require Import Base Floats64 StoreModel RagModel.
Import ListNotations.
Open Scope list_scope.
Open Scope nat_scope.

Definition text_eqb (a b : text) : bool := if list_eq_dec N.eq_dec a b then true else false.
Definition is_one_of (l : list text) (t : text) : bool := existsb (text_eqb t) l.
Definition is_blank (t : text) : bool := match t with [] => true | _ => false end.
(** The length of a rune in UTF-8, and of a text in bytes. *)
Definition rune_len (r : N) : nat := if (r <? 128)%N then 1 else if (r <? 2048)%N then 2 else if (r <? 65536)%N then 3 else 4.
Definition byte_len (t : text) : nat := list_sum (map rune_len t).

(** The cut set of normalizeToolToken, graphrag_tools.go:1273-1275. *)
Definition cut_rune (r : N) : bool :=
  existsb (N.eqb r) (map N.of_nat [32; 9; 13; 10; 46; 44; 33; 63; 59; 58; 34; 39; 40; 41; 91; 93; 123; 125; 60; 62]).
Fixpoint drop_cut (t : text) : text :=
  match t with [] => [] | r :: t' => if cut_rune r then drop_cut t' else t end.
(** normalizeToolToken, graphrag_tools.go:1273-1275. *)
Definition normal_token (t : text) : text := rev (drop_cut (rev (drop_cut t))).

(** lexicalQueryStopwords, graphrag_tools.go:1374-1381. *)
Definition stopwords : list text := map ascii_text
  ["a"; "an"; "and"; "are"; "as"; "at"; "be"; "by"; "does"; "for"; "from"; "how"; "in"; "into"; "is"; "it";
   "of"; "on"; "or"; "that"; "the"; "their"; "there"; "these"; "this"; "to"; "was"; "were"; "what"; "when"; "where"; "which";
   "who"; "why"; "with"]%string.

(** strings.Join(l, " OR "). *)
Fixpoint join_or (l : list text) : text :=
  match l with
  | [] => []
  | t :: [] => t
  | t :: l' => t ++ ascii_text " OR " ++ join_or l'
  end.
(** isASCIIAlphaNum, graphrag_tools.go:1383-1390. *)
Definition ascii_alnum (t : text) : bool :=
  forallb (fun r => ((97 <=? r) && (r <=? 122) || (48 <=? r) && (r <=? 57))%N) t && negb (is_blank t).
(** formatFTSKeywords, graphrag_tools.go:1359-1372. *)
Definition format_keywords (prefix : bool) (ks : list text) : list text :=
  flat_map (fun k => if is_blank k then []
                     else [if prefix && ascii_alnum k && (2 <? byte_len k) then k ++ ascii_text "*" else k]) ks.
(** mergeLexicalKeywords, graphrag_tools.go:1341-1357. *)
Fixpoint merge_loop (ks seen : list text) : list text :=
  match ks with
  | [] => []
  | k :: ks' => if is_blank k || is_one_of seen k then merge_loop ks' seen else k :: merge_loop ks' (k :: seen)
  end.
Definition merge_keywords (groups : list (list text)) : list text := merge_loop (concat groups) [].
(** addQuery, graphrag_tools.go:1283-1293, over the candidates in order. *)
Fixpoint add_queries (cands seen : list text) : list text :=
  match cands with
  | [] => []
  | c :: cands' => let c := trim_space c in
                   if is_blank c || is_one_of seen c then add_queries cands' seen else c :: add_queries cands' (c :: seen)
  end.

Section Plan.
Variables (lower : text -> text) (letter_or_digit : N -> bool).
(** The loop of lexicalQueryKeywords, graphrag_tools.go:1324-1337. *)
Fixpoint keyword_loop (tokens seen : list text) : list text :=
  match tokens with
  | [] => []
  | t :: tokens' =>
      let t := normal_token t in
      if is_blank t || (byte_len t <? 2) then keyword_loop tokens' seen
      else if is_one_of stopwords t then keyword_loop tokens' seen
      else if is_one_of seen t then keyword_loop tokens' seen
      else t :: keyword_loop tokens' (t :: seen)
  end.
(** lexicalQueryKeywords, graphrag_tools.go:1318-1339. *)
Definition keywords_of (q : text) : list text :=
  keyword_loop (fields_func (fun r => negb (letter_or_digit r)) [] (lower q)) [].
(** lexicalSearchQueries, graphrag_tools.go:1278-1316. *)
Definition plan_queries (q : text) (keywords alternates : list text) : list text :=
  let trimmed := trim_space q in
  let planned := keywords_of (join_words keywords) in
  let auto := keywords_of trimmed in
  let all := merge_keywords [planned; auto] in
  add_queries ((if is_blank trimmed then [] else [trimmed]) ++ alternates
               ++ (match auto with [] => [] | _ => [join_or auto] end)
               ++ (match all with [] => [] | _ => [join_or (format_keywords false all); join_or (format_keywords true all)] end)) [].
End Plan.

(** *** The search over the planned queries. *)
(** A hit: the id of a chunk and its score. The rest of the embedding is read again. *)
Definition thit := (string * float)%type.
(** merged[result.ID], graphrag_tools.go:823-828. *)
Fixpoint merge_thit (m : list thit) (h : thit) : list thit :=
  match m with
  | [] => [h]
  | x :: m' => if String.eqb (fst x) (fst h) then (if fgt (snd h) (snd x) then h :: m' else x :: m') else x :: merge_thit m' h
  end.
(** The weight of the idx-th query, graphrag_tools.go:819-822. *)
Definition plan_weight (idx : nat) : float :=
  let w := f64_sub (f64_of_Z 1) (f64_mul (f64_of_Z (Z.of_nat idx)) (f64_div (f64_of_Z 5) (f64_of_Z 100))) in
  if flt w (f64_div (f64_of_Z 8) (f64_of_Z 10)) then f64_div (f64_of_Z 8) (f64_of_Z 10) else w.
Section Search.
(** [ask q]: SearchTextOnly, cortexdb.go:414-442, with the options of the request. *)
Variable ask : text -> option (list thit).
(** The loop over the queries, graphrag_tools.go:802-833. *)
Fixpoint query_loop (k : Z) (idx : nat) (qs : list text) (m : list thit) (failed : bool) : list thit * bool :=
  match qs with
  | [] => (m, failed)
  | q :: qs' =>
      match ask q with
      | None => query_loop k (S idx) qs' m true
      | Some [] => query_loop k (S idx) qs' m failed
      | Some rs =>
          let m' := fold_left (fun m r => merge_thit m (fst r, f64_mul (snd r) (plan_weight idx))) rs m in
          if (idx =? 0) && (k <=? Z.of_nat (length m'))%Z then (m', failed) else query_loop k (S idx) qs' m' failed
      end
  end.
(** The comparison of sort.Slice, graphrag_tools.go:843-848. *)
Definition by_thit (a b : thit) : bool :=
  if feq (snd a) (snd b) then String.ltb (fst a) (fst b) else fgt (snd a) (snd b).
(** searchTextCandidates, graphrag_tools.go:788-850, from the planned queries; [ord] is the
    order of the map. A negative TopK is a slice bound out of range. *)
Definition search_candidates (ord srt : list thit -> list thit) (k : Z) (qs : list text) : outcome (list thit) :=
  match qs with
  | [] => Err EEmptyQuery
  | _ => let (m, failed) := query_loop k 0 qs [] false in
         match m with
         | [] => if failed then Err EOther else Ok []
         | _ => let l := srt (ord m) in
                if (k <? Z.of_nat (length l))%Z then (if (k <? 0)%Z then Panic else Ok (firstn (Z.to_nat k) l)) else Ok l
         end
  end.
End Search.

(** *** Vectors from words. *)
Section Vector.
Variables (lower : text -> text) (hash : text -> N).
(** vector[index] += 1, graphrag_tools.go:1202. *)
Fixpoint bump (i : nat) (v : list float) : list float :=
  match v, i with
  | [], _ => []
  | x :: v', O => f32_add x (f32_of_Z 1) :: v'
  | x :: v', S i' => x :: bump i' v'
  end.
(** isAllZero, graphrag_tools.go:1392-1399. *)
Definition all_zero (v : list float) : bool := forallb (fun x => feq x f_zero) v.
(** lexicalVectorForText, graphrag_tools.go:1189-1208; defaultLexicalVectorDim is 64. *)
Definition lexical_vector (t : text) (dim : Z) : list float :=
  let d := if (dim <=? 0)%Z then 64 else Z.to_nat dim in
  let v := fold_left (fun v w => let w := normal_token w in
                                 if is_blank w then v else bump (N.to_nat (N.modulo (hash w) (N.of_nat d))) v)
             (fields_func is_space [] (lower t)) (repeat f_zero d) in
  if all_zero v then match v with [] => [] | _ :: v' => f32_of_Z 1 :: v' end else v.
End Vector.
