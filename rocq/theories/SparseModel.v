(** Model of /repo/pkg/semantic-router/sparse.go, hybrid.go and the routing part of
    schema.go: sparse encoders, the sparse, hybrid and function routers.

    strings.ToLower, strings.Fields, math.Log and regular expressions are parameters.
    A map[string]float64 is an association list with distinct keys; iteration orders
    are explicit. No fused multiply-add. *)
From Coq Require Import String Ascii List NArith ZArith Bool.
From Coq Require Import Floats.SpecFloat.
From Verif Require Import Base Floats64 StoreModel SearchModel RouterModel.
Import ListNotations.
Open Scope string_scope.
Open Scope list_scope.

Definition weights := list (string * float).

(** b[term]: a missing key reads as 0. *)
Definition weight_of (t : string) (w : weights) : float := match assoc t w with Some x => x | None => f_zero end.

(** SparseSimilarity, sparse.go:32-55: [a] and [b] in the order the loops meet them. *)
Definition sparse_sim (a b : weights) : float :=
  match a, b with
  | [], _ | _, [] => f_zero
  | _, _ =>
      let dot := fold_left (fun s x => f64_add s (f64_mul (snd x) (weight_of (fst x) b))) a f_zero in
      let na := fold_left (fun s x => f64_add s (f64_mul (snd x) (snd x))) a f_zero in
      let nb := fold_left (fun s x => f64_add s (f64_mul (snd x) (snd x))) b f_zero in
      if feq na f_zero || feq nb f_zero then f_zero
      else f64_div dot (f64_mul (f64_sqrt na) (f64_sqrt nb))
  end.

(** The stop words of tokenize, sparse.go:64-73. The Chinese ones are kept as their
    UTF-8 bytes. *)
Definition bytes (l : list nat) : string := fold_right (fun n s => String (ascii_of_nat n) s) "" l.
Definition stop_words : list string :=
  ["a"; "an"; "the"; "and"; "or"; "but"; "in"; "on"; "at"; "to"; "for"; "of"; "with"; "by"; "is"; "are"; "was"; "were";
   "be"; "been"; "this"; "that"; "these"; "those"] ++
  map bytes [[230;136;145]; [228;189;160]; [228;187;150]; [229;165;185]; [229;174;131]; [231;154;132]; [228;186;134];
             [230;152;175]; [229;156;168]; [230;156;137]; [229;146;140]; [228;184;142]; [230;136;150]; [228;189;134]; [228;184;141]].

Section Text.
Variables (lower : string -> string) (fields : string -> list string).

(** tokenize, sparse.go:58-83: len counts bytes. *)
Definition tokenize (t : string) : list string :=
  filter (fun w => negb (mem w stop_words) && Nat.ltb 1 (String.length w)) (fields (lower t)).

(** termFreq[term]++, sparse.go:203-206. *)
Fixpoint count_in (t : string) (m : list (string * Z)) : list (string * Z) :=
  match m with
  | [] => [(t, 1%Z)]
  | (k, n) :: m' => if String.eqb k t then (k, (n + 1)%Z) :: m' else (k, n) :: count_in t m'
  end.
Definition term_freq (ts : list string) : list (string * Z) := fold_left (fun m t => count_in t m) ts [].

(** The vocabulary loop, sparse.go:157-168. *)
Definition add_term (voc : list string) (t : string) : list string := if mem t voc then voc else voc ++ [t].

(** termDocCount: for every term the number of documents it occurs in, sparse.go:140-155. *)
Definition distinct (ts : list string) : list string := fold_left add_term ts [].
Definition doc_counts (docs : list (list string)) : list (string * Z) :=
  fold_left (fun m ts => fold_left (fun m t => count_in t m) (distinct ts) m) docs [].

Variable log : float -> float.

(** BM25Encoder, sparse.go:87-108. *)
Record bm25 := {
  b_idf : weights; b_df : list (string * Z); b_total : Z; b_k1 : float; b_b : float; b_avg : float; b_voc : list string }.
(** NewBM25EncoderWithParams, sparse.go:122-130. *)
Definition new_bm25 (k1 b : float) : bm25 :=
  {| b_idf := []; b_df := []; b_total := 0; b_k1 := k1; b_b := b; b_avg := f_zero; b_voc := [] |}.
Definition f_half : float := f64_div (f64_of_Z 1) (f64_of_Z 2).

(** e.idf[term] = x *)
Definition set_weight (w : weights) (t : string) (x : float) : weights :=
  (t, x) :: filter (fun p => negb (String.eqb (fst p) t)) w.

(** Fit, sparse.go:134-186. [totalLen] is exact as long as it stays below 2^53. *)
Definition bm25_idf (total df : Z) : float :=
  log (f64_add (f64_div (f64_add (f64_sub (f64_of_Z total) (f64_of_Z df)) f_half) (f64_add (f64_of_Z df) f_half)) (f64_of_Z 1)).
Definition bm25_fit (e : bm25) (docs : list string) : bm25 :=
  let ts := map tokenize docs in
  let n := Z.of_nat (length docs) in
  let counts := doc_counts ts in
  let len := fold_left (fun s t => f64_add s (f64_of_Z (Z.of_nat (length t)))) ts f_zero in
  {| b_idf := fold_left (fun w td => set_weight w (fst td) (bm25_idf n (snd td))) counts (b_idf e);
     b_df := counts; b_total := n; b_k1 := b_k1 e; b_b := b_b e; b_avg := f64_div len (f64_of_Z n);
     b_voc := fold_left add_term (List.concat ts) (b_voc e) |}.

(** EncodeSparse, sparse.go:189-225. *)
Definition bm25_weight (e : bm25) (len : Z) (t : string) (tf : Z) : float :=
  let idf := match assoc t (b_idf e) with Some x => x | None => f64_of_Z 1 end in
  let num := f64_mul (f64_of_Z tf) (f64_add (b_k1 e) (f64_of_Z 1)) in
  let den := f64_add (f64_of_Z tf)
    (f64_mul (b_k1 e) (f64_add (f64_sub (f64_of_Z 1) (b_b e)) (f64_mul (b_b e) (f64_div (f64_of_Z len) (b_avg e))))) in
  f64_mul idf (f64_div num den).
Definition bm25_encode (e : bm25) (t : string) : weights :=
  let ts := tokenize t in
  map (fun tn => (fst tn, bm25_weight e (Z.of_nat (length ts)) (fst tn) (snd tn))) (term_freq ts).

(** TFIDFEncoder, sparse.go:250-268. *)
Record tfidf := { t_idf : weights; t_df : list (string * Z); t_total : Z; t_voc : list string; t_sub : bool }.
Definition new_tfidf (sub : bool) : tfidf := {| t_idf := []; t_df := []; t_total := 0; t_voc := []; t_sub := sub |}.

(** Fit, sparse.go:289-335. *)
Definition tfidf_fit (e : tfidf) (docs : list string) : tfidf :=
  let ts := map tokenize docs in
  let n := Z.of_nat (length docs) in
  let counts := doc_counts ts in
  {| t_idf := fold_left (fun w td => set_weight w (fst td) (log (f64_div (f64_of_Z n) (f64_of_Z (snd td))))) counts (t_idf e);
     t_df := counts; t_total := n; t_voc := fold_left add_term (List.concat ts) (t_voc e); t_sub := t_sub e |}.

(** EncodeSparse, sparse.go:338-369: unknown terms are skipped. *)
Definition tfidf_encode (e : tfidf) (t : string) : weights :=
  flat_map (fun tn => match assoc (fst tn) (t_idf e) with
    | None => []
    | Some idf => [(fst tn, f64_mul (if t_sub e then f64_add (f64_of_Z 1) (log (f64_of_Z (snd tn))) else f64_of_Z (snd tn)) idf)]
    end) (term_freq (tokenize t)).
End Text.

(** TopTerms, sparse.go:479-499; [ord] is the iteration order of the map. *)
Definition top_terms (ord srt : weights -> weights) (vec : weights) (k : Z) : weights :=
  match vec with
  | [] => []
  | _ => let l := srt (ord vec) in
         if Z.ltb 0 k && Z.ltb k (Z.of_nat (length l)) then firstn (Z.to_nat k) l else l
  end.

(** * SparseRouter, hybrid.go:42-193 *)
Record srouter := { sr_routes : list route; sr_threshold : float }.

(** Add, hybrid.go:111-133. *)
Definition sadd (sr : srouter) (o : option route) : srouter * outcome unit :=
  match o with
  | None => (sr, Err EOther)
  | Some r => if negb (acceptable_route (map new_entry (sr_routes sr)) r) then (sr, Err EOther)
              else ({| sr_routes := sr_routes sr ++ [r]; sr_threshold := sr_threshold sr |}, Ok tt)
  end.

Section SparseRoute.
Variable encode : string -> weights.
(** Iteration orders of the two maps in the i-th call of SparseSimilarity. *)
Variable orders : nat -> (weights -> weights) * (weights -> weights).

(** The loops of Route, hybrid.go:149-162; [n] numbers the similarities computed. *)
Fixpoint sscan_utts (q : weights) (r : route) (n : nat) (us : list string) (best : option route * float)
  : nat * (option route * float) :=
  match us with
  | [] => (n, best)
  | u :: us' =>
      let s := sparse_sim (fst (orders n) q) (snd (orders n) (encode u)) in
      sscan_utts q r (S n) us' (if fgt s (snd best) then (Some r, s) else best)
  end.
Fixpoint sscan (q : weights) (n : nat) (rs : list route) (best : option route * float) : option route * float :=
  match rs with
  | [] => best
  | r :: rs' => let (n', b) := sscan_utts q r n (rt_utts r) best in sscan q n' rs' b
  end.

(** Route, hybrid.go:136-175. *)
Definition sroute (sr : srouter) (q : string) : answer :=
  if String.eqb q "" then no_answer
  else let best := sscan (encode q) 0 (sr_routes sr) (None, f_zero) in
  match fst best with
  | None => {| an_name := ""; an_score := snd best; an_matched := false; an_handler := None |}
  | Some r => {| an_name := rt_name r; an_score := snd best; an_matched := fge (snd best) (sr_threshold sr); an_handler := rt_handler r |}
  end.
End SparseRoute.

(** * HybridRouter, hybrid.go:12-23 and 310-409 *)
(** HybridRouteResult, hybrid.go:26-37. *)
Record hanswer := { ha_name : string; ha_score : float; ha_matched : bool; ha_handler : option Z; ha_dense : float; ha_sparse : float }.

(** The decision of Route, hybrid.go:374-406. *)
Definition combine_answers (alpha thr : float) (d s : answer) : hanswer :=
  let c := f64_add (f64_mul alpha (an_score d)) (f64_mul (f64_sub (f64_of_Z 1) alpha) (an_score s)) in
  let mk n h := {| ha_name := n; ha_score := c; ha_matched := fge c thr; ha_handler := h;
                   ha_dense := an_score d; ha_sparse := an_score s |} in
  if an_matched d then mk (an_name d) (an_handler d)
  else if an_matched s then mk (an_name s) (an_handler s)
  else if fge c thr then
    if fgt (an_score d) (an_score s) && negb (String.eqb (an_name d) "") then mk (an_name d) (an_handler d)
    else if negb (String.eqb (an_name s) "") then mk (an_name s) (an_handler s)
    else mk "" None
  else mk "" None.

Section Hybrid.
Variable I : index_ops.
Record hrouter := { h_dense : router I; h_sparse : srouter; h_alpha : float; h_threshold : float }.

(** Add, hybrid.go:310-329: a failing sparse half leaves the dense half registered.
    [None] is a nil pointer: that half is skipped. The dense router has no store
    (hybrid.go:212-218). *)
Definition hadd (em : embedder) (evs : nat -> env) (h : hrouter) (d s : option route) : hrouter * outcome unit :=
  let (d1, r1) := match d with None => (h_dense h, Ok tt) | Some _ => add I evs em (h_dense h) d end in
  let h1 := {| h_dense := d1; h_sparse := h_sparse h; h_alpha := h_alpha h; h_threshold := h_threshold h |} in
  match r1 with
  | Ok _ => match s with
            | None => (h1, Ok tt)
            | Some _ => let (s1, r2) := sadd (h_sparse h) s in
                        ({| h_dense := d1; h_sparse := s1; h_alpha := h_alpha h; h_threshold := h_threshold h |}, r2)
            end
  | _ => (h1, r1)
  end.

(** Route, hybrid.go:357-409. *)
Definition hroute (srt : list scored -> list scored) (noise : nat -> float) (md : mode) (sc : scorer)
  (encode : string -> weights) (orders : nat -> (weights -> weights) * (weights -> weights))
  (em : embedder) (h : hrouter) (q : string) : outcome hanswer :=
  if String.eqb q "" then Ok {| ha_name := ""; ha_score := f_zero; ha_matched := false; ha_handler := None; ha_dense := f_zero; ha_sparse := f_zero |}
  else bind (snd (route_query I srt noise md sc em (h_dense h) q)) (fun d =>
       Ok (combine_answers (h_alpha h) (h_threshold h) d (sroute encode orders (h_sparse h) q))).
End Hybrid.

(** * FunctionRouter, schema.go:97-185 *)
Section Functions.
Variable V : Type.

(** ParameterSchema: whether it is required; everything extractValue looks at is in
    the parameter [guess] below. *)
Record fschema := { fs_name : string; fs_params : list (string * bool); fs_handler : option Z }.
Record fcall : Type := { fc_name : string; fc_args : list (string * V); fc_complete : bool; fc_missing : list string; fc_handler : option Z }.

(** A registered pattern: [None] does not compile; otherwise what FindStringSubmatch's
    first group, coerced, gives on a text. *)
Definition pattern := option (string -> option V).

(** Extract, schema.go:208-240: [guess] is extractValue for one parameter (schema.go:
    243-275), [ord] the iteration order of the parameters. *)
Definition extract_one (pats : list (string * pattern)) (guess : string -> string -> option V) (text : string)
  (p : string * bool) : option V * bool :=
  let fallback := match guess text (fst p) with
                  | Some v => (Some v, false)
                  | None => (None, snd p)
                  end in
  match assoc (fst p) pats with
  | Some None => (None, false)
  | Some (Some f) => match f text with Some v => (Some v, false) | None => fallback end
  | None => fallback
  end.
Definition extract (ord : list (string * bool) -> list (string * bool)) (pats : list (string * pattern))
  (guess : string -> string -> option V) (text : string) (fs : fschema) : list (string * V) * list string :=
  let ps := map (fun p => (p, extract_one pats guess text p)) (ord (fs_params fs)) in
  (flat_map (fun x : (string * bool) * (option V * bool) => match fst (snd x) with Some v => [(fst (fst x), v)] | None => [] end) ps,
   flat_map (fun x : (string * bool) * (option V * bool) => if snd (snd x) then [fst (fst x)] else []) ps).

(** Add, schema.go:120-136: the map is keyed by the schema's name, the later entry
    wins; [None] is a nil schema. *)
Definition fadd (m : list (string * fschema)) (s : option fschema) : list (string * fschema) * outcome unit :=
  match s with
  | None => (m, Err EOther)
  | Some f => if String.eqb (fs_name f) "" then (m, Err EOther) else ((fs_name f, f) :: m, Ok tt)
  end.

(** Route, schema.go:139-172: [None] when nothing matched. *)
Definition froute (ext : string -> fschema -> list (string * V) * list string) (m : list (string * fschema))
  (a : outcome answer) (text : string) : outcome (option fcall) :=
  bind a (fun a : answer =>
  if negb (an_matched a) || String.eqb (an_name a) "" then Ok None
  else match assoc (an_name a) m return outcome (option fcall) with
  | None => Err EOther
  | Some f => let (args, missing) := ext text f in
              Ok (Some {| fc_name := fs_name f; fc_args := args; fc_complete := match missing with [] => true | _ => false end;
                          fc_missing := missing; fc_handler := fs_handler f |})
  end).

(** Execute, schema.go:175-185: the handler that is run and its arguments. *)
Definition fexecute (c : fcall) : outcome (Z * list (string * V)) :=
  match fc_handler c with
  | None => Err EOther
  | Some h => if negb (fc_complete c) then Err EOther else Ok (h, fc_args c)
  end.
End Functions.
