(** Properties of the text search tool: planned queries, merged candidates, word vectors. *)
From Coq Require Import String Ascii List NArith ZArith Bool Arith Sorted Permutation Lia ZifyBool ZifyNat ZifyN.
From Coq Require Import Floats.SpecFloat.
From Verif Require Import Base Floats64 TopK StoreModel RagModel RagSpec ToolTextModel ToolTextSpec ToolTextProofs ToolTextProofs2.
Import ListNotations.
Open Scope list_scope.
Open Scope nat_scope.

(** The queries run for a search request are exactly the query, the alternatives and the
    keyword disjunctions, trimmed, without blanks and repetitions, in this order. *)
Theorem lexical_plan_exact (lower : list N -> list N) (letter_or_digit : N -> bool) (q : list N) (given alternates : list (list N)) :
  plain_letters letter_or_digit -> planned lower letter_or_digit q given alternates (plan_queries lower letter_or_digit q given alternates).
Proof. intros H. apply plan_ok. exact H. Qed.

Definition ex_lod (r : N) : bool := ((97 <=? r) && (r <=? 122) || (48 <=? r) && (r <=? 57))%N.
Example ex_lod_plain : plain_letters ex_lod.
Proof. intros r H. cbn in H. repeat (destruct H as [<-|H]; [reflexivity|]). destruct H. Qed.
Example plan_example :
  plan_queries (fun t => t) ex_lod (runes " what is the go map of go? ") [runes "hash of"; runes "go"] [runes "go map"; runes ""] =
  [runes "what is the go map of go?"; runes "go map"; runes "go OR map"; runes "hash OR go OR map"; runes "hash* OR go OR map*"].
Proof. vm_compute. reflexivity. Qed.

(** A text search with a limit [k >= 0] fails when there is no query or when nothing was
    found and some query failed. Otherwise it returns the [k] best of the chunks found, each
    once, with the greatest of its weighted scores. *)
Theorem text_candidates_exact (ask : list N -> option (list (string * float))) (ord srt : list (string * float) -> list (string * float)) (k : Z) (qs : list (list N)) :
  (forall l, Permutation l (ord l)) -> sort_ok by_thit srt -> (0 <= k)%Z -> (forall n id s, found_by ask qs n id s -> not_nan s) ->
  let r := search_candidates ask ord srt k qs in
  exists n, queries_asked ask k qs n /\
  (qs = [] -> r = Err EEmptyQuery) /\
  (qs <> [] -> (forall id s, ~ found_by ask qs n id s) -> (exists q, In q qs /\ ask q = None) -> r = Err EOther) /\
  (qs <> [] -> (exists id s, found_by ask qs n id s) \/ (forall q, In q qs -> ask q <> None) ->
   exists out all, r = Ok out /\ is_topk better_hit (Z.to_nat k) all out /\ NoDup (map fst all) /\
     (forall id s, In (id, s) all -> found_by ask qs n id s) /\
     (forall id s, found_by ask qs n id s -> exists s', In (id, s') all /\ flt s' s = false)).
Proof.
  intros Ho Hs Hk Hn r. destruct (list_eq_dec (list_eq_dec N.eq_dec) qs []) as [Eq|NE].
  { unfold r. clear r. subst qs. exists 0. split; [right; split; [intros (q & re & rs & E & _); discriminate|reflexivity]|]. split; [reflexivity|]. split; intros H; congruence. }
  destruct (candidates_ok ask ord srt k qs Ho Hs Hk NE Hn) as (n & Q & C). exists n. split; [exact Q|]. split; [congruence|].
  destruct C as [[Em Er]|[So (out & all & Er & (N & B & C) & T)]].
  - split.
    + intros _ _ (q1 & H1 & H2). unfold r. rewrite Er. replace (existsb _ qs) with true; [reflexivity|]. symmetry. apply existsb_exists. exists q1. rewrite H2. auto.
    + intros _ [(id & s & H)|H]; [destruct (Em id s H)|]. exists [], []. split.
      * unfold r. rewrite Er. match goal with |- context [if ?c then _ else _] => destruct c eqn:X end; [|reflexivity]. exfalso. apply existsb_exists in X as (q1 & H1 & H2). apply (H q1 H1). destruct (ask q1); [discriminate|reflexivity].
      * split; [exists []; split; [constructor|]; split; [cbn; lia|]; split; [constructor|intros ? ? []]|]. split; [constructor|]. split; [intros ? ? []|]. intros id s H1. destruct (Em id s H1).
  - split; [intros _ Em; destruct So as (id & s & H); destruct (Em id s H)|]. intros _ _. exists out, all. auto.
Qed.

Definition ex_ask (q : list N) : option (list (string * float)) :=
  if list_eq_dec N.eq_dec q (runes "one") then Some [("a", f64_of_Z 2); ("b", f64_of_Z 1); ("a", f64_of_Z 3)]%string
  else if list_eq_dec N.eq_dec q (runes "two") then Some [("c", f64_of_Z 2); ("b", f64_of_Z 4)]%string else None.
Example candidates_example :
  search_candidates ex_ask (fun l => l) (isort by_thit) 3 [runes "one"; runes "bad"; runes "two"] =
    Ok [("b", f64_mul (f64_of_Z 4) (weight_at 2)); ("a", f64_of_Z 3); ("c", f64_mul (f64_of_Z 2) (weight_at 2))]%string /\
  search_candidates ex_ask (fun l => l) (isort by_thit) 2 [runes "one"; runes "bad"; runes "two"] = Ok [("a", f64_of_Z 3); ("b", f64_of_Z 1)]%string /\
  search_candidates ex_ask (fun l => l) (isort by_thit) 2 [runes "bad"] = Err EOther.
Proof. repeat split; vm_compute; reflexivity. Qed.
Example candidates_hypotheses : (forall n id s, found_by ex_ask [runes "one"; runes "bad"; runes "two"] n id s -> not_nan s) /\ queries_asked ex_ask 3 [runes "one"; runes "bad"; runes "two"] 3.
Proof.
  split.
  - intros n id s ([|[|[|i]]] & q & rs & x & _ & E & A & I & ->); cbn [nth_error] in E; try (destruct i; discriminate); injection E as <-.
    + vm_compute in A. injection A as <-. cbn [In] in I. repeat (destruct I as [I|I]; [injection I as <- <-; vm_compute; discriminate|]). destruct I.
    + vm_compute in A. discriminate.
    + vm_compute in A. injection A as <-. cbn [In] in I. repeat (destruct I as [I|I]; [injection I as <- <-; vm_compute; discriminate|]). destruct I.
  - right. split; [|reflexivity]. intros (q & re & rs & E & A & _ & K). injection E as <- <-. vm_compute in A. injection A as <-. vm_compute in K. apply K. reflexivity.
Qed.

(** Leaving the limit out does not mean "the default number of results", as it does for the
    text search of the database: a search whose first query finds chunks returns none. *)
Theorem text_search_default_limit_refuted : exists ask qs id,
  (exists s, found_by ask qs 1 id s) /\ (forall ord srt, (forall l, Permutation l (ord l)) -> sort_ok by_thit srt -> search_candidates ask ord srt 0 qs = Ok []).
Proof.
  exists ex_ask, [runes "one"], "b"%string. split.
  - exists (f64_mul (f64_of_Z 1) (weight_at 0)), 0, (runes "one"), [("a", f64_of_Z 2); ("b", f64_of_Z 1); ("a", f64_of_Z 3)]%string, (f64_of_Z 1). cbn. repeat split; auto.
  - intros ord srt Ho Hs. unfold search_candidates. set (ql := query_loop ex_ask 0 0 [runes "one"] [] false). vm_compute in ql. subst ql. cbv iota zeta.
    match goal with |- context [srt (ord ?m)] => set (m0 := m) end. destruct (Hs (ord m0)) as [P _]. assert (L : length (srt (ord m0)) = 2) by (rewrite <- (Permutation_length P), <- (Permutation_length (Ho m0)); reflexivity).
    rewrite L. reflexivity.
Qed.
(** A negative limit makes the search panic as soon as something is found. *)
Theorem text_search_negative_limit_refuted : exists ask qs k, forall ord srt, (forall l, Permutation l (ord l)) -> sort_ok by_thit srt -> search_candidates ask ord srt k qs = Panic.
Proof.
  exists ex_ask, [runes "one"], (-1)%Z. intros ord srt Ho Hs. unfold search_candidates. set (ql := query_loop ex_ask (-1) 0 [runes "one"] [] false). vm_compute in ql. subst ql. cbv iota zeta.
  match goal with |- context [srt (ord ?m)] => set (m0 := m) end. destruct (Hs (ord m0)) as [P _]. assert (L : length (srt (ord m0)) = 2) by (rewrite <- (Permutation_length P), <- (Permutation_length (Ho m0)); reflexivity).
  rewrite L. reflexivity.
Qed.

(** Without an embedder a text's vector counts its words: component [i] is the number of
    words, cut free of punctuation, whose hash is [i] modulo the dimension; a text without
    words gets the first unit vector. *)
Theorem lexical_vector_exact (lower : list N -> list N) (hash : list N -> N) (t : list N) (dim : Z) :
  let d := if (0 <? dim)%Z then Z.to_nat dim else 64 in let v := lexical_vector lower hash t dim in
  exists us, words_of lower t us /\ ((Z.of_nat (length us) <= 2 ^ 24)%Z ->
    length v = d /\
    (us <> [] -> forall i, i < d -> nth_error v i = Some (f32_of_Z (Z.of_nat (numbered hash us d i)))) /\
    (us = [] -> nth_error v 0 = Some (f32_of_Z 1) /\ forall i, 0 < i < d -> nth_error v i = Some f_zero)).
Proof.
  intros d v. replace d with (if (dim <=? 0)%Z then 64 else Z.to_nat dim) by (unfold d; destruct (Z.leb_spec dim 0), (Z.ltb_spec 0 dim); lia).
  destruct (vector_ok lower hash t dim) as (us & W & H). exists us. split; [exact W|]. intros L. destruct (H L) as [H1 H2]. clear H. fold v in H1, H2. split; [exact H1|]. split.
  - intros N i Hi. rewrite (H2 i Hi). destruct us; [congruence|reflexivity].
  - intros ->. split.
    + rewrite (H2 0); [reflexivity|]. destruct (Z.leb_spec dim 0); lia.
    + intros i Hi. rewrite (H2 i) by lia. destruct i; [lia|]. reflexivity.
Qed.
Example vector_example :
  lexical_vector (fun t => t) (fun w => N.of_nat (length w)) (runes "to, be (or) not ... to be!") 3 = [f32_of_Z 1; f_zero; f32_of_Z 5] /\
  lexical_vector (fun t => t) (fun w => N.of_nat (length w)) (runes " ... ") 2 = [f32_of_Z 1; f_zero].
Proof. split; vm_compute; reflexivity. Qed.
(** A text without words is not told apart from a text with one word of hash 0. *)
Theorem lexical_vector_tells_apart_refuted : exists lower hash t t' dim us us', words_of lower t us /\ words_of lower t' us' /\ us = [] /\ length us' = 1 /\
  lexical_vector lower hash t dim = lexical_vector lower hash t' dim.
Proof.
  assert (S0 : stripped (runes "...") []). { exists (runes "..."), []. split; [reflexivity|]. split; [|split]; [|intros r [|? ?] H; discriminate|intros r [|? ?] H; discriminate].
    intros r H. cbn in H. repeat (destruct H as [<-|H]; [reflexivity|]). destruct H. }
  assert (S1 : stripped (runes "abc") (runes "abc")). { exists [], []. split; [reflexivity|]. split; [intros r []|]. split.
    - intros r v [= <- <-]. reflexivity.
    - intros r v E. change (runes "abc") with ([97; 98] ++ [99])%N in E. apply app_inj_tail in E as [_ <-]. reflexivity. }
  exists (fun t => t), (fun w => N.of_nat (length w)), (runes "..."), (runes "abc"), 3%Z, [], [runes "abc"].
  split; [|split; [|split; [reflexivity|split; [reflexivity|vm_compute; reflexivity]]]].
  - exists [runes "..."], [[]]. split; [|split; [repeat constructor; exact S0|reflexivity]].
    change [runes "..."] with (fields_func is_space [] (runes "...")). apply (RagTextProofs.runs_ext is_space); [intros; apply RagTextProofs.is_space_white|apply RagTextProofs.fields_spec].
  - exists [runes "abc"], [runes "abc"]. split; [|split; [repeat constructor; exact S1|reflexivity]].
    change [runes "abc"] with (fields_func is_space [] (runes "abc")). apply (RagTextProofs.runs_ext is_space); [intros; apply RagTextProofs.is_space_white|apply RagTextProofs.fields_spec].
Qed.

Print Assumptions lexical_plan_exact.
Print Assumptions text_candidates_exact.
Print Assumptions text_search_default_limit_refuted.
Print Assumptions text_search_negative_limit_refuted.
Print Assumptions lexical_vector_exact.
Print Assumptions lexical_vector_tells_apart_refuted.
