(** Properties of GraphRAG chunking, reranking, context packing and search. *)
From Coq Require Import String Ascii List NArith ZArith Bool Arith Lia ZifyBool ZifyNat Permutation Sorted.
From Coq Require Import Floats.SpecFloat DecimalString DecimalPos DecimalN.
From Verif Require Import Base Floats64 TopK StoreModel SearchModel DiversityModel DiversitySpec RagModel RagSpec RagTextProofs RagProofs RagSearchProofs.
Import ListNotations.
Open Scope list_scope.
Open Scope nat_scope.

(** *** C59 *)
(** Every document is cut paragraph by paragraph: each paragraph's words, in order, into
    chunks of at most [n] words, consecutive ones sharing exactly [o] words; [n] and [o]
    are the requested size and overlap (or the defaults); nothing else is produced, and
    reading a chunk gives back exactly the words it was made of. *)
Theorem chunking_exact (content : list N) (size overlap : Z) :
  exists n o paras words groups,
    chunk_params size overlap n o /\ runs line_break content paras /\
    Forall2 (runs white) paras words /\ Forall2 (cut n o) words groups /\
    runs white content (concat words) /\
    Forall2 (runs white) (document_chunks content size overlap) (concat groups) /\
    document_chunks content size overlap = map join_words (concat groups).
Proof.
  unfold document_chunks. destruct (ingest_defaults size overlap) as [n o] eqn:E.
  destruct (defaults_params _ _ _ _ E) as [P R].
  exists (Z.to_nat n), (Z.to_nat o), (fields_func is_break [] content).
  pose proof (fields_spec is_break content) as B. apply (runs_ext is_break line_break) in B; [|apply is_break_line].
  unfold split_text. set (ps := fields_func is_break [] content) in *.
  assert (G : exists words groups, Forall2 (runs white) ps words /\ Forall2 (cut (Z.to_nat n) (Z.to_nat o)) words groups /\
     flat_map (split_paragraph (Z.to_nat n) (Z.to_nat o)) ps = map join_words (concat groups) /\
     Forall2 (runs white) (flat_map (split_paragraph (Z.to_nat n) (Z.to_nat o)) ps) (concat groups)).
  { clear B. induction ps as [|p ps IH]; [exists [], []; cbn; auto|].
    destruct IH as (words & groups & H1 & H2 & H3 & H4). destruct (paragraph_spec (Z.to_nat n) (Z.to_nat o) p ltac:(lia)) as (ws & g & K1 & K2 & K3 & K4).
    exists (ws :: words), (g :: groups). split; [constructor; auto|]. split; [constructor; auto|]. cbn [flat_map concat]. split; [rewrite K3, map_app; f_equal; exact H3|].
    apply Forall2_app; auto. rewrite K3. clear -K1 K4. induction g as [|c g IH]; cbn; constructor.
    - apply (runs_ext is_space white); [apply is_space_white|]. apply (runs_join_words p ws); [|intros w Hw; apply (K4 c); [left|]; auto].
      apply (runs_ext white is_space); [intros r; symmetry; apply is_space_white|exact K1].
    - apply IH. intros c' w Hc. apply K4. right. auto. }
  destruct G as (words & groups & H1 & H2 & H3 & H4). exists words, groups. repeat (split; [solve [eauto]|]).
  split; [eapply runs_paragraphs; eauto|]. split; auto.
Qed.
(** "a b c d e" then a second paragraph "f", chunks of 3 words overlapping in 1. *)
Definition ex_text : list N := ascii_text "a b c d e" ++ [10%N; 13%N] ++ ascii_text " f ".
Example ex_chunks : document_chunks ex_text 3 1 = [ascii_text "a b c"; ascii_text "c d e"; ascii_text "f"].
Proof. vm_compute. reflexivity. Qed.
Example ex_chunks_default : document_chunks ex_text 0 (-5) = [ascii_text "a b c d e"; ascii_text "f"].
Proof. vm_compute. reflexivity. Qed.
Print Assumptions chunking_exact.

(** *** C60 *)
(** The packed context is an order-preserving selection within all its budgets, and the
    text built from it is as long as the character budget allows, unless it is a single
    chunk. *)
Theorem packed_context_budgets (o : qopts) (cs : list rchunk) :
  let out := pack (query_defaults o) cs in
  subsequence out cs /\ (Z.of_nat (length out) <= chunks_limit o)%Z /\
  (forall d, d <> EmptyString -> Z.of_nat (of_document d out) <= doc_limit o)%Z /\
  (length out <= 1 \/ (Z.of_nat (String.length (build_context out)) <= chars_limit o)%Z).
Proof.
  intros out. destruct (packed_bounds o cs out (pack_packed o cs)) as (H1 & H2 & H3 & H4). split; auto. split; auto. split; auto.
  destruct H4 as [H4|H4]; auto. right. rewrite build_context_spec. pose proof (context_length out). lia.
Qed.
(** The selection is the greedy one: a chunk is taken exactly when it may follow those
    taken before it; and something is packed whenever there is something to pack. *)
Theorem packed_context_exact (o : qopts) (cs : list rchunk) :
  packed o cs (pack (query_defaults o) cs) /\ (cs <> [] -> pack (query_defaults o) cs <> []) /\
  build_context (pack (query_defaults o) cs) = lines_of (map chunk_line (pack (query_defaults o) cs)).
Proof.
  split; [apply pack_packed|]. split; [|apply build_context_spec].
  intros H. unfold pack. destruct (pack_loop _ _ _ _ _); [destruct cs; [congruence|discriminate]|discriminate].
Qed.
Definition no_opts : qopts := {| q_topk := 0; q_hops := 0; q_related := 0; q_chunks := 0; q_chars := 0; q_perdoc := 0; q_rerank := false; q_lambda := f_zero; q_nograph := false; q_mode := MAuto |}.
Definition ck (id doc content : string) (score : Z) : rchunk := fresh_chunk id doc content (f64_of_Z score).
Definition ex_list : list rchunk := [ck "a" "d1" "long enough text" 9; ck "b" "d1" "x" 8; ck "c" "d1" "y" 7; ck "d" "" "z" 6; ck "e" "d2" "a very long line of text indeed" 5; ck "f" "d2" "w" 4].
Definition ex_opts : qopts := {| q_topk := 0; q_hops := 0; q_related := 0; q_chunks := 4; q_chars := 70; q_perdoc := 2; q_rerank := false; q_lambda := f_zero; q_nograph := false; q_mode := MAuto |}.
(** The third chunk exceeds the document limit, the fifth the characters. *)
Example ex_pack : map c_id (pack (query_defaults ex_opts) ex_list) = ["a"; "b"; "d"; "f"]%string /\
  build_context (pack (query_defaults ex_opts) (firstn 2 ex_list)) = ("[d1/a] long enough text" ++ String (ascii_of_nat 10) "[d1/b] x")%string.
Proof. vm_compute. auto. Qed.
Print Assumptions packed_context_budgets.
Print Assumptions packed_context_exact.

(** *** C120: reranking *)
Theorem rerank_greedy_exact (tokens names : string -> list string) (o : qopts) (q : string) (cs : list rchunk) :
  reranked tokens names (lambda_in_force o) (Z.to_nat (chunks_limit o)) q cs (rerank tokens names (query_defaults o) q cs).
Proof. apply rerank_reranked. Qed.
(** Words separated by spaces; every word counts as a name. *)
Fixpoint split_words (cur s : string) : list string :=
  match s with
  | EmptyString => [cur]
  | String a s' => if Ascii.eqb a " " then cur :: split_words EmptyString s' else split_words (cur ++ String a EmptyString) s'
  end.
Definition ex_tokens (s : string) : list string := split_words EmptyString s.
(** Two chunks of one document repeat each other, so the third comes second. *)
Definition ex_cands : list rchunk := [ck "a" "d1" "go graph store" 9; ck "b" "d1" "go graph stores" 8; ck "c" "d2" "vector index" 8].
Example ex_rerank : map c_id (rerank ex_tokens (fun _ => []) (query_defaults no_opts) "go graph" ex_cands) = ["a"; "c"; "b"]%string.
Proof. vm_compute. reflexivity. Qed.
Print Assumptions rerank_greedy_exact.

(** *** C121, C122: search *)
Definition by_score (a b : rchunk) : bool := fgt (c_score a) (c_score b).
(** From the seeds of the vector search: without graph expansion the candidates are the
    seeds; with it they are the seeds followed by the best of the chunks met from them,
    each at half the score of the best seed it was met from; the candidates are
    reranked and packed, the context is the text of the packed chunks, and the entities
    are those met from a seed or next to a candidate. *)
Theorem graphrag_search_exact tokens names srt ord ssort nb ent o q seeds r :
  sort_ok by_score srt -> (forall l, Permutation l (ord l)) -> sort_ok String.ltb ssort ->
  NoDup (map s_id seeds) -> (forall s, In s seeds -> not_nan (s_score s)) ->
  search_graphrag tokens names srt ord ssort nb ent o q seeds = Ok r ->
  r_context r = lines_of (map chunk_line (r_chunks r)) /\
  (~ graph_used names o q ->
     r_entities r = [] /\
     exists cands, Forall2 (seed_entry (fun _ es => es = [])) seeds cands /\ from_candidates tokens names o q cands (r_chunks r)) /\
  (graph_used names o q ->
     exists firsts pool kept,
       Forall2 (seed_entry (entities_next ent)) seeds firsts /\ related_entries nb ent seeds pool /\
       is_topk by_score (Z.to_nat (related_limit o)) pool kept /\
       from_candidates tokens names o q (firsts ++ kept) (r_chunks r) /\
       alphabetical (r_entities r) /\ NoDup (r_entities r) /\
       (forall e, In e (r_entities r) <->
          (exists s n, In s seeds /\ meets nb s n /\ n_type n = "entity"%string /\ n_content n = e) \/
          (exists id l, (In id (map s_id seeds) \/ In id (map c_id pool)) /\ ent id = Some l /\ In e l))).
Proof.
  intros Hsrt Hord Hss N Hnn E. unfold search_graphrag in E.
  assert (E0 : forall z, from_candidates tokens names o q [] z <-> z = []).
  { intros z. split.
    - intros (rk & (sc & ix & F1 & (_ & F2) & F3 & _) & (k & K1 & K2 & _)). cbn in F3. rewrite Nat.min_0_r in F3. destruct rk; [|discriminate]. destruct k; [exact K2|discriminate].
    - intros ->. exists []. split; [exists [], []; split; [constructor|]; split; [split; constructor|]; split; [cbn; lia|]; intros [|k] i j ci cj H; discriminate|].
      exists []. split; auto. split; auto. intros [|i] c H; discriminate. }
  destruct seeds as [|s0 seeds0] eqn:Es.
  { injection E as <-. cbn. split; auto. split.
    - intros _. split; auto. exists []. split; [constructor|apply E0; auto].
    - intros _. exists [], [], []. split; [constructor|]. split.
      { split; [constructor|]. split; [|intros c []]. intros id. split; [intros []|intros (_ & s & n & [] & _)]. }
      split; [exists []; split; [auto|]; split; [cbn; lia|]; split; [constructor|intros x y []]|].
      split; [apply E0; auto|]. split; [constructor|]. split; [constructor|]. intros e. split; [intros []|]. intros [(s & n & [] & _)|(id & l & [[]|[]] & _)]. }
  rewrite <- Es in *. set (use := use_graph names (query_defaults o) q []) in *.
  pose proof (use_graph_spec names o q) as U. fold use in U.
  replace (match seeds with [] => Ok {| r_chunks := []; r_entities := []; r_context := "" |} | _ :: _ => _ end) with
    (match expand nb use seeds [] ([], []) with
     | None => Err EOther
     | Some (m, es) =>
          if use then
            match load_entities ent ssort m es with
            | None => Err EOther
            | Some (m, es) =>
                let cs := finish tokens names srt (query_defaults o) q (seed_chunks seeds m ++ related_chunks srt ord (query_defaults o) seeds m) in
                Ok {| r_chunks := cs; r_entities := ssort (nodup string_dec es); r_context := build_context cs |}
            end
          else
            let cs := finish tokens names srt (query_defaults o) q (seed_chunks seeds m) in
            Ok {| r_chunks := cs; r_entities := []; r_context := build_context cs |}
     end) in E by (rewrite Es; reflexivity).
  destruct use eqn:Eu.
  - destruct (expand nb true seeds [] ([], [])) as [[m es]|] eqn:Ex; [|discriminate].
    destruct (expand_inv nb seeds [] [] [] [] m es N Hnn) as (more & I & _ & Hm); [intros h []|apply inv_start|exact Ex|]. cbn [app] in I.
    destruct (load_entities ent ssort m es) as [[m' es']|] eqn:El; [|discriminate]. injection E as <-. cbn [r_chunks r_entities r_context].
    split; [apply build_context_spec|]. split; [intros H; exfalso; apply H; apply U; auto|]. intros _.
    destruct (pool_spec nb ent ssort ord seeds more m es m' es' Hss Hord I Hm El) as (P1 & P2 & P3 & P4). cbv zeta in *.
    unfold related_chunks. set (pool := map set_base _) in *. rewrite def_related.
    exists (seed_chunks seeds m'), pool, (firstn (Z.to_nat (related_limit o)) (srt pool)). split; auto. split; auto. split.
    { apply topk_of_sort; auto. apply (weak_order_desc c_score). intros c Hc. destruct (P4 c Hc) as (s & Hs & ->). apply half_not_nan. auto. }
    split; [apply finish_spec|]. destruct (ssort_alpha ssort (nodup string_dec es') Hss) as [Q1 Q2].
    split; auto. split; [eapply Permutation_NoDup; [exact Q1|apply NoDup_nodup]|].
    intros e. rewrite <- P3. rewrite <- (nodup_In string_dec es'). split; apply Permutation_in; [apply Permutation_sym|]; exact Q1.
  - destruct (expand_plain nb seeds [] [] [] N inv_start) as (m & Ex & I). cbn in Ex. rewrite Ex in E. cbn [app] in I.
    injection E as <-. cbn [r_chunks r_entities r_context]. split; [apply build_context_spec|]. split.
    + intros _. split; auto. exists (seed_chunks seeds m). split; [|apply finish_spec].
      destruct I as [I1 I2 I3 I4 I5].
      pose proof (seed_chunks_spec seeds m (fun s c => c = seed_fresh s) I1) as S.
      assert (S' : Forall2 (fun s c' => exists c, c = seed_fresh s /\ c' = set_base c) seeds (seed_chunks seeds m)).
      { apply S. intros s Hs. exists (seed_fresh s). auto. }
      clear -S'. induction S' as [|s c' l l' (c & -> & ->) _ IH]; constructor; auto. cbn. repeat (split; [reflexivity|]). reflexivity.
    + intros H. apply U in H. discriminate.
Qed.
(** It fails exactly when a graph query it needs fails. *)
Theorem graphrag_search_total tokens names srt ord ssort nb ent o q seeds :
  NoDup (map s_id seeds) -> (forall s, In s seeds -> not_nan (s_score s)) ->
  ((exists r, search_graphrag tokens names srt ord ssort nb ent o q seeds = Ok r) <->
   (graph_used names o q ->
      (forall s, In s seeds -> nb (s_id s) <> None /\ ent (s_id s) <> None) /\
      (forall s n, In s seeds -> meets nb s n -> n_type n = "chunk"%string -> ent (n_id n) <> None))).
Proof.
  intros N Hnn. unfold search_graphrag. pose proof (use_graph_spec names o q) as U. set (use := use_graph names (query_defaults o) q []) in *.
  destruct seeds as [|s0 seeds0] eqn:Es.
  { split; [|eauto]. intros _ _. split; [intros s []|intros s n []]. }
  rewrite <- Es in *.
  destruct use eqn:Eu.
  - split.
    + intros [r E] _. destruct (expand nb true seeds [] ([], [])) as [[m es]|] eqn:Ex; [|discriminate].
      destruct (expand_inv nb seeds [] [] [] [] m es N Hnn) as (more & I & Hnb & Hm); [intros h []|apply inv_start|exact Ex|]. cbn [app] in I.
      destruct (load_entities ent ssort m es) as [[m' es']|] eqn:El; [|discriminate]. destruct (load_spec _ _ _ _ _ _ El) as [F _].
      assert (Hent : forall id, In id (map c_id m) -> ent id <> None).
      { intros id Hid. clear -F Hid. induction F as [|a b l l' (x & R1 & R2) F IH]; [destruct Hid|]. destruct Hid as [<-|Hid]; [rewrite R1; discriminate|auto]. }
      split.
      * intros s Hs. split; [auto|]. apply Hent. apply (i_ids _ _ _ _ I). left. apply in_map. auto.
      * intros s n Hs Hmt Ht. apply Hent. apply (i_ids _ _ _ _ I). right. exists (s, n). split; [apply Hm; auto|split; auto].
    + intros H. destruct (H (proj1 U eq_refl)) as [H1 H2].
      destruct (expand_total nb seeds (fun s Hs => proj1 (H1 s Hs)) [] ([], [])) as [[m es] Ex]. rewrite Ex.
      destruct (expand_inv nb seeds [] [] [] [] m es N Hnn) as (more & I & Hnb & Hm); [intros h []|apply inv_start|exact Ex|]. cbn [app] in I.
      destruct (load_total ent ssort m) with (es := es) as [[m' es'] El]; [|rewrite El; eauto].
      intros c Hc. apply (in_map c_id) in Hc. apply (i_ids _ _ _ _ I) in Hc as [Hc|([s n] & Hh & Ht & <-)].
      * apply in_map_iff in Hc as (s & <- & Hs). apply H1. auto.
      * apply Hm in Hh as [Hs Hmt]. apply (H2 s n); auto.
  - split; [intros _ H; apply U in H; discriminate|]. intros _.
    destruct (expand_plain nb seeds [] [] [] N inv_start) as (m & Ex & I). cbn in Ex. rewrite Ex. eauto.
Qed.
(** Two seeds; the graph links the first to a third chunk and to an entity. *)
Definition ex_seeds : list seed := [{| s_id := "a"; s_doc := "d1"; s_content := "go graph"; s_score := f64_of_Z 4 |}; {| s_id := "b"; s_doc := "d2"; s_content := "index"; s_score := f64_of_Z 2 |}].
Definition ex_nb (id : string) : option (list gnode) :=
  Some (if String.eqb id "a" then [{| n_id := "e"; n_type := "entity"; n_content := "Go"; n_doc := None |}; {| n_id := "c"; n_type := "chunk"; n_content := "store"; n_doc := Some "d3"%string |};
          {| n_id := "b"; n_type := "chunk"; n_content := "index"; n_doc := None |}]
        else [{| n_id := "c"; n_type := "chunk"; n_content := "store"; n_doc := Some "d3"%string |}]).
Definition ex_ent (id : string) : option (list string) := Some (if String.eqb id "a" then ["Go"] else if String.eqb id "c" then ["Disk"] else [])%string.
Definition ex_srt := isort by_score.
Definition ex_ssort := isort String.ltb.
Example ex_search : exists r, search_graphrag ex_tokens (fun _ => ["Go"%string]) ex_srt (fun l => l) ex_ssort ex_nb ex_ent no_opts "Go" ex_seeds = Ok r /\
  map (fun c => (c_id c, c_doc c, feq (c_score c) (f64_of_Z 2))) (r_chunks r) = [("a", "d1", false); ("b", "d2", true); ("c", "d3", true)]%string /\
  r_entities r = ["Disk"; "Go"]%string /\ graph_used (fun _ => ["Go"%string]) no_opts "Go".
Proof. eexists. split; [vm_compute; reflexivity|]. split; [vm_compute; reflexivity|]. split; [vm_compute; reflexivity|]. split; [reflexivity|right; split; [reflexivity|discriminate]]. Qed.
Print Assumptions graphrag_search_exact.
Print Assumptions graphrag_search_total.

(** *** C123: ids of chunks *)
Fixpoint has_colon (s : string) : bool :=
  match s with EmptyString => false | String a s' => Ascii.eqb a ":" || has_colon s' end.
Lemma last_colon a : forall b p q, has_colon p = false -> has_colon q = false -> (a ++ ":" ++ p)%string = (b ++ ":" ++ q)%string -> a = b /\ p = q.
Proof.
  assert (H : forall b q, has_colon (b ++ ":" ++ q)%string = true).
  { clear. induction b as [|x b IH]; intros q; [reflexivity|]. change (Ascii.eqb x ":" || has_colon (b ++ ":" ++ q)%string = true). rewrite IH. apply orb_true_r. }
  induction a as [|x a IH]; intros [|y b] p q Hp Hq E; cbn in E.
  - injection E as ->. auto.
  - injection E as _ E. subst p. change (b ++ String ":" q)%string with (b ++ ":" ++ q)%string in Hp. rewrite H in Hp. discriminate.
  - injection E as _ E. subst q. change (a ++ String ":" p)%string with (a ++ ":" ++ p)%string in Hq. rewrite H in Hq. discriminate.
  - injection E as -> E. destruct (IH b p q Hp Hq E) as [-> ->]. auto.
Qed.
Lemma uint_no_colon d : has_colon (NilEmpty.string_of_uint d) = false.
Proof. induction d; cbn; auto. Qed.
Definition decode (s : string) : option N := option_map N.of_uint (NilEmpty.uint_of_string s).
Lemma digits_shape n : exists d, digits n = NilEmpty.string_of_uint d /\ N.of_uint d = N.of_nat n.
Proof.
  unfold digits, fmt_d. destruct n as [|n].
  - exists (Decimal.D0 Decimal.Nil). auto.
  - exists (Pos.to_uint (Pos.of_succ_nat n)). cbn. split.
    + unfold NilZero.string_of_uint. destruct (Pos.to_uint (Pos.of_succ_nat n)) eqn:E; auto.
      exfalso. pose proof (DecimalPos.Unsigned.of_to (Pos.of_succ_nat n)) as Q. rewrite E in Q. discriminate.
    + apply DecimalPos.Unsigned.of_to.
Qed.
Lemma pad3_decode n : decode (pad3 (digits n)) = Some (N.of_nat n) /\ has_colon (pad3 (digits n)) = false.
Proof.
  destruct (digits_shape n) as (d & E & V). rewrite E.
  assert (G : decode (NilEmpty.string_of_uint d) = Some (N.of_nat n)) by (unfold decode; rewrite NilEmpty.usu; cbn; f_equal; exact V).
  assert (Z0 : forall s, decode (String "0" s) = decode s).
  { intros s. unfold decode. cbn. destruct (NilEmpty.uint_of_string s); reflexivity. }
  unfold pad3. destruct (String.length (NilEmpty.string_of_uint d)) as [|[|[|k]]]; cbn [String.append]; rewrite ?Z0; split; auto; cbn; apply uint_no_colon.
Qed.
Lemma append_inj_l (p a b : string) : (p ++ a)%string = (p ++ b)%string -> a = b.
Proof. induction p as [|x p IH]; cbn; auto. intros [= E]. auto. Qed.
(** Different chunks (of the same or of different documents) have different ids, and no
    chunk has the id of a document node. *)
Theorem chunk_ids_distinct (d d' : string) (i j : nat) :
  (chunk_node_id d i = chunk_node_id d' j -> d = d' /\ i = j) /\ chunk_node_id d i <> document_node_id d'.
Proof.
  split; [|intros E; discriminate]. unfold chunk_node_id. intros E. apply append_inj_l in E.
  destruct (pad3_decode i) as [D1 C1]. destruct (pad3_decode j) as [D2 C2].
  destruct (last_colon d d' _ _ C1 C2 E) as [-> Ep]. split; auto. rewrite Ep, D2 in D1. injection D1 as D1. lia.
Qed.
Example ex_chunk_ids : chunk_node_id "a" 7 = "chunk:a:007"%string /\ chunk_node_id "a:001" 1234 = "chunk:a:001:1234"%string.
Proof. vm_compute. auto. Qed.
Print Assumptions chunk_ids_distinct.

(** *** C124: re-ingesting *)
Definition row_id (r : chunk_row) : string := fst (fst r).
Lemma put_row_in r t x : In x (put_row r t) <-> x = r \/ (In x t /\ row_id x <> row_id r).
Proof.
  unfold put_row. rewrite in_app_iff, filter_In. cbn [In]. rewrite negb_true_iff, String.eqb_neq. unfold row_id. intuition.
Qed.
(** After ingesting, every chunk of the new content is stored under its id, and other
    rows are as before - in particular those of other documents. What is missing: rows
    of the same document beyond the new last chunk should be gone. *)
Theorem ingest_rows_partial doc content size overlap t r :
  In r (ingest doc content size overlap t) <->
  (exists i c, nth_error (document_chunks content size overlap) i = Some c /\ r = (chunk_node_id doc i, doc, c)) \/
  (In r t /\ forall i, i < length (document_chunks content size overlap) -> row_id r <> chunk_node_id doc i).
Proof.
  unfold ingest. set (cs := document_chunks content size overlap). clearbody cs.
  assert (G : forall cs k t, In r (fold_left (fun t p => put_row (chunk_node_id doc (fst p), doc, snd p) t) (number k cs) t) <->
    (exists i c, nth_error cs i = Some c /\ r = (chunk_node_id doc (k + i), doc, c)) \/ (In r t /\ forall i, i < length cs -> row_id r <> chunk_node_id doc (k + i))).
  { clear. induction cs as [|c cs IH]; intros k t; cbn [number fold_left].
    - split; [intros H; right; split; auto; cbn; intros; lia|]. intros [(i & c & H & _)|[H _]]; auto. destruct i; discriminate.
    - rewrite IH, put_row_in. cbn [fst snd]. split.
      + intros [(i & c' & H1 & H2)|[[->|[H1 H2]] H3]].
        * left. exists (S i), c'. split; auto. rewrite H2. replace (S k + i) with (k + S i) by lia. reflexivity.
        * left. exists 0, c. split; auto. rewrite Nat.add_0_r. reflexivity.
        * right. split; auto. intros [|i] Hi; [rewrite Nat.add_0_r; exact H2|]. rewrite Nat.add_succ_r. apply (H3 i). cbn in Hi. lia.
      + intros [(i & c' & H1 & H2)|[H1 H2]].
        * destruct i as [|i]; cbn in H1.
          { injection H1 as <-. right. rewrite Nat.add_0_r in H2. split; auto. intros i Hi. rewrite H2. unfold row_id. cbn [fst].
            intros Q. apply chunk_ids_distinct in Q. lia. }
          { left. exists i, c'. split; auto. rewrite H2. replace (S k + i) with (k + S i) by lia. reflexivity. }
        * right. split; [right; split; auto|].
          { specialize (H2 0 ltac:(cbn; lia)). rewrite Nat.add_0_r in H2. exact H2. }
          { intros i Hi. specialize (H2 (S i) ltac:(cbn; lia)). rewrite Nat.add_succ_r in H2. exact H2. } }
  apply (G cs 0 t).
Qed.
(** Finding: ingesting a shorter version of a document leaves chunks of the old version. *)
Theorem reingest_refuted : exists doc old new size overlap r,
  In r (ingest doc new size overlap (ingest doc old size overlap [])) /\ snd (fst r) = doc /\ ~ In (snd r) (document_chunks new size overlap).
Proof.
  exists "d"%string, (ascii_text "a b c d"), (ascii_text "x"), 2%Z, 0%Z, ("chunk:d:001"%string, "d"%string, ascii_text "c d").
  split; [vm_compute; auto|]. split; [reflexivity|]. vm_compute. intros [H|[]]. discriminate.
Qed.
Print Assumptions ingest_rows_partial.
Print Assumptions reingest_refuted.

(** *** C125: ids of entities *)
Lemma drop_us_clean t : (forall r, In r t -> r <> 95%N) -> drop_us t = t.
Proof. destruct t as [|r t]; intros H; cbn; auto. destruct (r =? 95)%N eqn:E; auto. apply N.eqb_eq in E. exfalso. apply (H r); [left|]; auto. Qed.
Lemma flat_keep (f : N -> bool) t : (forall r, In r t -> f r = true) ->
  flat_map (fun r => if f r then [r] else if ((r =? 32) || (r =? 45) || (r =? 95))%N then [95%N] else []) t = t.
Proof. induction t as [|r t IH]; intros H; cbn; auto. rewrite (H r) by (left; auto). cbn. f_equal. apply IH. intros x Hx. apply H. right; auto. Qed.
Lemma drop_space_clean t : (forall r, In r t -> is_space r = false) -> drop_space t = t.
Proof. destruct t as [|r t]; intros H; cbn; auto. rewrite (H r) by (left; auto). auto. Qed.
(** Names of lower-case letters and digits only keep different ids. *)
Theorem entity_ids_distinct_partial (lod : N -> bool) (lower : list N -> list N) (a b : list N) :
  lod 95%N = false -> (forall r, lod r = true -> is_space r = false) ->
  (forall x, In x [a; b] -> x <> [] /\ lower x = x /\ forall r, In r x -> lod r = true) ->
  entity_node_id lod lower a = entity_node_id lod lower b -> a = b.
Proof.
  intros Hus Hsp H.
  assert (G : forall x, In x [a; b] -> entity_node_id lod lower x = ascii_text "entity:" ++ x).
  { intros x Hx. destruct (H x Hx) as (Hn & Hl & Hc). unfold entity_node_id.
    assert (Ht : trim_space x = x).
    { unfold trim_space. rewrite (drop_space_clean x) by (intros r Hr; apply Hsp, Hc; auto). rewrite (drop_space_clean (rev x)); [apply rev_involutive|]. intros r Hr. apply Hsp, Hc. apply in_rev. exact Hr. }
    rewrite Ht, Hl, flat_keep by auto. cbv zeta.
    assert (Hne : forall r, In r x -> r <> 95%N) by (intros r Hr ->; rewrite (Hc _ Hr) in Hus; discriminate).
    rewrite (drop_us_clean x) by auto. rewrite (drop_us_clean (rev x)) by (intros r Hr; apply Hne, in_rev; auto). rewrite rev_involutive.
    destruct x; [congruence|reflexivity]. }
  rewrite (G a), (G b) by (cbn; auto). intros E. apply app_inv_head in E. exact E.
Qed.
Definition ascii_lod (r : N) : bool := ((48 <=? r) && (r <=? 57) || (65 <=? r) && (r <=? 90) || (97 <=? r) && (r <=? 122))%N.
Definition ascii_lower (t : list N) : list N := map (fun r => if ((65 <=? r) && (r <=? 90))%N then (r + 32)%N else r) t.
(** Finding: "C++" and "C#" are the same entity, and so are all names without letters. *)
Theorem entity_ids_refuted :
  entity_node_id ascii_lod ascii_lower (ascii_text "C++") = entity_node_id ascii_lod ascii_lower (ascii_text "C#") /\
  entity_node_id ascii_lod ascii_lower (ascii_text "+") = entity_node_id ascii_lod ascii_lower (ascii_text "entity").
Proof. vm_compute. auto. Qed.
Example ex_entity : entity_node_id ascii_lod ascii_lower (ascii_text " New-York ") = ascii_text "entity:new_york".
Proof. vm_compute. reflexivity. Qed.
Print Assumptions entity_ids_distinct_partial.
Print Assumptions entity_ids_refuted.

(** *** C126 *)
(** Finding: turning reranking off has no effect, the defaults turn it on again. *)
Theorem rerank_off_ignored tokens names srt ord ssort nb ent o q seeds :
  search_graphrag tokens names srt ord ssort nb ent o q seeds =
  search_graphrag tokens names srt ord ssort nb ent
    {| q_topk := q_topk o; q_hops := q_hops o; q_related := q_related o; q_chunks := q_chunks o; q_chars := q_chars o; q_perdoc := q_perdoc o;
       q_rerank := negb (q_rerank o); q_lambda := q_lambda o; q_nograph := q_nograph o; q_mode := q_mode o |} q seeds.
Proof. reflexivity. Qed.
(** With reranking off the result should be in order of score; here the chunk of score 8
    comes after the one of score 7. *)
Definition off_seeds : list seed :=
  [{| s_id := "a"; s_doc := "d1"; s_content := "go graph store"; s_score := f64_of_Z 9 |}; {| s_id := "b"; s_doc := "d1"; s_content := "go graph stores"; s_score := f64_of_Z 8 |};
   {| s_id := "c"; s_doc := "d2"; s_content := "go graph index"; s_score := f64_of_Z 7 |};
   {| s_id := "d"; s_doc := "d3"; s_content := "unrelated"; s_score := f64_of_Z (-50) |}]%string.
Theorem rerank_off_refuted : exists o r, q_rerank o = false /\
  search_graphrag ex_tokens (fun _ => []) ex_srt (fun l => l) ex_ssort ex_nb ex_ent o "go graph" off_seeds = Ok r /\ map c_id (r_chunks r) = ["a"; "c"; "b"; "d"]%string.
Proof. exists {| q_topk := 0; q_hops := 0; q_related := 0; q_chunks := 0; q_chars := 0; q_perdoc := 0; q_rerank := false; q_lambda := f64_of_Z 0; q_nograph := true; q_mode := MLexical |}. eexists. split; [reflexivity|]. split; [vm_compute; reflexivity|vm_compute; reflexivity]. Qed.
Print Assumptions rerank_off_refuted.
