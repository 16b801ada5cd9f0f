(** Properties of lexical GraphRAG search. *)
From Coq Require Import String Ascii List NArith ZArith Bool Arith Lia ZifyBool ZifyNat Permutation Sorted.
From Coq Require Import Floats.SpecFloat.
From Verif Require Import Base Floats64 TopK StoreModel SearchModel DiversityModel DiversitySpec DiversityProofs AdvSearchProofs RagModel RagSpec RagProofs RagSearchProofs RagProps LexRagModel LexRagSpec LexRagProofs.
Import ListNotations.
Open Scope list_scope.
Open Scope nat_scope.

(** *** C194 *)
(** The seeds are the text hits followed by the chunks of the wanted entities, the latter
    counting for at least 0.75. Every distinct seed is a candidate, in the order it was
    first found, with the best of its scores. With the graph, every chunk node met from
    a seed counts as one more hit of 0.5; those that are no seeds are further candidates,
    up to the limit. The candidates are reranked and packed, and the entities are those
    met from a seed or next to a candidate. *)
Theorem lexical_search_exact tokens names blank srt ord ssort texts named nb ent o q given r :
  sort_ok by_score srt -> (forall l, Permutation l (ord l)) -> sort_ok String.ltb ssort ->
  (forall k l s, texts k = Ok l -> In s l -> not_nan (s_score s)) ->
  (forall ns k h l s, named ns k h = Ok l -> In s l -> not_nan (s_score s)) ->
  search_lexical tokens names blank srt ord ssort texts named nb ent o q given = Ok r ->
  blank q = false /\ r_context r = lines_of (map chunk_line (r_chunks r)) /\
  exists found more,
    texts (topk_limit o) = Ok found /\
    ((graph_wanted names o q given /\ names_wanted names q given <> [] /\ named (names_wanted names q given) (topk_limit o) (hops_limit o) = Ok more) \/
     ((~ graph_wanted names o q given \/ names_wanted names q given = []) /\ more = [])) /\
    let seeds := found ++ map raised more in
    exists ids, first_order (map s_id seeds) ids /\ NoDup ids /\
    (~ graph_wanted names o q given ->
       r_entities r = [] /\
       exists cands, Forall2 (fun id c => c_id c = id /\ offered seeds c /\ c_ents c = []) ids cands /\ from_candidates tokens names o q cands (r_chunks r)) /\
    (graph_wanted names o q given ->
       exists nss firsts pool kept,
         Forall2 (fun id ns => nb id (hops_limit o) (12 * topk_limit o)%Z = Some ns) ids nss /\
         let hits := seeds ++ map met_chunk (filter (fun n => String.eqb (n_type n) "chunk") (concat nss)) in
         Forall2 (fun id c => c_id c = id /\ offered hits c /\ entities_next ent id (c_ents c)) ids firsts /\
         NoDup (map c_id pool) /\ (forall id, In id (map c_id pool) <-> In id (map s_id hits) /\ ~ In id ids) /\
         (forall c, In c pool -> offered hits c /\ entities_next ent (c_id c) (c_ents c)) /\
         is_topk by_score (Z.to_nat (related_limit o)) pool kept /\
         from_candidates tokens names o q (firsts ++ kept) (r_chunks r) /\
         alphabetical (r_entities r) /\ NoDup (r_entities r) /\
         (forall e, In e (r_entities r) <->
            (exists n, In n (concat nss) /\ n_type n = "entity"%string /\ n_content n = e) \/
            (exists id l, In id (map s_id hits) /\ ent id = Some l /\ In e l))).
Proof.
  intros Hsrt Hord Hss Ht Hm E. unfold search_lexical in E. destruct (blank q) eqn:Eb; [discriminate|]. split; auto.
  rewrite !def_topk, !def_hops in E. destruct (texts (topk_limit o)) as [found| |] eqn:Ef; [|discriminate|discriminate]. cbn [bind] in E.
  pose proof (lex_use_spec names o q given) as U. set (use := use_graph names o q given) in *.
  assert (W : (if use && (length given =? 0) then names q else given) = (if use then names_wanted names q given else given)).
  { unfold names_wanted. destruct use; [|reflexivity]. destruct given; reflexivity. }
  rewrite W in E. clear W.
  assert (exists more, ((graph_wanted names o q given /\ names_wanted names q given <> [] /\ named (names_wanted names q given) (topk_limit o) (hops_limit o) = Ok more) \/
     ((~ graph_wanted names o q given \/ names_wanted names q given = []) /\ more = [])) /\
     (if use && negb (length (if use then names_wanted names q given else given) =? 0) then named (if use then names_wanted names q given else given) (topk_limit o) (hops_limit o) else Ok []) = Ok more) as (more & Hmore & Em).
  { destruct use; cbn [andb] in *.
    - destruct (names_wanted names q given) as [|w ws]; cbn [length Nat.eqb negb] in *; [exists []; auto|].
      destruct (named (w :: ws) (topk_limit o) (hops_limit o)) as [more| |]; [|discriminate|discriminate]. exists more. split; auto. left. split; [apply U; auto|]. split; [discriminate|auto].
    - exists []. split; auto. right. split; auto. left. intros H. apply U in H. discriminate. }
  rewrite Em in E. cbn [bind] in E. rewrite (map_ext _ _ lex_raise_raised) in E. set (seeds := found ++ map raised more) in *.
  assert (Hnn : forall x, In x seeds -> not_nan (s_score x)).
  { intros x Hx. apply in_app_or in Hx as [Hx|Hx]; [eapply Ht; eauto|]. apply in_map_iff in Hx as (y & <- & Hy). apply raised_not_nan.
    destruct Hmore as [(_ & _ & Hmore)|[_ ->]]; [eapply Hm; eauto|destruct Hy]. }
  destruct (seen_spec (map s_id seeds)) as [Hnd Hfo].
  pose proof (linv_adds seeds [] [] Hnn linv_nil) as L0. cbn [app] in L0.
  set (ids := fold_left lex_seen (map s_id seeds) []) in *. set (m0 := fold_left lex_add seeds []) in *.
  assert (Hidm : forall id, In id ids -> In id (map c_id m0)) by (intros id Hid; apply (l_ids _ _ L0), (proj1 Hfo), Hid).
  assert (Ctx : r_context r = lines_of (map chunk_line (r_chunks r)) /\
     (~ graph_wanted names o q given -> r_entities r = [] /\
       exists cands, Forall2 (fun id c => c_id c = id /\ offered seeds c /\ c_ents c = []) ids cands /\ from_candidates tokens names o q cands (r_chunks r)) /\
     (graph_wanted names o q given ->
       exists nss firsts pool kept,
         Forall2 (fun id ns => nb id (hops_limit o) (12 * topk_limit o)%Z = Some ns) ids nss /\
         let hits := seeds ++ map met_chunk (filter (fun n => String.eqb (n_type n) "chunk") (concat nss)) in
         Forall2 (fun id c => c_id c = id /\ offered hits c /\ entities_next ent id (c_ents c)) ids firsts /\
         NoDup (map c_id pool) /\ (forall id, In id (map c_id pool) <-> In id (map s_id hits) /\ ~ In id ids) /\
         (forall c, In c pool -> offered hits c /\ entities_next ent (c_id c) (c_ents c)) /\
         is_topk by_score (Z.to_nat (related_limit o)) pool kept /\
         from_candidates tokens names o q (firsts ++ kept) (r_chunks r) /\
         alphabetical (r_entities r) /\ NoDup (r_entities r) /\
         (forall e, In e (r_entities r) <->
            (exists n, In n (concat nss) /\ n_type n = "entity"%string /\ n_content n = e) \/
            (exists id l, In id (map s_id hits) /\ ent id = Some l /\ In e l)))).
  { destruct ids as [|i0 ids0] eqn:Ei.
    { injection E as <-. cbn [r_chunks r_entities r_context]. assert (S0 : map s_id seeds = []) by (apply seen_nil; exact Ei).
      apply map_eq_nil in S0. rewrite S0. split; auto. split.
      - intros _. split; auto. exists []. split; [constructor|apply from_nil; auto].
      - intros _. exists [], [], [], []. split; [constructor|]. cbn. split; [constructor|]. split; [constructor|]. split; [tauto|]. split; [intros c []|].
        split; [exists []; split; [auto|]; split; [cbn; lia|]; split; [constructor|intros x y []]|]. split; [apply from_nil; auto|]. split; [constructor|]. split; [constructor|].
        intros e. split; [intros []|]. intros [(n & [] & _)|(id & l & [] & _)]. }
    rewrite <- Ei in *. destruct use eqn:Eu.
    - split; [|split; [intros H; exfalso; apply H; apply U; auto|intros _]].
      all: destruct (lex_expand nb (query_defaults o) ids m0 []) as [[m es]|] eqn:Ex; [|discriminate].
      all: destruct (load_entities ent ssort m es) as [[m' es']|] eqn:El; [|discriminate].
      all: injection E as <-; cbn [r_chunks r_entities r_context].
      1: apply build_context_spec.
      destruct (lex_expand_spec nb (query_defaults o) ids seeds m0 [] m es Hnn L0 Ex) as (nss & F & [I1 I2 I3] & G).
      rewrite def_topk, def_hops in F. rewrite (Z.mul_comm (topk_limit o) 12) in F.
      change (fun n => String.eqb (n_type n) "chunk") with is_chunk. set (hits := seeds ++ map met_chunk (filter is_chunk (concat nss))) in *.
      destruct (load_spec ent ssort m es m' es' El) as [FL GL].
      assert (Hid : map c_id m' = map c_id m).
      { clear -FL. induction FL as [|a b l l' (x & R1 & ->) FL IH]; [reflexivity|]. cbn. f_equal. auto. }
      assert (N' : NoDup (map c_id m')) by (rewrite Hid; auto).
      assert (Hok : forall c, In c m' -> offered hits c /\ entities_next ent (c_id c) (c_ents c)).
      { assert (Hbwd : forall c', In c' m' -> exists c l, In c m /\ ent (c_id c) = Some l /\ c' = set_ents c (ssort l)).
        { intros c' Hc. clear -FL Hc. induction FL as [|a b l l' (x & R1 & R2) F IH]; [destruct Hc|]. destruct Hc as [<-|Hc]; [exists a, x; cbn; auto|].
          destruct (IH Hc) as (c & y & H1 & H2). exists c, y. cbn. auto. }
        intros c' Hc. destruct (Hbwd c' Hc) as (c & l & H1 & H2 & ->). destruct (I3 c H1) as [Q _]. split; [exact Q|].
        exists l. split; [exact H2|]. apply ssort_alpha. exact Hss. }
      set (pool := filter (fun c => if in_dec string_dec (c_id c) ids then false else true) (ord m')).
      assert (Hpool : forall c, In c pool <-> In c m' /\ ~ In (c_id c) ids).
      { intros c. unfold pool. rewrite filter_In. split.
        - intros [H1 H2]. split; [eapply Permutation_in; [apply Permutation_sym, Hord|exact H1]|]. destruct (in_dec string_dec (c_id c) ids); [discriminate|auto].
        - intros [H1 H2]. split; [eapply Permutation_in; [apply Hord|exact H1]|]. destruct (in_dec string_dec (c_id c) ids); [contradiction|auto]. }
      exists nss, (lex_firsts ids m'), pool, (firstn (Z.to_nat (related_limit o)) (srt pool)). split; [exact F|]. cbv zeta. split.
      { pose proof (firsts_spec (fun c => offered hits c /\ entities_next ent (c_id c) (c_ents c)) ids m' N') as Fs.
        assert (Fs' : Forall2 (fun id c => c_id c = id /\ offered hits c /\ entities_next ent (c_id c) (c_ents c)) ids (lex_firsts ids m')).
        { apply Fs; auto. intros id Hin. rewrite Hid. apply I2. unfold hits. rewrite map_app, in_app_iff. left. apply (proj1 Hfo). exact Hin. }
        clear -Fs'. induction Fs' as [|a b l l' (H1 & H2 & H3) F IH]; constructor; auto. subst a. auto. }
      split. { unfold pool. apply NoDup_map_filter. apply (Permutation_NoDup (l := map c_id m')); auto. apply Permutation_map. auto. }
      split. { intros id. rewrite in_map_iff. split.
        - intros (c & <- & Hc). apply Hpool in Hc as [H1 H2]. split; auto. apply I2. rewrite <- Hid. apply in_map. auto.
        - intros [H1 H2]. apply I2 in H1. rewrite <- Hid in H1. apply in_map_iff in H1 as (c & <- & H1). exists c. split; auto. apply Hpool. auto. }
      split. { intros c Hc. apply Hok. apply Hpool in Hc. tauto. }
      split. { apply topk_of_sort; auto. apply (weak_order_desc c_score). intros c Hc. apply Hpool in Hc as [Hc _]. destruct (Hok c Hc) as [(_ & (s & Hs & _ & ->) & _) _].
        apply in_app_or in Hs as [Hs|Hs]; auto. apply in_map_iff in Hs as (n & <- & _). apply met_not_nan. }
      split. { unfold lex_related. rewrite def_related. apply lex_finish_spec. }
      destruct (ssort_alpha ssort (nodup string_dec es') Hss) as [Q1 Q2]. split; auto.
      split; [eapply Permutation_NoDup; [exact Q1|apply NoDup_nodup]|].
      intros e. transitivity (In e es').
      { rewrite <- (nodup_In string_dec es'). split; apply Permutation_in; [apply Permutation_sym|]; exact Q1. }
      rewrite GL, G. split.
      + intros [[[]|H]|(c & l & H1 & H2 & H3)]; auto. right. exists (c_id c), l. split; auto. apply I2. apply in_map. auto.
      + intros [H|(id & l & H1 & H2 & H3)]; auto. right. apply I2 in H1. apply in_map_iff in H1 as (c & <- & H1). eauto.
    - replace (match ids with [] => Ok {| r_chunks := []; r_entities := []; r_context := "" |} | _ :: _ => _ end) with
        (Ok {| r_chunks := lex_finish tokens names (query_defaults o) q (lex_firsts ids m0); r_entities := []; r_context := build_context (lex_finish tokens names (query_defaults o) q (lex_firsts ids m0)) |}) in E by (rewrite Ei; reflexivity).
      injection E as <-. cbn [r_chunks r_entities r_context]. split; [apply build_context_spec|]. split; [|intros H; apply U in H; discriminate].
      intros _. split; auto. exists (lex_firsts ids m0). split; [|apply lex_finish_spec].
      apply (firsts_spec (fun c => offered seeds c /\ c_ents c = [])); auto; apply L0. }
  destruct Ctx as (C1 & C2 & C3). split; auto. exists found, more. split; auto. split; auto. cbv zeta. exists ids. auto.
Qed.
(** It answers exactly when the query is not blank, the searches it makes succeed and
    the graph can be read around every seed and every chunk met from one. *)
Theorem lexical_search_total tokens names blank srt ord ssort texts named nb ent o q given :
  (forall k l s, texts k = Ok l -> In s l -> not_nan (s_score s)) ->
  (forall ns k h l s, named ns k h = Ok l -> In s l -> not_nan (s_score s)) ->
  ((exists r, search_lexical tokens names blank srt ord ssort texts named nb ent o q given = Ok r) <->
   blank q = false /\
   exists found more,
    texts (topk_limit o) = Ok found /\
    ((graph_wanted names o q given /\ names_wanted names q given <> [] /\ named (names_wanted names q given) (topk_limit o) (hops_limit o) = Ok more) \/
     ((~ graph_wanted names o q given \/ names_wanted names q given = []) /\ more = [])) /\
    (graph_wanted names o q given -> forall id, In id (map s_id (found ++ more)) ->
       ent id <> None /\ exists ns, nb id (hops_limit o) (12 * topk_limit o)%Z = Some ns /\
       forall n, In n ns -> n_type n = "chunk"%string -> ent (n_id n) <> None)).
Proof.
  intros Ht Hm. unfold search_lexical. destruct (blank q) eqn:Eb; [split; [intros [r E]; discriminate|intros [E _]; discriminate]|].
  rewrite !def_topk, !def_hops. destruct (texts (topk_limit o)) as [found| |] eqn:Ef; cbn [bind].
  2,3: split; [intros [r E]; discriminate|intros (_ & f & m & E & _); discriminate].
  pose proof (lex_use_spec names o q given) as U. set (use := use_graph names o q given) in *.
  assert (W : (if use && (length given =? 0) then names q else given) = (if use then names_wanted names q given else given)).
  { unfold names_wanted. destruct use; [|reflexivity]. destruct given; reflexivity. }
  rewrite W. clear W.
  set (cond := fun more : list seed => (graph_wanted names o q given /\ names_wanted names q given <> [] /\ named (names_wanted names q given) (topk_limit o) (hops_limit o) = Ok more) \/
     ((~ graph_wanted names o q given \/ names_wanted names q given = []) /\ more = [])).
  set (call := if use && negb (length (if use then names_wanted names q given else given) =? 0) then named (if use then names_wanted names q given else given) (topk_limit o) (hops_limit o) else Ok []).
  assert (K : forall more, cond more <-> call = Ok more).
  { intros more. unfold cond, call. destruct use; cbn [andb].
    - destruct (names_wanted names q given) as [|w ws]; cbn [length Nat.eqb negb].
      + split; [intros [(_ & H & _)|[_ ->]]; [congruence|auto]|intros [= <-]; auto].
      + split; [intros [(_ & _ & H)|[[H|H] _]]; [auto|exfalso; apply H, U; auto|discriminate]|]. intros H. left. split; [apply U; auto|]. split; [discriminate|auto].
    - split; [intros [(H & _)|[_ ->]]; [apply U in H; discriminate|auto]|intros [= <-]]. right. split; auto. left. intros H. apply U in H. discriminate. }
  destruct call as [more| |]; cbn [bind].
  2,3: split; [intros [r E]; discriminate|]; intros (_ & f & m & _ & C & _); apply K in C; discriminate.
  rewrite (map_ext _ _ lex_raise_raised). set (seeds := found ++ map raised more) in *.
  assert (Sid : map s_id seeds = map s_id (found ++ more)) by (unfold seeds; rewrite !map_app, map_map; reflexivity).
  assert (Hnn : forall x, In x seeds -> not_nan (s_score x)).
  { intros x Hx. apply in_app_or in Hx as [Hx|Hx]; [eapply Ht; eauto|]. apply in_map_iff in Hx as (y & <- & Hy). apply raised_not_nan.
    destruct (proj2 (K more) eq_refl) as [(_ & _ & Hmore)|[_ ->]]; [eapply Hm; eauto|destruct Hy]. }
  destruct (seen_spec (map s_id seeds)) as [Hnd [Hin _]].
  pose proof (linv_adds seeds [] [] Hnn linv_nil) as L0. cbn [app] in L0.
  transitivity (graph_wanted names o q given -> forall id, In id (map s_id seeds) ->
       ent id <> None /\ exists ns, nb id (hops_limit o) (12 * topk_limit o)%Z = Some ns /\
       forall n, In n ns -> n_type n = "chunk"%string -> ent (n_id n) <> None).
  2:{ rewrite Sid. split.
      - intros H. split; auto. exists found, more. split; auto. split; [apply K; auto|exact H].
      - intros (_ & f & m & [= <-] & C & H). apply K in C. injection C as <-. exact H. }
  set (ids := fold_left lex_seen (map s_id seeds) []) in *. set (m0 := fold_left lex_add seeds []) in *.
  destruct ids as [|i0 ids0] eqn:Ei.
  { split; [|eauto]. intros _ _ id H. exfalso. apply (Hin id). exact H. }
  rewrite <- Ei in *. clearbody ids. rewrite Z.mul_comm. destruct use eqn:Eu.
  2:{ split; [intros _ H; apply U in H; discriminate|eauto]. }
  pose proof (lex_expand_some nb (query_defaults o) ids m0 []) as X. rewrite def_topk, def_hops in X.
  destruct (lex_expand nb (query_defaults o) ids m0 []) as [[m es]|] eqn:Ex.
  - destruct (lex_expand_spec nb (query_defaults o) ids seeds m0 [] m es Hnn L0 Ex) as (nss & F & [I1 I2 I3] & G). rewrite def_topk, def_hops in F.
    pose proof (load_some ent ssort m es) as Y.
    assert (Y' : (forall c, In c m -> ent (c_id c) <> None) <-> (forall id, In id (map s_id seeds) ->
       ent id <> None /\ exists ns, nb id (hops_limit o) (topk_limit o * 12)%Z = Some ns /\
       forall n, In n ns -> n_type n = "chunk"%string -> ent (n_id n) <> None)).
    { rewrite map_app in I2.
      assert (Fi : forall id, In id ids -> exists ns, In ns nss /\ nb id (hops_limit o) (topk_limit o * 12)%Z = Some ns).
      { clear -F. intros id H. induction F as [|a b l l' H1 F IH]; [destruct H|]. destruct H as [<-|H]; [exists b; cbn; auto|]. destruct (IH H) as (ns & Q). exists ns. cbn. tauto. }
      assert (Fn : forall ns, In ns nss -> exists id, In id ids /\ nb id (hops_limit o) (topk_limit o * 12)%Z = Some ns).
      { clear -F. intros ns H. induction F as [|a b l l' H1 F IH]; [destruct H|]. destruct H as [<-|H]; [exists a; cbn; auto|]. destruct (IH H) as (id & Q). exists id. cbn. tauto. }
      assert (Hent : (forall c, In c m -> ent (c_id c) <> None) <-> forall id, In id (map c_id m) -> ent id <> None).
      { split; [intros H id Hid; apply in_map_iff in Hid as (c & <- & Hc); auto|]. intros H c Hc. apply H. apply in_map. auto. }
      rewrite Hent. split.
      - intros H id Hid. split; [apply H, I2, in_app_iff; auto|]. apply Hin in Hid. destruct (Fi id Hid) as (ns & Q1 & Q2). exists ns. split; auto. intros n Hn Hc. apply H, I2, in_app_iff. right.
        rewrite map_map. apply in_map_iff. exists n. split; auto. apply filter_In. split; [apply in_concat; eauto|]. unfold is_chunk. rewrite Hc. reflexivity.
      - intros H id Hid. apply I2, in_app_iff in Hid as [Hid|Hid]; [apply H; auto|]. rewrite map_map in Hid. apply in_map_iff in Hid as (n & <- & Hn). apply filter_In in Hn as [Hn Hc].
        apply in_concat in Hn as (ns & Hns & Hn). destruct (Fn ns Hns) as (id & Q1 & Q2). apply Hin in Q1. destruct (H id Q1) as (_ & ns' & R1 & R2). rewrite Q2 in R1. injection R1 as <-. apply (R2 n); auto. apply String.eqb_eq. exact Hc. }
    destruct (load_entities ent ssort m es) as [[m' es']|].
    + split; [intros _ _; apply Y', Y; discriminate|eauto].
    + split; [intros [r E]; discriminate|]. intros H. exfalso. apply (proj1 Y); [|auto]. apply Y', H, U. auto.
  - split; [intros [r E]; discriminate|]. intros H. exfalso. apply (proj1 X); [|auto]. intros id Hid. apply Hin in Hid. destruct (H (proj1 U eq_refl) id Hid) as (_ & ns & -> & _). discriminate.
Qed.
(** A text hit "a" of score 0.25 next to a text hit "b" of score 4: it is met from "b" and
    so counts for 0.5; chunk "c" was found through the entity and counts for 1; chunk "d"
    was only met. *)
Definition lx_text (_ : Z) : outcome (list seed) := Ok
  [{| s_id := "b"; s_doc := "d2"; s_content := "index"; s_score := f64_of_Z 4 |}; {| s_id := "a"; s_doc := "d1"; s_content := "go graph"; s_score := f64_div (f64_of_Z 1) (f64_of_Z 4) |}].
Definition lx_named (_ : list string) (_ _ : Z) : outcome (list seed) := Ok [{| s_id := "c"; s_doc := "d3"; s_content := "store"; s_score := f64_of_Z 1 |}].
Definition lx_node (id : string) : gnode := {| n_id := id; n_type := "chunk"; n_content := "text"; n_doc := None |}.
Definition lx_nb (id : string) (_ _ : Z) : option (list gnode) :=
  Some (if String.eqb id "b" then [lx_node "a"; lx_node "d"; {| n_id := "e"; n_type := "entity"; n_content := "Go"; n_doc := None |}] else []).
Definition lx_opts : qopts := {| q_topk := 2; q_hops := 0; q_related := 1; q_chunks := 10; q_chars := 0; q_perdoc := 0; q_rerank := false; q_lambda := f_one; q_nograph := false; q_mode := MGraph |}.
Definition lx_search (ord : list rchunk -> list rchunk) (nb : string -> Z -> Z -> option (list gnode)) :=
  search_lexical ex_tokens (fun _ => ["Go"%string]) (fun q => String.eqb q "") ex_srt ord ex_ssort lx_text lx_named nb ex_ent lx_opts "Go" [].
Example lx_found : exists r, lx_search (fun l => l) lx_nb = Ok r /\
  map c_id (r_chunks r) = ["b"; "a"; "c"; "d"]%string /\ r_entities r = ["Disk"; "Go"]%string /\
  map (fun c => feq (c_score c) (dec 1 2)) (r_chunks r) = [false; true; false; true].
Proof. eexists. split; [vm_compute; reflexivity|]. split; [vm_compute; reflexivity|]. split; vm_compute; reflexivity. Qed.
Print Assumptions lexical_search_exact.
Print Assumptions lexical_search_total.

(** *** C195 *)
(** Refuted: which related chunks are answered is not determined by what is stored. All
    chunks met through the graph score 0.5, so that the limit keeps whichever the
    iteration order of a map puts first: two runs on the same data differ. *)
Definition lx_nb2 (id : string) (_ _ : Z) : option (list gnode) := Some (if String.eqb id "b" then [lx_node "d"; lx_node "f"] else []).
Theorem lexical_related_order_refuted :
  exists tokens names blank srt ssort texts named nb ent o q given ord1 ord2 r1 r2,
    sort_ok by_score srt /\ sort_ok String.ltb ssort /\ (forall l, Permutation l (ord1 l)) /\ (forall l, Permutation l (ord2 l)) /\
    search_lexical tokens names blank srt ord1 ssort texts named nb ent o q given = Ok r1 /\
    search_lexical tokens names blank srt ord2 ssort texts named nb ent o q given = Ok r2 /\
    In "d"%string (map c_id (r_chunks r1)) /\ ~ In "d"%string (map c_id (r_chunks r2)) /\ length (r_chunks r1) = length (r_chunks r2).
Proof.
  exists ex_tokens, (fun _ => ["Go"%string]), (fun q => String.eqb q ""), ex_srt, ex_ssort, lx_text, lx_named, lx_nb2, ex_ent, lx_opts, "Go"%string, [], (@rev rchunk), (fun l => l).
  eexists. eexists. split; [apply isort_ok|]. split; [apply isort_ok|]. split; [apply Permutation_rev|]. split; [auto|].
  split; [vm_compute; reflexivity|]. split; [vm_compute; reflexivity|].
  split; [vm_compute; tauto|]. split; [|reflexivity]. vm_compute. intuition discriminate.
Qed.
Print Assumptions lexical_related_order_refuted.
