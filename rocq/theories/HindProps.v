(** C61, C62, C127-C143: the agent memory, for every index, similarity, full-text index,
    strategy and history of calls, including failing ones and restarts. *)
From Coq Require Import String Ascii List NArith ZArith Bool Lia Permutation Sorted DecimalString DecimalZ DecimalPos DecimalFacts.
From Coq Require Import Floats.SpecFloat.
From Verif Require Import Base Floats64 TopK EncodingModel EncodingSpec DimensionModel SimilarityModel StoreModel StoreSpec StoreProofs SearchModel SearchSpec FilterModel SearchProps
  AdvSearchModel GraphModel ChatModel ChatSpec ChatProps RagModel HindModel HindSpec HindProofs HindProofs2 HindProofs3.
Import ListNotations.
Open Scope string_scope.
Open Scope list_scope.
Open Scope nat_scope.

(** *** examples *)
(** An exact index: the nearest by cosine similarity. *)
Definition near_index : index_ops :=
  {| ix := list (string * list N);
     ix_insert := fun i id v => (id, v) :: filter (fun p => negb (String.eqb (fst p) id)) i;
     ix_delete := fun i id => filter (fun p => negb (String.eqb (fst p) id)) i;
     ix_search := fun i q k => firstn k (map fst (isort (fun a b => fgt (cosine q (snd a)) (cosine q (snd b))) i)) |}.
Definition F0 : formats :=
  {| ft_conf := fun _ => "0.9000"; ft_scan_d := fun x => match NilZero.int_of_string x with Some d => Z.of_int d | None => 0%Z end; ft_scan_f := fun _ => dec 9 10 |}.
Definition ev0 : henv := {| he_store := good_env; he_graph := fun _ => good_env; he_uuid := "uuid"; he_now := 100 |}.
Definition no_graph : gdb := {| g_nodes := []; g_edges := [] |}.
Definition sys0 (c : string) : sys near_index :=
  match open_sys near_index c 2 SmartAdapt ev0 empty_db no_graph [] with
  | Ok y => y
  | _ => {| sy_store := empty_at near_index [] 2; sy_graph := no_graph; sy_banks := [] |}
  end.
Lemma sys0_new c : new_system near_index (sys0 c).
Proof. exists c, 2%Z, SmartAdapt, ev0, []. reflexivity. Qed.
Definition mem_at (id b t text : string) (v : list N) (ents : list string) (meta : smap) (time : Z) : memory :=
  {| hm_id := id; hm_bank := b; hm_type := t; hm_content := text; hm_vec := Some v; hm_ents := ents; hm_conf := f_zero; hm_meta := meta; hm_time := Some time |}.
Definition fact (id b text : string) (v : list N) : memory := mem_at id b "world" text v [] [] 50.
Definition say_all (l : list memory) : list ((nat -> henv) * hop near_index) := map (fun m => (fun _ => ev0, HRetain near_index m)) l.
Definition after (l : list memory) : sys near_index := hrun near_index F0 (sys0 "memories") (say_all l).
Definition E0 : engine :=
  {| en_mode := UseHNSW; en_sc := cosine_scorer; en_fts := fun t => if String.eqb t "go" then Some [Some "m2"] else None; en_srt := isort by_score;
     en_shuffle := fun l => l; en_noise := fun _ _ => no_noise |}.
Definition R0 : race := {| ra_blocks := fun l => l; ra_strats := fun l => l; ra_ranks := fun _ l => l; ra_ids := fun l => l |}.
Lemma fair0 : fair R0.
Proof. repeat split; intros; apply Permutation_refl. Qed.
Definition only (t : option (option Z * option Z)) (e : list string) (m p : bool) (k : Z) : option strategy :=
  Some {| sg_temporal := t; sg_entity := e; sg_memory := m; sg_priming := p; sg_topk := k |}.
Definition ask (b query : string) (v : list N) (sg : option strategy) (k : Z) : request := {| q_bank := b; q_query := query; q_vec := Some v; q_strategy := sg; q_topk := k |}.
Definition recall0 (y : sys near_index) (q : request) : list recalled := recall near_index F0 E0 1000 R0 None y q.
Definition shown (l : list recalled) : list (string * string) := map (fun r => (hm_id (re_mem r), hm_bank (re_mem r))) l.
Lemma honest0 : honest None.
Proof. intros f q l l' H. discriminate. Qed.
Lemma scan0 z : ft_scan_d F0 (fmt_d z) = z.
Proof.
  cbn. unfold fmt_d. rewrite NilZero.isi; [apply DecimalZ.of_to| |]; destruct z; cbn; try discriminate.
  all: intros H; injection H; apply DecimalPos.Unsigned.to_uint_nonnil.
Qed.

(** ** C61 *)
(** With the keyword strategy off (or no query text, or no query vector), every result of
    Recall is the latest version of a retained memory of that bank, unless some retained
    memory carries a metadata key "bank_id" of its own. *)
Theorem recall_bank_partial :
  forall I F E now R rr y h q r, new_system I y -> sort_ok by_score (en_srt E) -> (forall l, Permutation l (en_shuffle E l)) -> fair R -> honest rr -> no_hybrid q ->
  (forall m, In m (retained I F y h) -> assoc "bank_id" (hm_meta m) = None) ->
  In r (recall I F E now R rr (hrun I F y h) q) ->
  hm_bank (re_mem r) = q_bank q /\
  exists m, last_memory (hm_id (re_mem r)) (retained I F y h) = Some m /\ hm_bank m = q_bank q /\ hm_content (re_mem r) = hm_content m.
Proof.
  intros I F E now R rr y h q r N S P HR Hh Hq Hk Hr. destruct (recall_from I F E now R HR rr _ q r Hh Hr) as (st & l & r0 & H1 & H2 & H3).
  apply answers_sound in H1 as [Ha H1]. destruct (answer_rows I F E now S P _ _ _ _ _ H1 H2) as (e & (w & Hw & W1 & W2 & W3) & E1 & E2).
  assert (MF : matches_filter e [("bank_id", q_bank q)] = true).
  { destruct E2 as [[-> V]|]; auto. exfalso. destruct Ha as [Ha1 Ha2]. destruct Hq as [Hq|[Hq|Hq]]; congruence. }
  destruct (history_kept I F y h N) as (_ & A & _). destruct (A w Hw) as (m & L & M1 & M2 & M3). destruct (last_memory_in _ _ _ L) as [Lin _].
  rewrite H3, E1. assert (MB : assoc "bank_id" (build_metadata F m (match hm_time m with Some t => t | None => 0%Z end)) = Some (hm_bank m)) by (apply meta_bank, Hk; exact Lin).
  assert (B : hm_bank m = q_bank q).
  { cbn in MF. rewrite W3, M3, andb_true_r in MF. apply String.eqb_eq in MF. unfold meta_get in MF. rewrite MB in MF. exact MF. }
  split; [|exists m; cbn; rewrite W1, W2; auto]. cbn. unfold meta_of. rewrite W3, M3, MB. exact B.
Qed.
Example recall_bank_partial_ex :
  let y := after [fact "m1" "a" "tea" v10; fact "m2" "b" "coffee" v11; fact "m3" "a" "milk" v01] in
  let q := ask "a" "tea" v10 (only None [] true false 10) 10 in
  new_system near_index (sys0 "memories") /\ sort_ok by_score (en_srt E0) /\ fair R0 /\ no_hybrid q /\ shown (recall0 y q) = [("m1", "a"); ("m3", "a")].
Proof.
  split; [apply sys0_new|]. split; [apply isort_ok|]. split; [apply fair0|]. split; [left; reflexivity|vm_compute; reflexivity].
Qed.
(** Finding: with the default strategy, a keyword hit of another bank is returned. *)
Theorem recall_bank_refuted :
  exists h q r, let y := hrun near_index F0 (sys0 "memories") h in new_system near_index (sys0 "memories") /\ q_strategy q = None /\
    In r (recall0 y q) /\ hm_bank (re_mem r) <> q_bank q.
Proof.
  exists (say_all [fact "m1" "a" "tea" v10; fact "m2" "b" "go" v11]), (ask "a" "go" v10 None 10). eexists.
  split; [apply sys0_new|]. split; [reflexivity|]. split; [vm_compute; right; left; reflexivity|vm_compute; discriminate].
Qed.
(** Finding: a memory with a metadata entry "bank_id" of its own is recalled for that
    other bank. *)
Theorem recall_bank_metadata_refuted :
  exists m q r, hm_bank m <> q_bank q /\ retained near_index F0 (sys0 "memories") (say_all [m]) = [m] /\ no_hybrid q /\
    In r (recall0 (after [m]) q) /\ hm_id (re_mem r) = hm_id m.
Proof.
  exists (mem_at "m1" "a" "world" "secret" v10 [] [("bank_id", "b")] 50), (ask "b" "" v10 None 10). eexists.
  split; [discriminate|]. split; [vm_compute; reflexivity|]. split; [right; left; reflexivity|]. split; [vm_compute; left; reflexivity|vm_compute; reflexivity].
Qed.

(** ** C127 *)
(** Recall asks exactly the strategies the request enables. With two or more of them the
    result holds each memory found once, scored by the sum of 1/(60+place) over the
    strategies that found it, best first and cut to TopK; with one, its answer, best
    first and cut. *)
Theorem recall_fusion_exact :
  forall I F E now R y q, fair R ->
  exists parts, NoDup (map fst parts) /\ (forall st, asked q st <-> In st (map fst parts)) /\ (forall st l, In (st, l) parts -> answer I F E now (sy_store y) q st l) /\
    let out := recall I F E now R None y q in
    (1 < length parts ->
     exists all, NoDup (map (fun r => hm_id (re_mem r)) all) /\
       (forall r, In r all -> fused_score parts (hm_id (re_mem r)) (re_score r) /\ exists l r0, In (re_strat r, l) parts /\ In r0 l /\ re_mem r = re_mem r0) /\
       (forall st l r0, In (st, l) parts -> In r0 l -> In (hm_id (re_mem r0)) (map (fun r => hm_id (re_mem r)) all)) /\
       is_topk higher (cut (q_topk q) all) all out) /\
    (forall st l, parts = [(st, l)] -> (forall r, In r l -> not_nan (re_score r)) -> is_topk higher (cut (q_topk q) l) l out) /\
    (parts = [] -> out = []).
Proof.
  intros I F E now R y q HR. exists (answers I F E now (sy_store y) q (strategy_used q)).
  split; [apply answers_nodup|]. split; [|split; [|split; [|split]]].
  - intros st. split.
    + intros H. destruct (answers_asked I F E now (sy_store y) q st H) as (l & Hl). apply (in_map fst) in Hl. exact Hl.
    + intros H. apply in_map_iff in H as ((st' & l) & <- & H). apply answers_sound in H. apply H.
  - intros st l H. apply answers_sound in H. apply H.
  - apply recall_fused. exact HR.
  - intros st l. apply recall_single. exact HR.
  - apply recall_nothing. exact HR.
Qed.
Example recall_fusion_exact_ex :
  let y := after [fact "m1" "a" "tea" v10; fact "m2" "a" "go" v01; fact "m3" "a" "milk" v11] in
  let q := ask "a" "go" v10 None 2 in
  asked q Semantic /\ asked q Keyword /\ ~ asked q Temporal /\ map (fun r => (hm_id (re_mem r), re_strat r)) (recall0 y q) = [("m1", Semantic); ("m2", Semantic)] /\
  map re_score (recall0 y q) = [f64_add (f64_add f_zero (dec 1 61)) (dec 1 62); f64_add (f64_add f_zero (dec 1 63)) (dec 1 61)].
Proof.
  split; [split; [reflexivity|discriminate]|]. split; [split; [reflexivity|discriminate]|]. split; [intros H; apply H; reflexivity|]. split; vm_compute; reflexivity.
Qed.

(** ** C128 *)
(** A reranker gets the fused list and the query and decides the order; when it fails,
    returns nothing, or there is no query text or no candidate, the fused order is kept;
    TopK is applied afterwards. *)
Theorem recall_reranker_fallback :
  forall I F E now R y q, exists fused,
    let limited l := if Z.ltb 0 (q_topk q) then firstn (Z.to_nat (q_topk q)) l else l in
    recall I F E now R None y q = limited fused /\
    forall f,
      (forall x l, q_query q <> "" -> fused <> [] -> f (q_query q) fused = Some (x :: l) -> recall I F E now R (Some f) y q = limited (x :: l)) /\
      (q_query q = "" \/ fused = [] \/ f (q_query q) fused = None \/ f (q_query q) fused = Some [] -> recall I F E now R (Some f) y q = limited fused).
Proof.
  intros I F E now R y q. exists (merged I F E now R y q). cbv zeta. split; [reflexivity|]. intros f. rewrite recall_eq. unfold cut_list, apply_reranker. split.
  - intros x l H1 H2 H3. destruct (merged I F E now R y q) as [|z m]; [congruence|]. destruct (String.eqb_spec (q_query q) ""); [congruence|]. rewrite H3. reflexivity.
  - intros [->|[->|[H|H]]]; [destruct (merged _ _ _ _ _ _ _); reflexivity|reflexivity|..].
    all: destruct (merged I F E now R y q); [reflexivity|]; destruct (String.eqb _ _); [reflexivity|]; rewrite H; reflexivity.
Qed.
Example recall_reranker_fallback_ex :
  let y := after [fact "m1" "a" "tea" v10; fact "m2" "a" "go" v01; fact "m3" "a" "milk" v11] in
  let q := ask "a" "go" v10 None 2 in
  map (fun r => hm_id (re_mem r)) (recall near_index F0 E0 1000 R0 (Some (fun _ l => Some (rev l))) y q) = ["m3"; "m2"] /\
  map (fun r => hm_id (re_mem r)) (recall near_index F0 E0 1000 R0 (Some (fun _ _ => None)) y q) = ["m1"; "m2"].
Proof. split; vm_compute; reflexivity. Qed.

(** ** C129 *)
(** A recalled memory is the latest retained version of its id; content always, and, when
    the metadata uses none of Retain's own keys, bank, type and time; entities when they
    contain no comma. *)
Theorem recalled_memory_faithful :
  forall I F E now R rr y h q r, new_system I y -> sort_ok by_score (en_srt E) -> (forall l, Permutation l (en_shuffle E l)) -> fair R -> honest rr ->
  (forall z, ft_scan_d F (fmt_d z) = z) -> In r (recall I F E now R rr (hrun I F y h) q) ->
  exists m, last_memory (hm_id (re_mem r)) (retained I F y h) = Some m /\ hm_content (re_mem r) = hm_content m /\
    ((forall k, In k reserved -> assoc k (hm_meta m) = None) ->
     hm_bank (re_mem r) = hm_bank m /\ hm_type (re_mem r) = hm_type m /\ hm_time (re_mem r) = hm_time m /\
     (Forall no_comma (hm_ents m) -> hm_ents m <> [""] -> hm_ents (re_mem r) = hm_ents m) /\
     hm_conf (re_mem r) = (if String.eqb (hm_type m) "opinion" || String.eqb (hm_type m) "observation" then ft_scan_f F (ft_conf F (hm_conf m)) else S754_zero false)).
Proof.
  intros I F E now R rr y h q r N S P HR Hh Hf Hr. destruct (recall_from I F E now R HR rr _ q r Hh Hr) as (st & l & r0 & H1 & H2 & H3).
  apply answers_sound in H1 as [_ H1]. destruct (answer_rows I F E now S P _ _ _ _ _ H1 H2) as (e & (w & Hw & W1 & W2 & W3) & E1 & _).
  destruct (history_kept I F y h N) as (_ & A & _). destruct (A w Hw) as (m & L & M1 & M2 & M3).
  assert (T : exists t, hm_time m = Some t). { destruct (last_memory_in _ _ _ L) as [Lin _]. clear - Lin. revert y Lin. induction h as [|[ev o] h IH]; intros y H; [destruct H|]. cbn [retained] in H.
    apply in_app_or in H as [H|H]; [|eapply IH; exact H]. assert (K : forall ev y m', In m (kept_one I F ev y m') -> exists t, hm_time m = Some t).
    { intros ev' y' m' K. unfold kept_one in K. destruct (snd _); try destruct K. subst. eexists. reflexivity. destruct H0. }
    destruct o; try destruct H; [eapply K; exact H|]. revert ev y H. induction facts as [|f fs IHf]; intros ev y H; [destruct H|]. cbn [kept_facts] in H.
    destruct (usable_b f); [apply in_app_or in H as [H|H]; [eapply K; exact H|]|]; eapply IHf; exact H. }
  destruct T as (t & T). rewrite H3, E1. exists m. split; [cbn; rewrite W1; exact L|]. split; [cbn; congruence|]. intros Hres.
  assert (RB := read_back F now e m t ltac:(congruence) ltac:(congruence) ltac:(rewrite W3, M3, T; reflexivity) Hres). rewrite Hf in RB. rewrite T. exact RB.
Qed.
Example recalled_memory_faithful_ex :
  (forall z, ft_scan_d F0 (fmt_d z) = z) /\
  let m := mem_at "m1" "a" "opinion" "likes tea" v10 ["Ann"; "Bob"] [("source", "chat")] 77 in
  (forall k, In k reserved -> assoc k (hm_meta m) = None) /\ Forall no_comma (hm_ents m) /\
  map (fun r => (hm_id (re_mem r), hm_type (re_mem r), hm_ents (re_mem r), hm_time (re_mem r))) (recall0 (after [m]) (ask "a" "" v10 None 10)) = [("m1", "opinion", ["Ann"; "Bob"], Some 77%Z)].
Proof.
  split; [exact scan0|]. cbv zeta. split; [intros k H; cbn in H; repeat (destruct H as [<-|H]; [reflexivity|]); destruct H|]. split; [|vm_compute; reflexivity].
  constructor; [|constructor; [|constructor]]; intros a b H.
  all: repeat (destruct a as [|? a]; cbn in H; [discriminate|injection H as <- H]); destruct a; discriminate.
Qed.
(** Findings: additional metadata is never returned, and an entity with a comma comes back
    as two. *)
Theorem recalled_metadata_refuted :
  exists m r, In r (recall0 (after [m]) (ask "a" "" v10 None 10)) /\ retained near_index F0 (sys0 "memories") (say_all [m]) = [m] /\
    assoc "source" (hm_meta m) = Some "chat" /\ hm_meta (re_mem r) = [] /\ hm_ents m = ["Smith, J"] /\ hm_ents (re_mem r) = ["Smith"; " J"].
Proof.
  exists (mem_at "m1" "a" "world" "likes tea" v10 ["Smith, J"] [("source", "chat")] 77). eexists. split; [vm_compute; left; reflexivity|].
  split; [vm_compute; reflexivity|]. split; [reflexivity|]. split; [reflexivity|]. split; reflexivity.
Qed.

(** ** C130 *)
(** After any history, restarts included, the latest version of every retained memory is
    stored: content and metadata, under its id. *)
Theorem retained_memory_kept :
  forall I F y h id m, new_system I y -> last_memory id (retained I F y h) = Some m ->
  exists e meta, get_by_id I (sy_store (hrun I F y h)) id = Ok e /\ e_id e = id /\ e_content e = hm_content m /\ e_meta e = Some meta /\
    (NoDup (map fst (hm_meta m)) -> forall k v, assoc k (hm_meta m) = Some v -> assoc k meta = Some v) /\
    (assoc "bank_id" (hm_meta m) = None -> assoc "bank_id" meta = Some (hm_bank m)) /\
    (assoc "memory_type" (hm_meta m) = None -> assoc "memory_type" meta = Some (hm_type m)) /\
    (forall x l, hm_ents m = x :: l -> assoc "entities" (hm_meta m) = None -> assoc "entities" meta = Some (String.concat "," (x :: l))).
Proof.
  intros I F y h id m N L. destruct (kept_get I F y h id m N L) as (e & H1 & H2 & H3 & H4). exists e. eexists. split; [exact H1|]. split; [exact H2|]. split; [exact H3|]. split; [exact H4|]. split; [|split; [|split]].
  - intros Nd k v H. unfold build_metadata. apply assoc_sets_hit; auto.
  - intros H. rewrite meta_key by exact H. reflexivity.
  - intros H. rewrite meta_key by exact H. reflexivity.
  - intros x l Hx H. rewrite meta_key by exact H. rewrite Hx. destruct (String.eqb _ "opinion" || String.eqb _ "observation"); reflexivity.
Qed.
Example retained_memory_kept_ex :
  let h := say_all [fact "m1" "a" "tea" v10; fact "m1" "a" "coffee" v11] ++ [(fun _ => ev0, HRestart near_index "memories" 2 SmartAdapt [])] in
  new_system near_index (sys0 "memories") /\ (exists m, last_memory "m1" (retained near_index F0 (sys0 "memories") h) = Some m /\ hm_content m = "coffee").
Proof. split; [apply sys0_new|]. eexists. split; [vm_compute; reflexivity|reflexivity]. Qed.
(** ** C137 *)
(** Finding: memories go to a collection named "memories" whatever collection is
    configured; with any other name every Retain fails. *)
Theorem custom_collection_refuted :
  exists m, snd (retain near_index F0 ev0 (sys0 "notes") m) <> Ok tt /\ snd (retain near_index F0 ev0 (sys0 "memories") m) = Ok tt /\
    get_collection near_index (sy_store (sys0 "notes")) "notes" <> Err ENotFound.
Proof. exists (fact "m1" "a" "tea" v10). split; [vm_compute; discriminate|]. split; [vm_compute; reflexivity|vm_compute; discriminate]. Qed.

(** ** C131 *)
(** Recall is not complete: with an exact index, a bank's only memory is not found when
    another bank holds more than TopK nearer ones. *)
Theorem recall_complete_refuted :
  exists h q m, let y := hrun near_index F0 (sys0 "memories") h in last_memory "m1" (retained near_index F0 (sys0 "memories") h) = Some m /\
    hm_bank m = q_bank q /\ sg_memory (strategy_used q) = true /\ (0 < q_topk q)%Z /\ recall0 y q = [].
Proof.
  exists (say_all [fact "m1" "a" "tea" v01; fact "m2" "b" "x" v11; fact "m3" "b" "y" v10]), (ask "a" "" v10 (only None [] true false 1) 1). eexists.
  split; [vm_compute; reflexivity|]. split; [reflexivity|]. split; [reflexivity|]. split; [reflexivity|vm_compute; reflexivity].
Qed.
(** ** C138 *)
(** A temporal recall returns only memories created within the limits. *)
Theorem temporal_recall_in_range :
  forall I F E now R y q tf r, fair R -> sg_temporal (strategy_used q) = Some tf -> In r (recall I F E now R None y q) -> re_strat r = Temporal ->
  exists t, hm_time (re_mem r) = Some t /\ within tf t.
Proof.
  intros I F E now R y q tf r HR T Hr St. 
  assert (G : exists l r0, In (Temporal, l) (answers I F E now (sy_store y) q (strategy_used q)) /\ In r0 l /\ re_mem r = re_mem r0).
  { destruct (le_lt_dec (length (answers I F E now (sy_store y) q (strategy_used q))) 1) as [Le|Lt].
    - rewrite recall_eq in Hr. cbn [apply_reranker] in Hr. unfold merged in Hr. apply Nat.ltb_ge in Le. rewrite Le in Hr. cbn [andb] in Hr.
      assert (Hr' : In r (ex_sort re_better (flat_map snd (ra_blocks R (answers I F E now (sy_store y) q (strategy_used q)))))).
      { unfold cut_list in Hr. destruct (Z.ltb _ _); auto. apply in_firstn in Hr. exact Hr. }
      apply (Permutation_in _ (Permutation_sym (ex_sort_perm re_better _))) in Hr'. apply in_flat_map in Hr' as ((st & l) & H1 & H2).
      apply (Permutation_in _ (Permutation_sym (proj1 HR _))) in H1. pose proof (answers_tag _ _ _ _ _ _ _ _ _ _ H1 H2) as Tg. exists l, r. rewrite St in Tg. subst st. auto.
    - destruct (recall_fused I F E now R HR y q Lt) as (all & _ & A & _ & K). destruct (A r (is_topk_in _ _ _ _ _ K Hr)) as (_ & l & r0 & H1 & H2 & H3). rewrite St in H1. eauto. }
  destruct G as (l & r0 & H1 & H2 & H3). apply answers_sound in H1 as [_ H1]. rewrite H3. inversion H1 as [ | | |v k found tf' keep l' V _ T' S K G| | | ]; subst; [|destruct H2].
  destruct (forall2_found _ _ _ _ _ _ G H2) as (e & x & G1 & G2). apply filter_In in G1 as [G1 G3]. rewrite G2.
  exists (match meta_of e "created_at" with Some x => ft_scan_d F x | None => now end). split; [reflexivity|].
  rewrite T in T'. injection T' as <-. apply (K (e, x) _ G1 eq_refl). exact G3.
Qed.
Definition timed (id b : string) (v : list N) (ents : list string) (t : Z) : memory := mem_at id b "world" "text" v ents [] t.
Example temporal_recall_in_range_ex :
  let q := ask "a" "" v10 (only (Some (Some 10000000000%Z, Some 20000000000%Z)) [] false false 5) 5 in
  map (fun r => (hm_id (re_mem r), re_strat r)) (recall0 (after [timed "m1" "a" v10 [] 9; timed "m2" "a" v11 [] 20; timed "m3" "a" v01 [] 10]) q) = [("m2", Temporal); ("m3", Temporal)].
Proof. vm_compute. reflexivity. Qed.
(** ** C139 *)
(** Finding: memories within the limits are missed when TopK*5 nearer ones lie outside. *)
Theorem temporal_recall_complete_refuted :
  exists h q m, let y := hrun near_index F0 (sys0 "memories") h in last_memory "m1" (retained near_index F0 (sys0 "memories") h) = Some m /\ hm_bank m = q_bank q /\
    sg_temporal (strategy_used q) = Some (None, Some 10000000000%Z) /\ hm_time m = Some 5%Z /\ recall0 y q = [].
Proof.
  exists (say_all (timed "m1" "a" v01 [] 5 :: map (fun i => timed i "a" v10 [] 50) ["b0"; "b1"; "b2"; "b3"; "b4"; "b5"; "b6"; "b7"; "b8"; "b9"])),
    (ask "a" "" v10 (only (Some (None, Some 10000000000%Z)) [] false false 1) 1). eexists.
  split; [vm_compute; reflexivity|]. split; [reflexivity|]. split; [reflexivity|]. split; [reflexivity|vm_compute; reflexivity].
Qed.
(** Findings: asking for the entity "Al" returns a memory about "Alice"; a memory about the
    entity asked for is missed when it is not among the TopK nearest. *)
Theorem entity_recall_refuted :
  (exists m r, hm_ents m = ["Alice"] /\ In r (recall0 (after [m]) (ask "a" "" v10 (only None ["Al"] false false 5) 5)) /\ hm_id (re_mem r) = hm_id m) /\
  (exists h m, hm_ents m = ["Al"] /\ last_memory "m1" (retained near_index F0 (sys0 "memories") h) = Some m /\
     recall0 (hrun near_index F0 (sys0 "memories") h) (ask "a" "" v10 (only None ["Al"] false false 1) 1) = []).
Proof.
  split.
  - exists (timed "m1" "a" v10 ["Alice"] 5). eexists. split; [reflexivity|]. split; [vm_compute; left; reflexivity|reflexivity].
  - exists (say_all [timed "m1" "a" v01 ["Al"] 5; timed "m2" "a" v10 [] 5; timed "m3" "a" v11 [] 5]). eexists. split; [|split; [vm_compute; reflexivity|vm_compute; reflexivity]]. reflexivity.
Qed.

(** ** C132 *)
(** Reflect returns the memories of Recall and their text, cut to 4*TokenBudget bytes when
    it would exceed the budget; the reported count never exceeds a positive budget. *)
Theorem reflect_budget_exact :
  forall I F E now R format rr y q budget text mems n, reflect I F E now R format rr y q budget = (text, mems, n) ->
  let full := format (recall I F E now R rr y q) in
  mems = map re_mem (recall I F E now R rr y q) /\
  ((budget <= 0)%Z \/ (Z.of_nat (String.length full) / 4 <= budget)%Z -> text = full /\ n = (Z.of_nat (String.length full) / 4)%Z) /\
  ((0 < budget)%Z -> (n <= budget)%Z /\ (budget < Z.of_nat (String.length full) / 4 -> n = budget /\ Z.of_nat (String.length text) = (4 * budget)%Z /\ exists rest, full = (text ++ rest)%string)%Z).
Proof.
  intros I F E now R format rr y q budget text mems n H full. unfold reflect in H. fold full in H.
  destruct (Z.ltb_spec 0 budget) as [B|B]; destruct (Z.ltb_spec budget (Z.of_nat (String.length full) / 4)) as [L|L]; cbn [andb] in H; injection H as <- <- <-; (split; [reflexivity|]).
  - split; [lia|]. intros _. split; [lia|]. intros _. split; [reflexivity|].
    destruct (substring_prefix (Z.to_nat (budget * 4)) full) as (b & A1 & A2).
    { assert (budget * 4 <= Z.of_nat (String.length full))%Z; [|lia]. pose proof (Z.mul_div_le (Z.of_nat (String.length full)) 4 ltac:(lia)). lia. }
    split; [rewrite A2; lia|]. exists b. exact A1.
  - split; [auto|]. intros _. split; [lia|]. lia.
  - split; [auto|]. lia.
  - split; [auto|]. lia.
Qed.
(** The text names every recalled memory of a known type. *)
Theorem reflect_context_shows :
  forall f3 f2 query l r, In r l -> In (hm_type (re_mem r)) ["world"; "bank"; "observation"; "opinion"] -> occurs ("- " ++ hm_content (re_mem r)) (format_context f3 f2 query l).
Proof. exact context_shows. Qed.
Definition report (y : sys near_index) (q : request) (budget : Z) : string * list memory * Z :=
  reflect near_index F0 E0 1000 R0 (format_context (fun _ => "1.000") (fun _ => "0.90") (q_query q)) None y q budget.
Example reflect_context_shows_ex :
  let y := after [fact "m1" "a" "tea" v10] in
  fst (fst (report y (ask "a" "drink" v10 None 5) 0)) =
    ("# Relevant Memories for: drink" ++ newline ++ newline ++ "## Facts" ++ newline ++ "- tea (score: 1.000)" ++ newline ++ newline)%string /\
  fst (fst (report y (ask "a" "drink" v10 None 5) 3)) = "# Relevant M" /\ snd (report y (ask "a" "drink" v10 None 5) 3) = 3%Z.
Proof. split; [vm_compute; reflexivity|]. split; vm_compute; reflexivity. Qed.
(** ** C140 *)
(** Finding: a fact extracted without a type, documented to default to a world fact, is
    recalled but left out of the text. *)
Theorem untyped_fact_refuted :
  exists f y, hm_type f = "" /\ y = fst (retain_facts near_index F0 (fun _ => ev0) (sys0 "memories") "a" [f]) /\
    let '(text, mems, _) := report y (ask "a" "drink" v10 None 5) 0 in map hm_content mems = [hm_content f] /\ ~ occurs (hm_content f) text.
Proof.
  exists (mem_at "m1" "" "" "tea" v10 [] [] 0). eexists. split; [reflexivity|]. split; [reflexivity|]. 
  set (z := report _ _ _). assert (Z : z = ("# Relevant Memories for: drink" ++ newline ++ newline, map re_mem (recall0 (fst (retain_facts near_index F0 (fun _ => ev0) (sys0 "memories") "a" [mem_at "m1" "" "" "tea" v10 [] [] 0])) (ask "a" "drink" v10 None 5)), 8%Z)%string) by (vm_compute; reflexivity).
  rewrite Z. clear z Z. split; [vm_compute; reflexivity|]. intros H. apply contains_iff in H. vm_compute in H. discriminate.
Qed.

(** ** C133 *)
(** The confidence of an observation lies between 0.1 and 1 whatever the number of
    memories and the bank's skepticism. *)
Theorem confidence_bounded :
  forall n k, 1 <= n -> fle (f64_div (f64_of_Z 1) (f64_of_Z 10)) (confidence n k) = true /\ fle (confidence n k) (f64_of_Z 1) = true.
Proof. exact confidence_clamped. Qed.
Example confidence_bounded_ex : flt (confidence 3 (Some 5%Z)) (confidence 3 None) = true /\ flt (confidence 3 None) (confidence 3 (Some 1%Z)) = true /\ confidence 50 None = dec 9 10.
Proof. split; [vm_compute; reflexivity|]. split; vm_compute; reflexivity. Qed.

(** ** C134 *)
(** RetainFromText stores exactly the usable facts whose Retain succeeds, under the given
    bank, and reports how many, how many were skipped for want of an id or a vector, and an
    error for each one not stored. *)
Theorem retain_from_text_counts :
  forall I F extractor ev y bank msgs y' n k e, retain_from_text I F (Some extractor) ev y bank msgs = (y', Ok (n, k, e)) ->
  bank <> "" /\ (msgs = [] /\ y' = y /\ n = 0 /\ k = 0 /\ e = 0 \/
   exists facts, msgs <> [] /\ extractor bank msgs = Some facts /\ n = length (kept_facts I F ev y bank facts) /\
     k = length (filter (fun f => negb (usable_b f)) facts) /\ n + e = length facts /\ k <= e /\
     Forall (fun m => hm_bank m = bank /\ exists f, In f facts /\ usable f /\ hm_id m = hm_id f /\ hm_content m = hm_content f) (kept_facts I F ev y bank facts)).
Proof.
  intros I F extractor ev y bank msgs y' n k e H. unfold retain_from_text in H. destruct (String.eqb_spec bank "") as [|B]; [discriminate|]. split; auto.
  destruct msgs as [|m ms]; [injection H as <- <- <- <-; left; auto|]. right. destruct (extractor bank (m :: ms)) as [facts|] eqn:X; [|discriminate].
  exists facts. split; [discriminate|]. split; [reflexivity|]. pose proof (facts_counts I F bank facts ev y) as C. destruct (retain_facts I F ev y bank facts) as [y1 [[a b] c]].
  injection H as <- <- <- <-. destruct C as (C1 & C2 & C3 & C4). split; [exact C1|]. split; [exact C2|]. split; [exact C3|]. split; [exact C4|].
  clear. revert ev y. induction facts as [|f fs IH]; intros ev y; [constructor|]. cbn [kept_facts].
  assert (T : forall ev y, Forall (fun m => hm_bank m = bank /\ (exists f0, In f0 (f :: fs) /\ usable f0 /\ hm_id m = hm_id f0 /\ hm_content m = hm_content f0)) (kept_facts I F ev y bank fs)).
  { intros ev' y'. eapply Forall_impl; [|apply IH]. cbn. intros x (A & f0 & A1 & A2). split; auto. exists f0. auto. }
  destruct (usable_b f) eqn:U; [|apply T]. apply Forall_app. split; [|apply T]. unfold kept_one. destruct (snd _); [|constructor..]. constructor; [|constructor].
  unfold usable_b in U. apply andb_prop in U as [U1 U2]. apply negb_true_iff, String.eqb_neq in U1. split; [reflexivity|]. exists f. split; [left; reflexivity|]. split; [|split; [|reflexivity]].
  - split; auto. destruct (hm_vec f) as [[|x v]|]; try discriminate. eauto.
  - cbn. apply String.eqb_neq in U1. rewrite U1. reflexivity.
Qed.
Example retain_from_text_counts_ex :
  let facts := [fact "f1" "" "tea" v10; {| hm_id := "f2"; hm_bank := ""; hm_type := ""; hm_content := "x"; hm_vec := None; hm_ents := []; hm_conf := f_zero; hm_meta := []; hm_time := None |}; fact "" "" "y" v10] in
  let msg := {| g_id := "1"; g_session := "s"; g_role := "user"; g_content := "hi"; g_vec := []; g_meta := None; g_time := 0 |} in
  snd (retain_from_text near_index F0 (Some (fun _ _ => Some facts)) (fun _ => ev0) (sys0 "memories") "a" [msg]) = Ok (1, 2, 2).
Proof. vm_compute. reflexivity. Qed.

(** ** C135 *)
(** Finding: the sources, the type and the reasoning of an observation are stored but never
    returned. *)
Theorem observation_provenance_refuted :
  exists x y r, y = fst (retain_observation near_index F0 ev0 (sys0 "memories") x) /\ get_observations near_index F0 E0 1000 y "a" = Ok [r] /\
    ob_id r = ob_id x /\ ob_content r = ob_content x /\ ob_sources x = ["m1"; "m2"] /\ ob_sources r = [] /\ ob_type x = "pattern" /\ ob_type r = "" /\ ob_reasoning r <> ob_reasoning x.
Proof.
  exists {| ob_id := "o1"; ob_bank := "a"; ob_content := "drinks"; ob_vec := Some v10; ob_sources := ["m1"; "m2"]; ob_conf := dec 9 10; ob_type := "pattern"; ob_reasoning := "why"; ob_time := Some 5%Z |}.
  eexists. eexists. split; [reflexivity|]. split; [vm_compute; reflexivity|]. split; [reflexivity|]. split; [reflexivity|]. split; [reflexivity|]. split; [reflexivity|]. split; [reflexivity|]. split; [reflexivity|discriminate].
Qed.

(** ** C136 *)
(** GetBank returns a created bank unchanged until it is deleted or the process ends. *)
Theorem bank_kept_in_memory :
  forall I F dim ev y b y1 h, create_bank I dim ev y b = (y1, Ok tt) ->
  (forall ev' o, In (ev', o) h -> match o with HDeleteBank _ id => id <> b_id b | HRestart _ _ _ _ _ => False | _ => True end) ->
  snd (get_bank I (hrun I F y1 h) (b_id b)) = Some b.
Proof.
  intros I F dim ev y b y1 h H K. unfold create_bank in H. destruct (existsb (bank_is (b_id b)) (sy_banks y)) eqn:X; [discriminate|]. injection H as <-.
  unfold get_bank. erewrite (bank_in_memory I F h (b_id b) b K); [reflexivity|]. cbn [sy_banks]. rewrite find_app.
  replace (find (bank_is (b_id b)) (sy_banks y)) with (@None bank); [cbn; unfold bank_is; rewrite String.eqb_refl; reflexivity|].
  symmetry. clear - X. induction (sy_banks y) as [|x l IH]; cbn in *; auto. apply orb_false_iff in X as [X1 X2]. rewrite X1. auto.
Qed.
(** ** C141 *)
(** After a restart its id and name are still there, if its node could be written and no
    entity of a retained memory has the bank's id. *)
Theorem bank_restart_partial :
  forall I F dim ev y b y1 h c dim' p i ev' y2, create_bank I dim ev y b = (y1, Ok tt) -> b_id b <> "" -> dim <> 0 -> ev_ok (he_graph ev 0) 0 = true ->
  (forall ev' o, In (ev', o) h -> spares I (b_id b) o) ->
  open_sys I c dim' p ev' (st_db I (sy_store (hrun I F y1 h))) (sy_graph (hrun I F y1 h)) i = Ok y2 ->
  exists b', snd (get_bank I y2 (b_id b)) = Some b' /\ b_id b' = b_id b /\ b_name b' = b_name b.
Proof.
  intros I F dim ev y b y1 h c dim' p i ev' y2 H Hid Hd Hok K O. exists (node_bank (bank_node dim b)). split; [|split; reflexivity].
  assert (V : node_valid (bank_node dim b) = true).
  { unfold node_valid. cbn [GraphModel.n_id n_vec bank_node]. apply String.eqb_neq in Hid. rewrite Hid. destruct dim; [congruence|reflexivity]. }
  assert (N : find (node_is (b_id b)) (g_nodes (sy_graph y1)) = Some (bank_node dim b)).
  { unfold create_bank in H. destruct (existsb _ _); [discriminate|]. injection H as <-. cbn [sy_graph]. unfold upsert_node. rewrite V. cbn [negb]. rewrite Hok. cbn [fst set_nodes g_nodes].
    rewrite find_put_node. cbn [bank_node GraphModel.n_id]. rewrite String.eqb_refl. reflexivity. }
  rewrite <- (bank_node_kept I F (b_id b) h K y1) in N. unfold open_sys in O. destruct (open_store I dim' p _ i) as [s| |]; cbn [bind] in O; try discriminate. injection O as <-.
  unfold get_bank. cbn [sy_banks]. rewrite (loaded _ _ _ N eq_refl). reflexivity.
Qed.
Definition bank1 : bank := {| b_id := "a"; b_name := "Ann"; b_descr := "notes"; b_background := "works at"; b_skepticism := 3; b_literalism := 2; b_empathy := 4 |}.
Definition with_bank : sys near_index := fst (create_bank near_index 2 ev0 (sys0 "memories") bank1).
Lemma with_bank_ok : create_bank near_index 2 ev0 (sys0 "memories") bank1 = (with_bank, Ok tt).
Proof. unfold with_bank. assert (K : snd (create_bank near_index 2 ev0 (sys0 "memories") bank1) = Ok tt) by (vm_compute; reflexivity). rewrite (surjective_pairing (create_bank _ _ _ _ _)). rewrite K. reflexivity. Qed.
Example bank_kept_in_memory_ex :
  exists y1, create_bank near_index 2 ev0 (sys0 "memories") bank1 = (y1, Ok tt) /\ ev_ok (he_graph ev0 0) 0 = true /\
    spares near_index "a" (HRetain near_index (timed "m1" "a" v10 ["Alice"] 5)).
Proof. exists with_bank. split; [exact with_bank_ok|]. split; [reflexivity|]. cbn. intuition discriminate. Qed.
(** Findings: after a restart the description is the name and the background and the traits
    are gone; retaining a memory about an entity with the bank's id makes the bank
    disappear at the next restart. *)
Theorem bank_restart_refuted :
  exists y1, create_bank near_index 2 ev0 (sys0 "memories") bank1 = (y1, Ok tt) /\
    (exists b', snd (get_bank near_index (hrun near_index F0 y1 [(fun _ => ev0, HRestart near_index "memories" 2 SmartAdapt [])]) "a") = Some b' /\
       b_descr b' = "Ann" /\ b_background b' = "" /\ b_skepticism b' = 0%Z) /\
    snd (get_bank near_index (hrun near_index F0 y1 [(fun _ => ev0, HRetain near_index (timed "m1" "a" v10 ["a"] 5)); (fun _ => ev0, HRestart near_index "memories" 2 SmartAdapt [])]) "a") = None.
Proof.
  exists with_bank. split; [exact with_bank_ok|]. split; [eexists; split; [vm_compute; reflexivity|]; split; [reflexivity|split; reflexivity]|]. vm_compute. reflexivity.
Qed.
(** ** C142 *)
(** Finding: the memories of a deleted bank are still recalled. *)
Theorem deleted_bank_refuted :
  exists h q r, snd (delete_bank near_index ev0 (hrun near_index F0 (sys0 "memories") h) "a") = Ok tt /\ q_bank q = "a" /\
    In r (recall0 (fst (delete_bank near_index ev0 (hrun near_index F0 (sys0 "memories") h) "a")) q) /\ hm_bank (re_mem r) = "a".
Proof.
  exists ((fun _ => ev0, HCreateBank near_index 2 bank1) :: say_all [fact "m1" "a" "tea" v10]), (ask "a" "" v10 None 5). eexists.
  split; [vm_compute; reflexivity|]. split; [reflexivity|]. split; [vm_compute; left; reflexivity|reflexivity].
Qed.

(** ** C62, C143 *)
(** With auto-retain on, extraction fires exactly at the stored messages that complete a
    multiple of TriggerEvery counted messages since it was switched on, for the session of
    that message. *)
Theorem auto_fires_exact :
  forall cfg c h j ses c', active cfg ->
  (nth_error (snd (auto_run cfg (c, 0%Z) h)) j = Some (ses, c') <->
   exists h1 ev m h2, h = h1 ++ (ev, m) :: h2 /\ counts cfg m = true /\ snd (add_message ev (crun c (calls h1)) m) = Ok tt /\
     (Z.of_nat (S (length (filter (counts cfg) (added c (calls h1))))) = Z.of_nat (S j) * au_every cfg)%Z /\
     ses = g_session m /\ c' = crun c (calls (h1 ++ [(ev, m)]))).
Proof.
  intros cfg c h j ses c' A. assert (0 <= 0 < au_every cfg)%Z by (destruct A; lia). rewrite (auto_fires cfg h A c 0%Z j ses c' H). reflexivity.
Qed.
(** SetAutoRetain makes every configuration that is switched on an active one and starts
    counting at zero. *)
Theorem set_auto_active :
  forall a k, au_on a = true -> let (cfg, n) := set_auto (Some a) k in
  active cfg /\ n = 0%Z /\ au_roles cfg = au_roles a /\ ((0 < au_every a)%Z -> au_every cfg = au_every a) /\ ((0 < au_window a)%Z -> au_window cfg = au_window a).
Proof.
  intros a k H. cbn. unfold active. cbn. rewrite H. destruct (Z.leb_spec (au_window a) 0); destruct (Z.leb_spec (au_every a) 0); repeat split; auto; lia.
Qed.
(** The extractor gets the newest WindowSize messages of the session. *)
Theorem auto_window_newest :
  forall srt cfg h session w, float_vectors h -> sort_ok later srt -> active cfg -> window srt cfg (crun empty_chat h) session = Some w ->
  let mine := filter (fun m => String.eqb (g_session m) session) (added empty_chat h) in
  is_topk newer (Z.to_nat (au_window cfg)) mine w /\
  (StronglySorted (fun a b => (g_time a < g_time b)%Z) mine -> rev w = last_n (Z.to_nat (au_window cfg)) mine).
Proof.
  intros srt cfg h session w Fv K (_ & _ & W) H mine. unfold window in H. destruct (session_history srt (crun empty_chat h) session (au_window cfg)) as [l| |] eqn:S; try discriminate.
  assert (Hw : w = rev l) by (destruct l; [discriminate|congruence]). assert (NB : (au_window cfg <? 0)%Z = false) by (apply Z.ltb_ge; lia).
  pose proof (history_newest srt h session (au_window cfg) l Fv K S) as T. cbv zeta in T. rewrite NB in T. subst w. split; [exact T|]. intros SS.
  pose proof (history_last_added srt h session (au_window cfg) l Fv K S SS) as T2. rewrite NB in T2. rewrite rev_involutive. exact T2.
Qed.
Definition two : auto := {| au_on := true; au_window := 3; au_every := 2; au_roles := [] |}.
Definition line (t : Z) (id s : string) : cenv * message := (at_time t, {| g_id := id; g_session := s; g_role := "user"; g_content := id; g_vec := []; g_meta := None; g_time := 0 |}).
Definition opened_chat : list (cenv * cop) := [(at_time 1, CCreate {| se_id := "s"; se_user := "u"; se_meta := None |}); (at_time 2, CCreate {| se_id := "t"; se_user := "u"; se_meta := None |})].
Definition chat0 : chat := crun empty_chat opened_chat.
Example auto_fires_exact_ex :
  active two /\ map fst (snd (auto_run two (chat0, 0%Z) [line 3 "1" "s"; line 4 "2" "s"; line 5 "2" "s"; line 6 "3" "s"; line 7 "4" "t"])) = ["s"; "t"].
Proof. split; [repeat split; reflexivity|vm_compute; reflexivity]. Qed.
(** Finding: the window arrives newest first, since GetSessionHistory already returns it
    oldest first and it is reversed once more. *)
Theorem auto_window_order_refuted :
  exists w c, snd (auto_run two (chat0, 0%Z) [line 3 "1" "s"; line 4 "2" "s"]) = [("s", c)] /\ window (isort later) two c "s" = Some w /\ map g_id w = ["2"; "1"].
Proof. eexists. eexists. split; [vm_compute; reflexivity|]. split; [vm_compute; reflexivity|reflexivity]. Qed.
(** Finding: the counter is shared by all sessions; when two sessions take turns one of
    them is never extracted. *)
Theorem auto_per_session_refuted :
  exists h, length (filter (fun p => String.eqb (g_session (snd p)) "s") h) = 4 /\ forall c, ~ In ("s", c) (snd (auto_run two (chat0, 0%Z) h)).
Proof.
  exists [line 3 "1" "s"; line 4 "2" "t"; line 5 "3" "s"; line 6 "4" "t"; line 7 "5" "s"; line 8 "6" "t"; line 9 "7" "s"; line 10 "8" "t"]. split; [reflexivity|].
  intros c H. apply (in_map fst) in H. revert H. match goal with |- In _ ?l -> _ => replace l with ["t"; "t"; "t"; "t"] by (vm_compute; reflexivity) end. cbn. intuition discriminate.
Qed.

Print Assumptions recall_bank_partial.
Print Assumptions recall_bank_refuted.
Print Assumptions recall_bank_metadata_refuted.
Print Assumptions recall_fusion_exact.
Print Assumptions recall_reranker_fallback.
Print Assumptions recalled_memory_faithful.
Print Assumptions recalled_metadata_refuted.
Print Assumptions retained_memory_kept.
Print Assumptions custom_collection_refuted.
Print Assumptions recall_complete_refuted.
Print Assumptions temporal_recall_in_range.
Print Assumptions temporal_recall_complete_refuted.
Print Assumptions entity_recall_refuted.
Print Assumptions reflect_budget_exact.
Print Assumptions reflect_context_shows.
Print Assumptions untyped_fact_refuted.
Print Assumptions confidence_bounded.
Print Assumptions retain_from_text_counts.
Print Assumptions observation_provenance_refuted.
Print Assumptions bank_kept_in_memory.
Print Assumptions bank_restart_partial.
Print Assumptions bank_restart_refuted.
Print Assumptions deleted_bank_refuted.
Print Assumptions auto_fires_exact.
Print Assumptions set_auto_active.
Print Assumptions auto_window_newest.
Print Assumptions auto_window_order_refuted.
Print Assumptions auto_per_session_refuted.
