(** Proofs about fields, reports, banks and counts of the agent memory. *)
From Coq Require Import String Ascii List NArith ZArith Bool Lia Permutation.
From Coq Require Import Floats.SpecFloat.
From Verif Require Import Base Floats64 TopK EncodingModel DimensionModel StoreModel StoreSpec StoreInv StoreProofs StoreProofs3 SearchModel SearchSpec FilterModel
  AdvSearchModel GraphModel ChatModel ChatSpec RagModel HindModel HindSpec HindProofs HindProofs2.
Import ListNotations.
Open Scope string_scope.
Open Scope list_scope.
Open Scope nat_scope.

(** *** Texts that occur *)
Lemma sapp_assoc a b c : ((a ++ b) ++ c)%string = (a ++ (b ++ c))%string.
Proof. induction a; cbn; congruence. Qed.
Lemma sapp_nil a : (a ++ "")%string = a.
Proof. induction a; cbn; congruence. Qed.
Lemma occurs_self x : occurs x x.
Proof. exists "", "". rewrite sapp_nil. reflexivity. Qed.
Lemma occurs_r x a b : occurs x b -> occurs x (a ++ b)%string.
Proof. intros (u & v & ->). exists (a ++ u)%string, v. rewrite sapp_assoc. reflexivity. Qed.
Lemma occurs_l x a b : occurs x a -> occurs x (a ++ b)%string.
Proof. intros (u & v & ->). exists u, (v ++ b)%string. rewrite !sapp_assoc. reflexivity. Qed.
Lemma occurs_concat x l y : occurs x y -> In y l -> occurs x (String.concat "" l).
Proof.
  intros H. induction l as [|z l IH]; [intros []|]. destruct l as [|z' l].
  - intros [<-|[]]. exact H.
  - intros [->|Hin]; cbn [String.concat]; [apply occurs_l; exact H|]. apply occurs_r. cbn [append]. apply IH. exact Hin.
Qed.
Lemma section_occurs x title line l last r : In r l -> occurs x (line r) -> occurs x (section title line l last).
Proof.
  intros H O. unfold section. destruct l as [|r0 l]; [destruct H|]. apply occurs_r. apply occurs_r. apply occurs_r. apply occurs_l.
  apply (occurs_concat x _ (line r)); [exact O|]. apply in_map. exact H.
Qed.
Lemma context_shows f3 f2 q l r : In r l -> In (hm_type (re_mem r)) ["world"; "bank"; "observation"; "opinion"] ->
  occurs ("- " ++ hm_content (re_mem r)) (format_context f3 f2 q l).
Proof.
  intros H T. unfold format_context. destruct l as [|r0 l0] eqn:L; [destruct H|]. rewrite <- L in *. clear L.
  assert (O : forall b, occurs ("- " ++ hm_content (re_mem r)) ("- " ++ hm_content (re_mem r) ++ b)).
  { intros b. rewrite <- sapp_assoc. apply occurs_l. apply occurs_self. }
  assert (M : forall t, hm_type (re_mem r) = t -> In r (of_type t l)) by (intros t Ht; apply filter_In; split; auto; rewrite Ht; apply String.eqb_refl).
  do 4 apply occurs_r. destruct T as [T|[T|[T|[T|[]]]]]; symmetry in T.
  - apply occurs_l. apply (section_occurs _ _ _ _ _ r); [apply M; exact T|]. apply O.
  - apply occurs_r, occurs_l. apply (section_occurs _ _ _ _ _ r); [apply M; exact T|]. apply O.
  - apply occurs_r, occurs_r, occurs_l. apply (section_occurs _ _ _ _ _ r); [apply M; exact T|]. apply O.
  - apply occurs_r, occurs_r, occurs_r. apply (section_occurs _ _ _ _ _ r); [apply M; exact T|]. apply O.
Qed.
Lemma substring_prefix n : forall s, n <= String.length s -> exists b, s = (String.substring 0 n s ++ b)%string /\ String.length (String.substring 0 n s) = n.
Proof.
  induction n as [|n IH]; intros s H.
  - exists s. destruct s; auto.
  - destruct s as [|c s]; cbn in H; [lia|]. destruct (IH s ltac:(lia)) as (b & A & B). exists b. cbn. split; [f_equal; exact A|lia].
Qed.

(** *** Confidence *)
Lemma nonneg_mul a m e : nonneg a -> nonneg (f64_mul a (S754_finite false m e)).
Proof.
  unfold f64_mul. destruct a as [[]|[]| |[] m' e']; cbn [nonneg]; try tauto; intros _.
  all: unfold SFmul; cbn [xorb]; auto. apply round_aux_nonneg. lia.
Qed.
Lemma clamp_bounds x : not_nan x ->
  let y := if fgt x f_one then f_one else x in let z := if flt y (dec 1 10) then dec 1 10 else y in
  fle (dec 1 10) z = true /\ fle z f_one = true.
Proof.
  intros N y z. assert (Hy : not_nan y /\ fle y f_one = true).
  { unfold y. destruct (fgt x f_one) eqn:G; [split; [discriminate|reflexivity]|]. split; auto. rewrite fle_flt; [|exact N|discriminate].
    change (flt f_one x) with (fgt x f_one). rewrite G. reflexivity. }
  unfold z. destruct (flt y (dec 1 10)) eqn:L; [split; reflexivity|]. split; [|tauto]. rewrite fle_flt; [|discriminate|tauto]. rewrite L. reflexivity.
Qed.
Lemma confidence_clamped n k : 1 <= n -> fle (dec 1 10) (confidence n k) = true /\ fle (confidence n k) f_one = true.
Proof.
  intros Hn. destruct n as [|n]; [lia|]. unfold confidence.
  set (b0 := f64_div (f64_of_Z (Z.of_nat (S n))) (f64_of_Z 10)).
  assert (N0 : nonneg b0) by (apply nonneg_div; [apply nonneg_of_Z; lia|exact Logic.I|discriminate|discriminate]).
  set (b1 := if fgt b0 (dec 9 10) then dec 9 10 else b0).
  assert (N1 : nonneg b1) by (unfold b1; destruct (fgt _ _); [exact Logic.I|exact N0]). clearbody b1. clear b0 N0.
  set (b2 := match k with Some _ => _ | None => _ end). assert (N2 : nonneg b2).
  { unfold b2. destruct k as [k|]; auto. destruct (Z.leb 4 k); destruct (Z.leb k 2); auto.
    all: repeat (apply nonneg_mul); auto. }
  apply clamp_bounds. apply nonneg_not_nan. exact N2.
Qed.

Section S.
Variable I : index_ops.
Variable F : formats.

(** *** The store behind the memory *)
Lemma retain_reachable ev (y : sys I) m : reachable I any_env (sy_store y) -> reachable I any_env (sy_store (fst (retain I F ev y m))).
Proof.
  intros H. unfold retain. pose proof (reach_step I any_env (sy_store y) (he_store ev) (OUpsert (embedding_of F (stamped ev m))) H Logic.I) as S.
  cbn [step] in S. destruct (upsert I _ _ _) as [s r]. exact S.
Qed.
Lemma retain_facts_reachable b fs : forall ev (y : sys I), reachable I any_env (sy_store y) -> reachable I any_env (sy_store (fst (retain_facts I F ev y b fs))).
Proof.
  induction fs as [|f fs IH]; intros ev y H; [exact H|]. cbn [retain_facts]. rewrite usable_same. destruct (usable_b f); cbn [negb].
  - fold (of_bank b f). pose proof (retain_reachable (ev 0) y (of_bank b f) H) as K. destruct (retain I F (ev 0) y (of_bank b f)) as [y1 r]. cbn [fst] in K.
    specialize (IH (fun i => ev (S i)) y1 K). destruct (retain_facts I F (fun i => ev (S i)) y1 b fs) as [y' [[a b'] c]]. destruct r; exact IH.
  - specialize (IH (fun i => ev (S i)) y H). destruct (retain_facts I F (fun i => ev (S i)) y b fs) as [y' [[a b'] c]]. exact IH.
Qed.
Lemma open_reachable c dim p ev d g i y : (forall s, open_store I dim p d i = Ok s -> reachable I any_env s) -> open_sys I c dim p ev d g i = Ok y -> reachable I any_env (sy_store y).
Proof.
  intros H. unfold open_sys. destruct (open_store I dim p d i) as [s| |]; cbn [bind]; try discriminate. intros [= <-]. cbn [sy_store].
  destruct (find_coll _ _); [apply H; reflexivity|].
  pose proof (reach_step I any_env s (he_store ev) (OCreateColl c dim) (H s eq_refl) Logic.I) as S. cbn [step] in S. destruct (create_collection I (he_store ev) s c dim) as [s' r]. exact S.
Qed.
Lemma hrun_reachable h : forall y, reachable I any_env (sy_store y) -> reachable I any_env (sy_store (hrun I F y h)).
Proof.
  induction h as [|[ev o] h IH]; intros y H; cbn [hrun fold_left fst snd]; auto. apply IH. clear IH. destruct o as [m|b fs|k b|id|c dim p i]; cbn [hstep].
  - apply retain_reachable. exact H.
  - apply retain_facts_reachable. exact H.
  - unfold create_bank. destruct (existsb _ _); exact H.
  - unfold delete_bank. destruct (existsb _ _); exact H.
  - destruct (open_sys _ _ _ _ _ _ _ _) as [y'| |] eqn:O; auto. eapply open_reachable; [|exact O]. intros s Hs. eapply reach_reopen; [exact H|exact Hs].
Qed.
Lemma new_reachable y : new_system I y -> reachable I any_env (sy_store y).
Proof. intros (c & dim & p & ev & i & H). eapply open_reachable; [|exact H]. intros s Hs. eapply reach_new. exact Hs. Qed.
Lemma upsert_open ev (s : store I) e : st_closed I (fst (upsert I ev s e)) = st_closed I s.
Proof. pose proof (step_closed I ev s (OUpsert e) ltac:(discriminate)) as S. cbn [step] in S. destruct (upsert I ev s e) as [s' r]. exact S. Qed.
Lemma retain_open ev (y : sys I) m : st_closed I (sy_store (fst (retain I F ev y m))) = st_closed I (sy_store y).
Proof. unfold retain. pose proof (upsert_open (he_store ev) (sy_store y) (embedding_of F (stamped ev m))) as S. destruct (upsert I _ _ _) as [s r]. exact S. Qed.
Lemma retain_facts_open b fs : forall ev (y : sys I), st_closed I (sy_store (fst (retain_facts I F ev y b fs))) = st_closed I (sy_store y).
Proof.
  induction fs as [|f fs IH]; intros ev y; [reflexivity|]. cbn [retain_facts]. rewrite usable_same. destruct (usable_b f); cbn [negb].
  - fold (of_bank b f). pose proof (retain_open (ev 0) y (of_bank b f)) as K. destruct (retain I F (ev 0) y (of_bank b f)) as [y1 r]. cbn [fst] in K.
    specialize (IH (fun i => ev (S i)) y1). destruct (retain_facts I F (fun i => ev (S i)) y1 b fs) as [y' [[a b'] c]]. cbn [fst] in IH. rewrite <- K, <- IH. destruct r; reflexivity.
  - specialize (IH (fun i => ev (S i)) y). destruct (retain_facts I F (fun i => ev (S i)) y b fs) as [y' [[a b'] c]]. exact IH.
Qed.
Lemma opened c dim p ev d g i y : open_sys I c dim p ev d g i = Ok y -> st_closed I (sy_store y) = false.
Proof.
  unfold open_sys. destruct (open_store I dim p d i) as [s| |] eqn:O; cbn [bind]; try discriminate. intros [= <-]. cbn [sy_store].
  assert (C : st_closed I s = false). { unfold open_store in O. destruct (Z.ltb dim 0); [discriminate|]. injection O as <-. reflexivity. }
  destruct (find_coll _ _); auto. pose proof (step_closed I (he_store ev) s (OCreateColl c dim) ltac:(discriminate)) as S. cbn [step] in S.
  destruct (create_collection I (he_store ev) s c dim) as [s' r]. cbn [fst] in *. rewrite S. exact C.
Qed.
Lemma hrun_open h : forall y, st_closed I (sy_store y) = false -> st_closed I (sy_store (hrun I F y h)) = false.
Proof.
  induction h as [|[ev o] h IH]; intros y H; cbn [hrun fold_left fst snd]; auto. apply IH. clear IH. destruct o as [m|b fs|k b|id|c dim p i]; cbn [hstep].
  - rewrite retain_open. exact H.
  - rewrite retain_facts_open. exact H.
  - unfold create_bank. destruct (existsb _ _); exact H.
  - unfold delete_bank. destruct (existsb _ _); exact H.
  - destruct (open_sys _ _ _ _ _ _ _ _) as [y'| |] eqn:O; auto. eapply opened. exact O.
Qed.
Lemma new_open y : new_system I y -> st_closed I (sy_store y) = false.
Proof. intros (c & dim & p & ev & i & H). eapply opened. exact H. Qed.
Lemma kept_get y h id m : new_system I y -> last_memory id (retained I F y h) = Some m ->
  exists e, get_by_id I (sy_store (hrun I F y h)) id = Ok e /\ e_id e = id /\ e_content e = hm_content m /\
    e_meta e = Some (build_metadata F m (match hm_time m with Some t => t | None => 0%Z end)).
Proof.
  intros N L. destruct (history_kept I F y h N) as (U & A & B). destruct (B id m L) as (r & Hr & Hid).
  destruct (A r Hr) as (m' & Hm & S1 & S2 & S3). rewrite Hid, L in Hm. injection Hm as <-.
  unfold get_by_id. rewrite (hrun_open h y (new_open y N)).
  assert (Fd : find (row_is id) (t_rows (st_db I (sy_store (hrun I F y h)))) = Some r).
  { clear - U Hr Hid. induction (t_rows (st_db I (sy_store (hrun I F y h)))) as [|x l IH]; [destruct Hr|]. cbn in *. apply NoDup_cons_iff in U as [U1 U2].
    destruct (row_is id x) eqn:R.
    - apply row_is_true in R. destruct Hr as [->|Hr]; auto. exfalso. apply U1. rewrite R, <- Hid. apply in_map. exact Hr.
    - destruct Hr as [->|Hr]; [apply row_is_false in R; congruence|]. auto. }
  rewrite Fd. unfold scan_get. destruct (reachable_decodes I any_env _ (hrun_reachable h y (new_reachable y N)) r Hr) as [(w & Hw) _]. rewrite Hw. cbn [bind].
  eexists. split; [reflexivity|]. cbn. auto.
Qed.

(** *** The fields read back *)
Lemma meta_key k m t : assoc k (hm_meta m) = None ->
  assoc k (build_metadata F m t) = assoc k ([("bank_id", hm_bank m); ("memory_type", hm_type m); ("created_at", fmt_d t)] ++
     (if String.eqb (hm_type m) "opinion" || String.eqb (hm_type m) "observation" then [("confidence", ft_conf F (hm_conf m))] else []) ++
     (match hm_ents m with [] => [] | l => [("entities", String.concat "," l)] end)).
Proof. intros H. unfold build_metadata. apply assoc_sets. exact H. Qed.
Lemma meta_bank m t : assoc "bank_id" (hm_meta m) = None -> assoc "bank_id" (build_metadata F m t) = Some (hm_bank m).
Proof. intros H. rewrite meta_key by exact H. reflexivity. Qed.
Lemma read_back now e m t : e_id e = hm_id m -> e_content e = hm_content m -> e_meta e = Some (build_metadata F m t) ->
  (forall k, In k reserved -> assoc k (hm_meta m) = None) ->
  let r := to_memory F now e in
  hm_bank r = hm_bank m /\ hm_type r = hm_type m /\ hm_time r = Some (ft_scan_d F (fmt_d t)) /\
  (Forall no_comma (hm_ents m) -> hm_ents m <> [""] -> hm_ents r = hm_ents m) /\
  hm_conf r = (if String.eqb (hm_type m) "opinion" || String.eqb (hm_type m) "observation" then ft_scan_f F (ft_conf F (hm_conf m)) else S754_zero false).
Proof.
  intros E1 E2 E3 N r. unfold r, to_memory, meta_of. cbn [hm_bank hm_type hm_time hm_ents hm_conf]. rewrite E3.
  rewrite (meta_key "bank_id") by (apply N; cbn; tauto). rewrite (meta_key "memory_type") by (apply N; cbn; tauto). rewrite (meta_key "created_at") by (apply N; cbn; tauto).
  rewrite (meta_key "entities") by (apply N; cbn; tauto). rewrite (meta_key "confidence") by (apply N; cbn; tauto).
  set (cc := if String.eqb _ "opinion" || String.eqb _ "observation" then [("confidence", ft_conf F (hm_conf m))] else []).
  split; [reflexivity|]. split; [reflexivity|]. split; [reflexivity|]. split.
  - intros C Ne. assert (A : forall en, assoc "entities" ([("bank_id", hm_bank m); ("memory_type", hm_type m); ("created_at", fmt_d t)] ++ cc ++ en) = assoc "entities" en).
    { intros en. unfold cc. destruct (String.eqb _ "opinion" || String.eqb _ "observation"); reflexivity. }
    rewrite A. destruct (hm_ents m) as [|x l]; [reflexivity|]. generalize (concat_empty (x :: l)), (split_concat (x :: l)). generalize (String.concat "," (x :: l)). intros z Z1 Z2.
    cbn [assoc]. rewrite String.eqb_refl. destruct (String.eqb_spec z "") as [Z|Z]; [apply Z1 in Z as [Z|Z]; congruence|]. apply Z2; [discriminate|exact C].
  - unfold cc. destruct (String.eqb _ "opinion" || String.eqb _ "observation"); [reflexivity|]. destruct (hm_ents m); reflexivity.
Qed.

(** *** Counts *)
Lemma facts_counts b fs : forall ev (y : sys I), 
  let '(y', (n, k, e)) := retain_facts I F ev y b fs in
  n = length (kept_facts I F ev y b fs) /\ k = length (filter (fun f => negb (usable_b f)) fs) /\ n + e = length fs /\ k <= e.
Proof.
  induction fs as [|f fs IH]; intros ev y; [cbn; auto|]. cbn [retain_facts kept_facts filter length]. rewrite usable_same. destruct (usable_b f); cbn [negb].
  - fold (of_bank b f). unfold kept_one. destruct (retain I F (ev 0) y (of_bank b f)) as [y1 r]. cbn [fst snd].
    specialize (IH (fun i => ev (S i)) y1). destruct (retain_facts I F (fun i => ev (S i)) y1 b fs) as [y' [[n k] e]]. destruct IH as (A & B & C & D).
    destruct r; cbn [app length]; repeat split; auto; lia.
  - specialize (IH (fun i => ev (S i)) y). destruct (retain_facts I F (fun i => ev (S i)) y b fs) as [y' [[n k] e]]. destruct IH as (A & B & C & D). cbn [length]. repeat split; auto; lia.
Qed.

(** *** Banks *)
Lemma retain_banks ev (y : sys I) m : sy_banks (fst (retain I F ev y m)) = sy_banks y.
Proof. unfold retain. destruct (upsert I _ _ _); reflexivity. Qed.
Lemma retain_facts_banks b fs : forall ev (y : sys I), sy_banks (fst (retain_facts I F ev y b fs)) = sy_banks y.
Proof.
  induction fs as [|f fs IH]; intros ev y; [reflexivity|]. cbn [retain_facts]. rewrite usable_same. destruct (usable_b f); cbn [negb].
  - fold (of_bank b f). pose proof (retain_banks (ev 0) y (of_bank b f)) as K. destruct (retain I F (ev 0) y (of_bank b f)) as [y1 r]. cbn [fst] in K.
    specialize (IH (fun i => ev (S i)) y1). destruct (retain_facts I F (fun i => ev (S i)) y1 b fs) as [y' [[a b'] c]]. cbn [fst] in IH. rewrite <- K, <- IH. destruct r; reflexivity.
  - specialize (IH (fun i => ev (S i)) y). destruct (retain_facts I F (fun i => ev (S i)) y b fs) as [y' [[a b'] c]]. exact IH.
Qed.
Lemma find_filter_bank id (l : list bank) id' : id <> id' -> find (bank_is id) (filter (fun b => negb (bank_is id' b)) l) = find (bank_is id) l.
Proof.
  intros H. induction l as [|b l IH]; cbn [filter find]; auto. destruct (bank_is id' b) eqn:E; cbn [negb find].
  - assert (E' : bank_is id b = false) by (unfold bank_is in *; apply String.eqb_eq in E; apply String.eqb_neq; congruence). rewrite E'. exact IH.
  - destruct (bank_is id b); auto.
Qed.
Lemma bank_in_memory h id b : (forall ev o, In (ev, o) h -> match o with HDeleteBank _ id' => id' <> id | HRestart _ _ _ _ _ => False | _ => True end) ->
  forall y, find (bank_is id) (sy_banks y) = Some b -> find (bank_is id) (sy_banks (hrun I F y h)) = Some b.
Proof.
  induction h as [|[ev o] h IH]; intros K y H; cbn [hrun fold_left fst snd]; auto. apply IH; [intros ev' o' Hin; apply (K ev' o'); right; exact Hin|].
  specialize (K ev o (or_introl eq_refl)). destruct o as [m|b' fs|k b'|id'|c dim p i]; cbn [hstep].
  - rewrite retain_banks. exact H.
  - rewrite retain_facts_banks. exact H.
  - unfold create_bank. destruct (existsb _ _); auto. cbn. rewrite find_app, H. reflexivity.
  - unfold delete_bank. destruct (existsb _ _); auto. cbn. rewrite find_filter_bank by congruence. exact H.
  - destruct K.
Qed.
Lemma find_put_node n l id : find (node_is id) (put_node n l) = if String.eqb (GraphModel.n_id n) id then Some n else find (node_is id) l.
Proof.
  unfold put_node. destruct (String.eqb_spec (GraphModel.n_id n) id) as [E|E].
  - destruct (existsb (node_is (GraphModel.n_id n)) l) eqn:X.
    + induction l as [|x l IH]; cbn in *; [discriminate|]. destruct (node_is (GraphModel.n_id n) x) eqn:Y.
      * unfold node_is at 1. rewrite E, String.eqb_refl. reflexivity.
      * cbn in X. rewrite (IH X). unfold node_is in Y |- *. rewrite E in Y. rewrite Y. reflexivity.
    + rewrite find_app. assert (Z : find (node_is id) l = None).
      { rewrite <- E. clear - X. induction l as [|x l IH]; cbn in *; auto. apply orb_false_iff in X as [X1 X2]. rewrite X1. auto. }
      rewrite Z. cbn. unfold node_is. rewrite E, String.eqb_refl. reflexivity.
  - destruct (existsb _ l).
    + induction l as [|x l IH]; cbn; auto. destruct (node_is (GraphModel.n_id n) x) eqn:Y.
      * assert (G : node_is id x = false) by (unfold node_is in *; apply String.eqb_eq in Y; rewrite Y; apply String.eqb_neq; congruence).
        assert (G' : node_is id n = false) by (unfold node_is; apply String.eqb_neq; exact E). rewrite G, G'. exact IH.
      * destruct (node_is id x); auto.
    + rewrite find_app. destruct (find (node_is id) l); auto. cbn. unfold node_is. apply String.eqb_neq in E. rewrite E. reflexivity.
Qed.
Lemma entity_nodes_other id ents : ~ In id ents -> forall evs g, find (node_is id) (g_nodes (entity_nodes evs g ents)) = find (node_is id) (g_nodes g).
Proof.
  induction ents as [|x ents IH]; intros H evs g; cbn [entity_nodes]; auto. rewrite IH by (intros Z; apply H; right; exact Z).
  unfold upsert_node. destruct (negb (node_valid (entity_node x))); auto. destruct (ev_ok (evs 0) 0); auto. cbn [fst set_nodes g_nodes].
  rewrite find_put_node. cbn. destruct (String.eqb_spec x id) as [->|]; auto. exfalso. apply H. left. reflexivity.
Qed.
Lemma retain_graph ev (y : sys I) m id : ~ In id (hm_ents m) -> find (node_is id) (g_nodes (sy_graph (fst (retain I F ev y m)))) = find (node_is id) (g_nodes (sy_graph y)).
Proof. intros H. unfold retain. destruct (upsert I _ _ _). cbn. apply entity_nodes_other. exact H. Qed.
Lemma retain_facts_graph b fs id : (forall f, In f fs -> ~ In id (hm_ents f)) -> forall ev (y : sys I),
  find (node_is id) (g_nodes (sy_graph (fst (retain_facts I F ev y b fs)))) = find (node_is id) (g_nodes (sy_graph y)).
Proof.
  induction fs as [|f fs IH]; intros H ev y; [reflexivity|]. cbn [retain_facts]. rewrite usable_same.
  assert (Hf : forall f, In f fs -> ~ In id (hm_ents f)) by (intros g Hg; apply H; right; exact Hg). destruct (usable_b f); cbn [negb].
  - fold (of_bank b f). pose proof (retain_graph (ev 0) y (of_bank b f) id ltac:(apply (H f); left; reflexivity)) as K. destruct (retain I F (ev 0) y (of_bank b f)) as [y1 r]. cbn [fst] in K.
    specialize (IH Hf (fun i => ev (S i)) y1). destruct (retain_facts I F (fun i => ev (S i)) y1 b fs) as [y' [[a b'] c]]. cbn [fst] in IH. rewrite <- K, <- IH. destruct r; reflexivity.
  - specialize (IH Hf (fun i => ev (S i)) y). destruct (retain_facts I F (fun i => ev (S i)) y b fs) as [y' [[a b'] c]]. exact IH.
Qed.
Lemma find_filter_node id (l : list GraphModel.gnode) id' : id <> id' -> find (node_is id) (filter (fun b => negb (node_is id' b)) l) = find (node_is id) l.
Proof.
  intros H. induction l as [|b l IH]; cbn [filter find]; auto. destruct (node_is id' b) eqn:E; cbn [negb find].
  - assert (E' : node_is id b = false) by (unfold node_is in *; apply String.eqb_eq in E; apply String.eqb_neq; congruence). rewrite E'. exact IH.
  - destruct (node_is id b); auto.
Qed.
Lemma bank_node_kept id h : (forall ev o, In (ev, o) h -> spares I id o) ->
  forall y, find (node_is id) (g_nodes (sy_graph (hrun I F y h))) = find (node_is id) (g_nodes (sy_graph y)).
Proof.
  induction h as [|[ev o] h IH]; intros K y; cbn [hrun fold_left fst snd]; auto. 
  change (fold_left _ h ?z) with (hrun I F z h). rewrite IH by (intros ev' o' Hin; apply (K ev' o'); right; exact Hin).
  specialize (K ev o (or_introl eq_refl)). destruct o as [m|b' fs|k b'|id'|c dim p i]; cbn [hstep].
  - apply retain_graph. exact K.
  - apply retain_facts_graph. exact K.
  - unfold create_bank. destruct (existsb _ _); auto. cbn [fst sy_graph]. unfold upsert_node. destruct (negb _); auto. destruct (ev_ok _ _); auto. cbn [fst set_nodes g_nodes].
    rewrite find_put_node. cbn [bank_node GraphModel.n_id]. destruct (String.eqb_spec (b_id b') id); [exfalso; apply K; auto|reflexivity].
  - unfold delete_bank. destruct (existsb _ _); auto. cbn [fst sy_graph]. unfold delete_node. destruct (negb _); auto. destruct (node_stored _ _); auto. cbn [fst drop_nodes g_nodes].
    apply find_filter_node. intros E. apply K. congruence.
  - destruct (open_sys _ _ _ _ _ _ _ _) as [y'| |] eqn:O; auto. unfold open_sys in O. destruct (open_store _ _ _ _ _); cbn [bind] in O; try discriminate. injection O as <-. reflexivity.
Qed.
Lemma loaded g id n : find (node_is id) (g_nodes g) = Some n -> GraphModel.n_type n = "bank" -> find (bank_is id) (load_banks g) = Some (node_bank n).
Proof.
  unfold load_banks. intros H T. induction (g_nodes g) as [|x l IH]; cbn in *; [discriminate|]. destruct (node_is id x) eqn:N.
  - injection H as ->. rewrite T. cbn. unfold bank_is. cbn. unfold node_is in N. rewrite N. reflexivity.
  - destruct (String.eqb (GraphModel.n_type x) "bank"); cbn; auto. unfold bank_is at 1. cbn. unfold node_is in N. rewrite N. apply IH. exact H.
Qed.
End S.
