(** Proofs about planned queries, lexical candidates and word vectors. *)
From Coq Require Import String Ascii List NArith ZArith Bool Arith Sorted Permutation Lia ZifyBool ZifyNat ZifyN.
From Coq Require Import Floats.SpecFloat.
From Verif Require Import Base Floats64 TopK MemSearchProofs GeoProps StoreModel RagModel RagSpec RagTextProofs AggProofs ToolTextModel ToolTextSpec.
Import ListNotations.
Open Scope list_scope.
Open Scope nat_scope.

(** *** First occurrences *)
Section Dedup.
Context {A : Type} (dec : forall x y : A, {x = y} + {x <> y}) (keep : A -> bool).
Fixpoint dd (l seen : list A) : list A :=
  match l with
  | [] => []
  | x :: r => if keep x && negb (if in_dec dec x seen then true else false) then x :: dd r (x :: seen) else dd r seen
  end.
Lemma dd_in l : forall seen x, In x (dd l seen) <-> In x l /\ keep x = true /\ ~ In x seen.
Proof using Type.
  induction l as [|y l IH]; intros seen x; cbn [dd]; [split; [intros []|intros [[] _]]|].
  destruct (keep y) eqn:K; cbn [andb]; [destruct (in_dec dec y seen) as [I|I]; cbn [negb]|].
  - rewrite IH. cbn [In]. split; [tauto|]. intros (H & H1 & H2). destruct H as [<- | H]; tauto.
  - cbn [In]. rewrite IH. cbn [In]. split.
    + intros [<- | (H1 & H2 & H3)]; tauto.
    + intros (H & H1 & H2). destruct (dec y x) as [e|n]; [left; exact e|]. right. destruct H as [H|H]; [congruence|]. tauto.
  - rewrite IH. cbn [In]. split; [tauto|]. intros (H & H1 & H2). destruct H as [<- | H]; [congruence|tauto].
Qed.
Lemma dd_idx l : forall seen, exists idx, StronglySorted lt idx /\
  Forall2 (fun i x => nth_error l i = Some x /\ forall j, j < i -> nth_error l j <> Some x) idx (dd l seen).
Proof using Type.
  induction l as [|y l IH]; intros seen; cbn [dd]; [exists []; split; constructor|].
  assert (Sh : forall idx, StronglySorted lt idx -> StronglySorted lt (map S idx)).
  { induction 1 as [|i idx S1 S2 F]; cbn; constructor; auto. apply Forall_map. eapply Forall_impl; [|exact F]. intros a Ha. lia. }
  assert (Up : forall idx out, (forall x, In x out -> x <> y) -> Forall2 (fun i x => nth_error l i = Some x /\ forall j, j < i -> nth_error l j <> Some x) idx out ->
    Forall2 (fun i x => nth_error (y :: l) i = Some x /\ forall j, j < i -> nth_error (y :: l) j <> Some x) (map S idx) out).
  { intros idx out N F. induction F as [|i x idx out [H1 H2] F IHF]; cbn [map]; constructor.
    - split; [exact H1|]. intros [|j] Hj; cbn [nth_error]; [intros [= ->]; exact (N x (or_introl eq_refl) eq_refl)|]. apply H2. lia.
    - apply IHF. intros z Hz. apply N. right. exact Hz. }
  destruct (keep y) eqn:K; cbn [andb]; [destruct (in_dec dec y seen) as [I|I]; cbn [negb]|].
  - destruct (IH seen) as (idx & S1 & F). exists (map S idx). split; [auto|]. apply Up; [|exact F]. intros x Hx ->. apply dd_in in Hx. tauto.
  - destruct (IH (y :: seen)) as (idx & S1 & F). exists (0 :: map S idx). split.
    + constructor; [auto|]. apply Forall_map. apply Forall_forall. intros a _. lia.
    + constructor; [split; [reflexivity|intros j Hj; lia]|]. apply Up; [|exact F]. intros x Hx ->. apply dd_in in Hx. cbn in Hx. tauto.
  - destruct (IH seen) as (idx & S1 & F). exists (map S idx). split; [auto|]. apply Up; [|exact F]. intros x Hx ->. apply dd_in in Hx. destruct Hx as [_ [Hx _]]. congruence.
Qed.
Lemma dd_firsts l (P : A -> Prop) : (forall x, In x l -> (keep x = true <-> P x)) -> firsts P l (dd l []).
Proof using Type.
  intros E. split; [|apply dd_idx]. intros x. rewrite dd_in. cbn. split; [intros [H [H1 _]]; split; [auto|apply E; auto]|]. intros [H H1]. split; [auto|]. split; [apply E; auto|tauto].
Qed.
Lemma dd_filter l : forall seen, dd (filter keep l) seen = dd l seen.
Proof using Type.
  induction l as [|y l IH]; intros seen; [reflexivity|]. cbn [filter dd]. destruct (keep y) eqn:K; cbn [dd andb]; [rewrite K; cbn [andb]|]; rewrite ?IH; reflexivity.
Qed.
End Dedup.

Definition tdec := list_eq_dec N.eq_dec.
Lemma is_one_of_in l t : is_one_of l t = if in_dec tdec t l then true else false.
Proof.
  unfold is_one_of. destruct (in_dec tdec t l) as [I|I].
  - apply existsb_exists. exists t. split; [exact I|]. unfold text_eqb. destruct (list_eq_dec N.eq_dec t t); congruence.
  - apply not_true_iff_false. rewrite existsb_exists. intros (x & H & E). unfold text_eqb in E. destruct (list_eq_dec N.eq_dec t x) as [->|]; [auto|discriminate].
Qed.
Definition nonblank (t : list N) : bool := match t with [] => false | _ => true end.
Lemma merge_loop_dd ks : forall seen, merge_loop ks seen = dd tdec nonblank ks seen.
Proof.
  induction ks as [|k ks IH]; intros seen; [reflexivity|]. cbn [merge_loop dd]. rewrite is_one_of_in. rewrite !IH. destruct k; cbn [is_blank nonblank orb andb]; [reflexivity|].
  destruct (in_dec tdec _ seen); reflexivity.
Qed.
Lemma add_queries_dd cs : forall seen, add_queries cs seen = dd tdec nonblank (map trim_space cs) seen.
Proof.
  induction cs as [|k ks IH]; intros seen; [reflexivity|]. cbn [add_queries map dd]. rewrite is_one_of_in. rewrite !IH. destruct (trim_space k); cbn [is_blank nonblank orb andb]; [reflexivity|].
  destruct (in_dec tdec _ seen); reflexivity.
Qed.
Lemma bytes_len t : byte_len t = bytes t.
Proof.
  unfold byte_len. induction t as [|r t IH]; [reflexivity|]. cbn [map list_sum fold_right bytes] in *. fold (list_sum (map rune_len t)). rewrite IH. f_equal. unfold rune_len.
  destruct (N.ltb_spec r 128), (N.leb_spec r 127); try lia. destruct (N.ltb_spec r 2048), (N.leb_spec r 2047); try lia. destruct (N.ltb_spec r 65536), (N.leb_spec r 65535); lia.
Qed.
Lemma join_or_sep l : join_or l = ors l.
Proof. unfold ors. induction l as [|t l IH]; [reflexivity|]. cbn [join_or separated]. destruct l; [reflexivity|]. rewrite IH. reflexivity. Qed.
Lemma join_words_sep l : join_words l = separated (runes " ") l.
Proof. induction l as [|t l IH]; [reflexivity|]. cbn [join_words separated]. destruct l; [reflexivity|]. rewrite IH. reflexivity. Qed.

(** *** Trimming *)
Lemma drop_space_head t r v : drop_space t = r :: v -> is_space r = false.
Proof. induction t as [|x t IH]; cbn [drop_space]; [discriminate|]. destruct (is_space x) eqn:E; [auto|]. intros [= <- <-]. exact E. Qed.
Lemma drop_space_id t : (forall r v, t = r :: v -> is_space r = false) -> drop_space t = t.
Proof. destruct t as [|x t]; [reflexivity|]. intros H. cbn [drop_space]. rewrite (H x t eq_refl). reflexivity. Qed.
Lemma drop_space_suffix t : exists s, t = s ++ drop_space t.
Proof. destruct (drop_space_split t) as (s & E & _). eauto. Qed.
Lemma trim_ends t : (forall r v, trim_space t = r :: v -> is_space r = false) /\ (forall r v, trim_space t = v ++ [r] -> is_space r = false).
Proof.
  unfold trim_space. set (d := drop_space t). split.
  - intros r v E. destruct (drop_space_suffix (rev d)) as (s & Es). assert (D : d = rev (drop_space (rev d)) ++ rev s) by (rewrite <- rev_app_distr, <- Es, rev_involutive; reflexivity).
    rewrite E in D. cbn in D. apply (drop_space_head t r (v ++ rev s)). exact D.
  - intros r v E. apply (drop_space_head (rev d) r (rev v)). rewrite <- (rev_involutive (drop_space (rev d))), E, rev_app_distr. reflexivity.
Qed.
Lemma trim_trimmed t : trimmed t (trim_space t).
Proof.
  destruct (trim_split t) as (s & s' & E & H & H'). destruct (trim_ends t) as [A B]. exists s, s'. split; [exact E|]. split; [|split].
  - intros r Hr. rewrite <- is_space_white. apply in_app_or in Hr as [Hr|Hr]; auto.
  - intros r v Hv. rewrite <- is_space_white. eauto.
  - intros r v Hv. rewrite <- is_space_white. eauto.
Qed.
Lemma trim_idem t : trim_space (trim_space t) = trim_space t.
Proof.
  destruct (trim_ends t) as [A B]. set (u := trim_space t) in *. unfold trim_space. rewrite (drop_space_id u A). rewrite (drop_space_id (rev u)); [apply rev_involutive|].
  intros r v E. apply (B r (rev v)). rewrite <- (rev_involutive u), E. reflexivity.
Qed.

(** *** Stripping *)
Lemma cut_strip r : cut_rune r = strip r.
Proof. unfold cut_rune, strip. cbn [existsb map]. apply eq_true_iff_eq. cbn. rewrite ?orb_true_iff. lia. Qed.
Lemma drop_cut_split t : exists s, t = s ++ drop_cut t /\ (forall r, In r s -> cut_rune r = true) /\ forall r v, drop_cut t = r :: v -> cut_rune r = false.
Proof.
  induction t as [|x t IH]; cbn [drop_cut]; [exists []; split; [reflexivity|]; split; [intros ? []|discriminate]|]. destruct (cut_rune x) eqn:E.
  - destruct IH as (s & E1 & E2 & E3). exists (x :: s). split; [cbn; congruence|]. split; [|exact E3]. intros r [<-|Hr]; auto.
  - exists []. split; [reflexivity|]. split; [intros ? []|]. intros r v [= <- <-]. exact E.
Qed.
Lemma normal_stripped t : stripped t (normal_token t).
Proof.
  unfold normal_token. destruct (drop_cut_split t) as (s & E & H & Hd). set (d := drop_cut t) in *. destruct (drop_cut_split (rev d)) as (s' & E' & H' & Hd'). set (d' := drop_cut (rev d)) in *.
  assert (D : d = rev d' ++ rev s') by (rewrite <- rev_app_distr, <- E', rev_involutive; reflexivity).
  exists s, (rev s'). split; [rewrite E, D at 1; reflexivity|]. split; [|split].
  - intros r Hr. rewrite <- cut_strip. apply in_app_or in Hr as [Hr|Hr]; [auto|]. apply in_rev in Hr. auto.
  - intros r v Hv. rewrite <- cut_strip. apply (Hd r (v ++ rev s')). rewrite D, Hv. reflexivity.
  - intros r v Hv. rewrite <- cut_strip. apply (Hd' r (rev v)). rewrite <- (rev_involutive d'), Hv, rev_app_distr. reflexivity.
Qed.
Lemma drop_cut_id t : (forall r, In r t -> cut_rune r = false) -> drop_cut t = t.
Proof. destruct t as [|x t]; [reflexivity|]. intros H. cbn [drop_cut]. rewrite (H x (or_introl eq_refl)). reflexivity. Qed.
Lemma normal_id t : (forall r, In r t -> cut_rune r = false) -> normal_token t = t.
Proof. intros H. unfold normal_token. rewrite (drop_cut_id t H), drop_cut_id; [apply rev_involutive|]. intros r Hr. apply H. apply in_rev. exact Hr. Qed.

(** *** Keywords *)
Section Plan.
Variables (lower : list N -> list N) (lod : N -> bool).
Hypothesis Hlod : plain_letters lod.
Definition keyb (k : list N) : bool := (2 <=? bytes k) && negb (if in_dec tdec k common then true else false).
Lemma stopwords_common : stopwords = common.
Proof. reflexivity. Qed.
Lemma lod_not_cut r : lod r = true -> cut_rune r = false.
Proof.
  intros H. rewrite cut_strip. apply not_true_iff_false. unfold strip. rewrite existsb_exists. intros (x & Hx & E). apply N.eqb_eq in E. subst x. rewrite (Hlod r Hx) in H. discriminate.
Qed.
Lemma keyword_loop_dd ts : forall seen, (forall t, In t ts -> forall r, In r t -> lod r = true) -> keyword_loop ts seen = dd tdec keyb ts seen.
Proof.
  induction ts as [|t ts IH]; intros seen H; [reflexivity|]. cbn [keyword_loop dd]. rewrite normal_id by (intros r Hr; apply lod_not_cut; apply (H t); [left; reflexivity|exact Hr]).
  rewrite !is_one_of_in, bytes_len, stopwords_common. unfold keyb at 1. rewrite !IH by (intros; eapply H; [right; eassumption|eassumption]).
  destruct (2 <=? bytes t) eqn:B.
  - assert (N1 : is_blank t = false) by (destruct t; [discriminate|reflexivity]). rewrite N1. assert (N2 : bytes t <? 2 = false) by lia. rewrite N2. cbn [orb andb].
    destruct (in_dec tdec t common); cbn [negb andb]; [reflexivity|]. destruct (in_dec tdec t seen); reflexivity.
  - assert (N2 : bytes t <? 2 = true) by lia. rewrite N2, orb_true_r. reflexivity.
Qed.
Lemma keywords_ok t : keywords lower lod t (keywords_of lower lod t).
Proof.
  exists (fields_func (fun r => negb (lod r)) [] (lower t)). split; [apply fields_spec|]. unfold keywords_of. rewrite keyword_loop_dd.
  - apply dd_firsts. intros x _. unfold keyb. destruct (in_dec tdec x common); rewrite andb_true_iff; cbn [negb]; split; intros [? ?]; try discriminate; try tauto; split; auto; lia.
  - intros w Hw r Hr. pose proof (runs_clean _ _ _ (fields_spec (fun r => negb (lod r)) (lower t)) w Hw) as [_ C]. specialize (C r Hr). apply negb_false_iff in C. exact C.
Qed.
Lemma keywords_nonblank t k : In k (keywords_of lower lod t) -> 2 <= bytes k.
Proof. intros H. destruct (keywords_ok t) as (ws & _ & F & _). apply F in H. tauto. Qed.

Lemma ascii_alnum_iff k : ascii_alnum k = true <-> k <> [] /\ forall r, In r k -> (97 <= r <= 122 \/ 48 <= r <= 57)%N.
Proof.
  unfold ascii_alnum. rewrite andb_true_iff, forallb_forall. split.
  - intros [H1 H2]. split; [intros ->; discriminate|]. intros r Hr. specialize (H1 r Hr). lia.
  - intros [H1 H2]. split; [intros r Hr; specialize (H2 r Hr); lia|]. destruct k; [congruence|reflexivity].
Qed.
Lemma format_plain ks : (forall k, In k ks -> k <> []) -> format_keywords false ks = ks.
Proof.
  induction ks as [|k ks IH]; intros H; [reflexivity|]. unfold format_keywords in *. cbn [flat_map]. rewrite IH by (intros; apply H; right; auto). destruct k; [destruct (H [] (or_introl eq_refl) eq_refl)|reflexivity].
Qed.
Lemma format_stars ks : (forall k, In k ks -> k <> []) -> Forall2 starred ks (format_keywords true ks).
Proof.
  induction ks as [|k ks IH]; intros H; [constructor|]. unfold format_keywords in *. cbn [flat_map]. assert (K : k <> []) by (apply H; left; reflexivity). destruct (is_blank k) eqn:B; [destruct k; [congruence|discriminate]|].
  cbn [app]. constructor; [|apply IH; intros; apply H; right; auto]. cbn [andb]. rewrite bytes_len. unfold starred. destruct (ascii_alnum k) eqn:A; cbn [andb].
  - apply ascii_alnum_iff in A as [_ A]. destruct (Nat.ltb_spec 2 (bytes k)); [left; split; [lia|auto]|right; split; [intros [? _]; lia|reflexivity]].
  - right. split; [|reflexivity]. intros [_ A']. assert (ascii_alnum k = true) by (apply ascii_alnum_iff; auto). congruence.
Qed.

Lemma plan_ok q given alts : planned lower lod q given alts (plan_queries lower lod q given alts).
Proof.
  unfold plan_queries. set (q' := trim_space q). set (own := keywords_of lower lod q'). set (oth := keywords_of lower lod (join_words given)). set (all := merge_keywords [oth; own]).
  assert (Nall : forall k, In k all -> k <> []).
  { unfold all, merge_keywords. intros k Hk. rewrite merge_loop_dd in Hk. apply dd_in in Hk as (_ & Hk & _). intros ->. discriminate. }
  assert (Nown : forall k, In k (oth ++ own) -> k <> []).
  { intros k Hk ->. apply in_app_or in Hk as [Hk|Hk]; apply keywords_nonblank in Hk; cbn in Hk; lia. }
  exists q', own, oth, all, (format_keywords true all), (map trim_space (q :: alts ++ [ors own; ors all; ors (format_keywords true all)])).
  split; [apply trim_trimmed|]. split; [apply keywords_ok|]. split; [rewrite <- join_words_sep; apply keywords_ok|]. split; [|split; [apply format_stars; exact Nall|split]].
  - unfold all, merge_keywords. cbn [concat]. rewrite app_nil_r, merge_loop_dd. apply dd_firsts. intros x Hx. specialize (Nown x Hx). destruct x; [congruence|]. cbn. tauto.
  - generalize (q :: alts ++ [ors own; ors all; ors (format_keywords true all)]) as l. induction l as [|c l IH]; constructor; [apply trim_trimmed|exact IH].
  - rewrite add_queries_dd. rewrite <- dd_filter. match goal with |- firsts _ ?l (dd _ _ (filter _ ?l') _) => assert (E : filter nonblank l' = filter nonblank l) end.
    { change (q :: alts ++ [ors own; ors all; ors (format_keywords true all)]) with ([q] ++ alts ++ [ors own] ++ [ors all; ors (format_keywords true all)]).
      rewrite !map_app, !filter_app. f_equal; [|f_equal; f_equal].
      - unfold q'. destruct (is_blank (trim_space q)) eqn:B.
        + cbn [map filter]. destruct (trim_space q); [reflexivity|discriminate].
        + cbn [map]. rewrite trim_idem. reflexivity.
      - destruct own; [reflexivity|]. rewrite join_or_sep. reflexivity.
      - rewrite !join_or_sep. destruct all as [|k ks]; [reflexivity|]. rewrite format_plain by exact Nall. reflexivity. }
    rewrite E, dd_filter. apply dd_firsts. intros x _. destruct x; cbn; split; congruence.
Qed.
End Plan.

(** *** Candidates *)
Section Cand.
Lemma merge_ids m x : map fst (merge_thit m x) = if existsb (fun y => String.eqb (fst y) (fst x)) m then map fst m else map fst m ++ [fst x].
Proof.
  induction m as [|y m IH]; [reflexivity|]. cbn [merge_thit existsb]. destruct (String.eqb_spec (fst y) (fst x)) as [E|E]; cbn [orb].
  - destruct (fgt (snd x) (snd y)); cbn [map]; congruence.
  - cbn [map]. rewrite IH. match goal with |- context [if ?c then _ else _] => destruct c end; reflexivity.
Qed.
(** One entry per id that occurs in [P], with the greatest of its scores. *)
Definition bests (P : string -> float -> Prop) (m : list thit) : Prop :=
  NoDup (map fst m) /\ (forall id s, In (id, s) m -> P id s) /\ forall id s, P id s -> exists s', In (id, s') m /\ flt s' s = false.
Lemma bests_iff (P Q : string -> float -> Prop) m : (forall r s, P r s <-> Q r s) -> bests P m -> bests Q m.
Proof. intros E (N & B & C). split; [exact N|]. split; [intros r s H; apply E, B; exact H|]. intros r s H. apply E in H. auto. Qed.
Lemma in_existsb m (id : string) : existsb (fun y : thit => String.eqb (fst y) id) m = true <-> In id (map fst m).
Proof.
  rewrite existsb_exists. split.
  - intros (y & H & E). apply String.eqb_eq in E. subst id. apply in_map. exact H.
  - intros H. apply in_map_iff in H as (y & <- & H). exists y. split; [exact H|apply String.eqb_refl].
Qed.
Lemma merge_in m x z : NoDup (map fst m) -> (In z (merge_thit m x) <->
  (In z m /\ fst z <> fst x) \/ (In z m /\ fst z = fst x /\ fgt (snd x) (snd z) = false) \/
  (z = x /\ forall y, In y m -> fst y = fst x -> fgt (snd x) (snd y) = true)).
Proof.
  induction m as [|y m IH]; intros N.
  { cbn. split; [intros [<-|[]]; right; right; split; [reflexivity|intros y []]|]. intros [[[] _]|[[[] _]|[-> _]]]. auto. }
  cbn [map] in N. apply NoDup_cons_iff in N as [N1 N2]. specialize (IH N2). cbn [merge_thit]. destruct (String.eqb (fst y) (fst x)) eqn:E.
  - apply String.eqb_eq in E. assert (Ot : forall z, In z m -> fst z <> fst x).
    { intros z' Z X. apply N1. rewrite E, <- X. apply in_map. exact Z. }
    destruct (fgt (snd x) (snd y)) eqn:F; cbn [In]; split.
    + intros [<-|H]; [right; right; split; [reflexivity|]; intros y' [<-|Y] Ey; [exact F|destruct (Ot _ Y Ey)]|]. left. auto.
    + intros [[H D]|[[H [D G]]|[-> _]]]; [|destruct H as [<-|H]; [congruence|destruct (Ot _ H D)]|left; reflexivity]. destruct H as [<-|H]; [congruence|right; exact H].
    + intros [<-|H]; [right; left; auto|]. left. auto.
    + intros [[[->|H] D]|[[[->|H] [D G]]|[-> G]]]; auto. rewrite (G y) in F; [discriminate|left; reflexivity|exact E].
  - apply String.eqb_neq in E. cbn [In]. rewrite IH. split.
    + intros [<-|[[H D]|[[H [D G]]|[-> G]]]]; auto 6. right. right. split; [reflexivity|]. intros y' [<-|Y] Ey; [congruence|auto].
    + intros [[[->|H] D]|[[[->|H] [D G]]|[-> G]]]; auto 6. right. right. right. split; [reflexivity|]. intros y' Y Ey. apply G; auto.
Qed.
Lemma merge_nodup m x : NoDup (map fst m) -> NoDup (map fst (merge_thit m x)).
Proof.
  intros N. rewrite merge_ids. match goal with |- context [if ?c then _ else _] => destruct c eqn:E end; [exact N|]. apply NoDup_app_intro; [exact N|repeat constructor; cbn; tauto|].
  intros y Hy [<-|[]]. apply in_existsb in Hy. unfold thit in *. rewrite Hy in E. discriminate.
Qed.
Lemma nodup_one (m : list thit) id s s' : NoDup (map fst m) -> In (id, s) m -> In (id, s') m -> s = s'.
Proof.
  induction m as [|y m IH]; intros N H H'; [destruct H|]. cbn [map] in N. apply NoDup_cons_iff in N as [N1 N2].
  destruct H as [->|H], H' as [H'|H']; [congruence| | |auto]; destruct N1; [apply (in_map fst) in H'; exact H'|subst y; apply (in_map fst) in H; exact H].
Qed.
Lemma merge_bests P m id s : bests P m -> (forall id s, P id s -> not_nan s) -> not_nan s ->
  bests (fun i t => P i t \/ (i = id /\ t = s)) (merge_thit m (id, s)).
Proof.
  intros (N & B & C) U Us. split; [apply merge_nodup; exact N|]. split.
  - intros i t H. apply merge_in in H; [|exact N]. destruct H as [[H _]|[[H _]|[H _]]]; [left; auto|left; auto|injection H; auto].
  - assert (R : exists b, In (id, b) (merge_thit m (id, s)) /\ flt b s = false /\ forall t, P id t -> flt b t = false).
    { destruct (existsb (fun y => String.eqb (fst y) id) m) eqn:E.
      - apply in_existsb in E. apply in_map_iff in E as ([i s0] & E & H). cbn in E. subst i. destruct (flt s0 s) eqn:F.
        + exists s. split; [|split; [apply flt_irrefl|]].
          * apply merge_in; [exact N|]. right. right. split; [reflexivity|]. intros [i t] Y Ey. cbn in Ey. subst i. rewrite (nodup_one m id t s0 N Y H). exact F.
          * intros t Ht. destruct (C _ _ Ht) as (s1 & H1 & G). rewrite (nodup_one m id s1 s0 N H1 H) in G. destruct (flt s t) eqn:F2; [|reflexivity].
            rewrite (flt_trans s0 s t F F2) in G. discriminate.
        + exists s0. split; [apply merge_in; [exact N|]; right; left; auto|]. split; [exact F|]. intros t Ht. destruct (C _ _ Ht) as (s1 & H1 & G). rewrite (nodup_one m id s1 s0 N H1 H) in G. exact G.
      - exists s. split; [|split; [apply flt_irrefl|]].
        + apply merge_in; [exact N|]. right. right. split; [reflexivity|]. intros [i t] Y Ey. cbn in Ey. subst i. exfalso. apply not_true_iff_false in E. apply E. apply in_existsb. apply (in_map fst) in Y. exact Y.
        + intros t Ht. destruct (C _ _ Ht) as (s1 & H1 & _). exfalso. apply not_true_iff_false in E. apply E. apply in_existsb. apply (in_map fst) in H1. exact H1. }
    destruct R as (b & Rb & R1 & R2). intros i t [H|[-> ->]]; [|eauto]. destruct (string_dec i id) as [->|n]; [eauto|].
    destruct (C i t H) as (s0 & H0 & G). exists s0. split; [|exact G]. apply merge_in; [exact N|]. left. auto.
Qed.
Lemma fold_bests w rs : forall P m, bests P m -> (forall id s, P id s -> not_nan s) -> (forall id x, In (id, x) rs -> not_nan (f64_mul x w)) ->
  bests (fun i t => P i t \/ exists x, In (i, x) rs /\ t = f64_mul x w) (fold_left (fun m r => merge_thit m (fst r, f64_mul (snd r) w)) rs m).
Proof.
  induction rs as [|[id x] rs IH]; intros P m Hb HP Hr; cbn [fold_left].
  - eapply bests_iff; [|exact Hb]. intros i t. split; [auto|]. intros [H|(x & [] & _)]. exact H.
  - eapply bests_iff; [|apply IH; [apply merge_bests; [exact Hb|exact HP|apply (Hr id x); left; reflexivity]| |intros i y Hy; apply (Hr i y); right; exact Hy]].
    + intros i t. cbn [In fst snd]. split.
      * intros [[H|[-> ->]]|(y & Hy & ->)]; [auto|right; exists x; auto|right; exists y; auto].
      * intros [H|(y & [E|Hy] & ->)]; [auto|injection E as -> ->; left; right; auto|right; exists y; auto].
    + intros i t [H|[-> ->]]; [eauto|]. apply (Hr id x). left. reflexivity.
Qed.
Variable ask : list N -> option (list thit).
Definition later (P : string -> float -> Prop) (idx : nat) (qs : list (list N)) (id : string) (s : float) : Prop :=
  P id s \/ exists j q rs x, nth_error qs j = Some q /\ ask q = Some rs /\ In (id, x) rs /\ s = f64_mul x (plan_weight (idx + j)).
Lemma later_cons P idx q qs id s : later P idx (q :: qs) id s <->
  later (fun i t => P i t \/ exists rs x, ask q = Some rs /\ In (i, x) rs /\ t = f64_mul x (plan_weight idx)) (S idx) qs id s.
Proof.
  unfold later. split.
  - intros [H|([|j] & q' & rs & x & E & A & I & ->)]; [auto|cbn in E; injection E as <-; left; right; exists rs, x; rewrite Nat.add_0_r; auto|].
    right. exists j, q', rs, x. rewrite Nat.add_succ_r. auto.
  - intros [[H|(rs & x & A & I & ->)]|(j & q' & rs & x & E & A & I & ->)]; [auto|right; exists 0, q, rs, x; rewrite Nat.add_0_r; auto|].
    right. exists (S j), q', rs, x. rewrite Nat.add_succ_r. auto.
Qed.
Lemma query_loop_later k qs : forall idx m failed P, bests P m -> (forall id s, later P idx qs id s -> not_nan s) -> idx <> 0 ->
  bests (later P idx qs) (fst (query_loop ask k idx qs m failed)) /\
  snd (query_loop ask k idx qs m failed) = failed || existsb (fun q => match ask q with None => true | _ => false end) qs.
Proof.
  induction qs as [|q qs IH]; intros idx m failed P Hb Hn Hi; cbn [query_loop existsb].
  - split; [|rewrite orb_false_r; reflexivity]. cbn [fst]. eapply bests_iff; [|exact Hb]. intros i t. unfold later. split; [auto|]. intros [H|([|j] & q & rs & x & E & _)]; [auto|discriminate|discriminate].
  - set (P' := fun i t => P i t \/ exists rs x, ask q = Some rs /\ In (i, x) rs /\ t = f64_mul x (plan_weight idx)).
    assert (X : forall m' f', bests P' m' -> bests (later P idx (q :: qs)) (fst (query_loop ask k (S idx) qs m' f')) /\
      snd (query_loop ask k (S idx) qs m' f') = f' || existsb (fun q => match ask q with None => true | _ => false end) qs).
    { intros m' f' Hb'. destruct (IH (S idx) m' f' P' Hb') as [I1 I2]; [intros i t Ht; apply (Hn i t), later_cons; exact Ht|lia|]. split; [|exact I2].
      eapply bests_iff; [|exact I1]. intros i t. symmetry. apply later_cons. }
    destruct (ask q) as [[|r rs]|] eqn:A.
    + destruct (X m failed) as [X1 X2]; [|split; [exact X1|exact X2]]. eapply bests_iff; [|exact Hb]. intros i t. unfold P'. split; [auto|]. intros [H|(rs & x & E & I & _)]; [exact H|injection E as <-; destruct I].
    + replace (idx =? 0) with false by (symmetry; apply Nat.eqb_neq; exact Hi). cbn [andb orb]. apply X. eapply bests_iff; [|apply fold_bests; [exact Hb| |]].
      * intros i t. unfold P'. split; [intros [H|(x & I & E)]; [auto|right; exists (r :: rs), x; auto]|]. intros [H|(rs' & x & E & I & ->)]; [auto|]. injection E as <-. right. exists x. auto.
      * intros i t Ht. apply (Hn i t). left. exact Ht.
      * intros i x Ix. apply (Hn i). apply later_cons. left. right. exists (r :: rs), x. auto.
    + destruct (X m true) as [X1 X2]; [|split; [exact X1|rewrite X2, orb_true_r; reflexivity]]. eapply bests_iff; [|exact Hb]. intros i t. unfold P'. split; [auto|]. intros [H|(rs & x & E & I & _)]; [exact H|discriminate].
Qed.
Lemma weight_same idx : plan_weight idx = weight_at idx.
Proof. reflexivity. Qed.
Lemma bests_len P m (ids : list string) : bests P m -> (forall id, In id ids <-> exists s, P id s) -> length m = length (nodup string_dec ids).
Proof.
  intros (N & B & C) E. replace (length m) with (length (map fst m)) by apply map_length. apply Permutation_length. apply NoDup_Permutation; [exact N|apply NoDup_nodup|]. intros id. rewrite nodup_In, E. split.
  - intros H. apply in_map_iff in H as ([i s] & <- & H). exists s. apply B. exact H.
  - intros (s & H). destruct (C _ _ H) as (s' & H' & _). apply (in_map fst) in H'. exact H'.
Qed.
Lemma query_loop_ok k qs : (forall n id s, found_by ask qs n id s -> not_nan s) -> exists n, queries_asked ask k qs n /\
  bests (found_by ask qs n) (fst (query_loop ask k 0 qs [] false)) /\
  (fst (query_loop ask k 0 qs [] false) = [] -> n = length qs /\ (snd (query_loop ask k 0 qs [] false) = true <-> exists q, In q qs /\ ask q = None)).
Proof.
  intros Hn. assert (B0 : bests (fun _ _ => False) []) by (split; [constructor|]; split; [intros ? ? []|intros ? ? []]).
  destruct qs as [|q qs].
  { exists 0. split; [right; split; [intros (q & r & rs & E & _); discriminate|reflexivity]|]. split; [|intros _; split; [reflexivity|cbn; split; [discriminate|intros (? & [] & _)]]].
    cbn. eapply bests_iff; [|exact B0]. intros i t. split; [intros []|]. intros (idx & ? & ? & ? & L & _). lia. }
  set (P' := fun i t => exists rs x, ask q = Some rs /\ In (i, x) rs /\ t = f64_mul x (plan_weight 0)).
  assert (L : forall i t, later P' 1 qs i t <-> found_by ask (q :: qs) (length (q :: qs)) i t).
  { intros i t. unfold later, found_by, P'. split.
    - intros [(rs & x & A & I & ->)|(j & q' & rs & x & E & A & I & ->)].
      + exists 0, q, rs, x. split; [cbn; lia|]. auto.
      + exists (S j), q', rs, x. split; [apply nth_error_Some; cbn; congruence|]. auto.
    - intros ([|j] & q' & rs & x & _ & E & A & I & ->); cbn in E; [injection E as <-; left; exists rs, x; auto|]. right. exists j, q', rs, x. auto. }
  assert (L1 : forall i t, P' i t <-> found_by ask (q :: qs) 1 i t).
  { intros i t. unfold found_by, P'. split.
    - intros (rs & x & A & I & ->). exists 0, q, rs, x. auto.
    - intros (j & q' & rs & x & J & E & A & I & ->). assert (j = 0) by lia. subst j. cbn in E. injection E as <-. exists rs, x. auto. }
  assert (X : forall m f, bests P' m -> bests (found_by ask (q :: qs) (length (q :: qs))) (fst (query_loop ask k 1 qs m f)) /\
     snd (query_loop ask k 1 qs m f) = f || existsb (fun q => match ask q with None => true | _ => false end) qs).
  { intros m f Hb. destruct (query_loop_later k qs 1 m f P' Hb) as [I1 I2]; [intros i t Ht; apply (Hn (length (q :: qs)) i t), L; exact Ht|lia|]. split; [|exact I2].
    eapply bests_iff; [|exact I1]. exact L. }
  assert (Ex : forall q', In q' qs -> ask q' = None -> existsb (fun q => match ask q with None => true | _ => false end) qs = true).
  { intros q' H A. apply existsb_exists. exists q'. rewrite A. auto. }
  assert (Ex' : existsb (fun q => match ask q with None => true | _ => false end) qs = true -> exists q', In q' qs /\ ask q' = None).
  { intros H. apply existsb_exists in H as (q' & H & A). exists q'. destruct (ask q'); [discriminate|auto]. }
  cbn [query_loop]. destruct (ask q) as [[|r rs]|] eqn:A.
  - exists (length (q :: qs)). split; [right; split; [|reflexivity]|].
    + intros (q1 & re & rs & E & A1 & NE & _). injection E as <- <-. rewrite A in A1. first [discriminate A1|injection A1 as <-; apply NE; reflexivity].
    + destruct (X [] false) as [X1 X2].
      * eapply bests_iff; [|exact B0]. intros i t. unfold P'. split; [intros []|]. intros (rs & x & E & I & _). injection E as <-. destruct I.
      * split; [exact X1|]. intros _. split; [reflexivity|]. rewrite X2. cbn [orb]. split; [intros H; destruct (Ex' H) as (q1 & H1 & H2); exists q1; split; [right; exact H1|exact H2]|]. intros (q1 & [<-|H1] & H2); [congruence|eauto].
  - cbn zeta. set (m' := fold_left (fun m r => merge_thit m (fst r, f64_mul (snd r) (plan_weight 0))) (r :: rs) []). assert (Bm : bests P' m').
    { eapply bests_iff; [|apply (fold_bests (plan_weight 0) (r :: rs) _ [] B0)].
      - intros i t. unfold P'. split; [intros [[]|(x & I & E)]; exists (r :: rs), x; auto|]. intros (rs' & x & E & I & ->). injection E as <-. right. exists x. auto.
      - intros i t [].
      - intros i x Ix. apply (Hn 1 i). apply L1. exists (r :: rs), x. auto. }
    assert (Ln : length m' = length (nodup string_dec (map fst (r :: rs)))).
    { apply (bests_len _ _ _ Bm). intros id. rewrite in_map_iff. unfold P'. split.
      - intros ([i x] & <- & I). exists (f64_mul x (plan_weight 0)), (r :: rs), x. auto.
      - intros (s & rs' & x & E & I & _). injection E as <-. exists (id, x). auto. }
    destruct ((0 =? 0) && (k <=? Z.of_nat (length m'))%Z) eqn:K.
    + exists 1. split; [left; split; [|reflexivity]|].
      * exists q, qs, (r :: rs). split; [reflexivity|]. split; [exact A|]. split; [discriminate|]. rewrite <- Ln. cbn [Nat.eqb andb] in K. apply Z.leb_le in K. exact K.
      * cbn [fst snd]. split; [eapply bests_iff; [exact L1|exact Bm]|]. intros E. exfalso. destruct Bm as (_ & _ & C). destruct r as [i x]. destruct (C i (f64_mul x (plan_weight 0))) as (s & I & _); [exists ((i, x) :: rs), x; split; [first [exact A|reflexivity]|]; split; [left; reflexivity|reflexivity]|]. rewrite E in I. destruct I.
    + exists (length (q :: qs)). split; [right; split; [|reflexivity]|].
      * intros (q1 & re & rs' & E & A1 & _ & K'). injection E as <- <-. assert (Er : Some rs' = Some (r :: rs)) by (rewrite <- A, <- A1; reflexivity). injection Er as ->. rewrite <- Ln in K'. cbn [Nat.eqb andb] in K. apply Z.leb_gt in K. lia.
      * destruct (X m' false Bm) as [X1 X2]. split; [exact X1|]. intros _. split; [reflexivity|]. rewrite X2. cbn [orb]. split; [intros H; destruct (Ex' H) as (q1 & H1 & H2); exists q1; split; [right; exact H1|exact H2]|]. intros (q1 & [<-|H1] & H2); [congruence|eauto].
  - exists (length (q :: qs)). split; [right; split; [|reflexivity]|].
    + intros (q1 & re & rs & E & A1 & NE & _). injection E as <- <-. rewrite A in A1. first [discriminate A1|injection A1 as <-; apply NE; reflexivity].
    + destruct (X [] true) as [X1 X2].
      * eapply bests_iff; [|exact B0]. intros i t. unfold P'. split; [intros []|]. intros (rs & x & E & I & _). discriminate.
      * split; [exact X1|]. intros _. split; [reflexivity|]. rewrite X2. split; [|reflexivity]. intros _. exists q. split; [left; reflexivity|exact A].
Qed.
Lemma by_better : forall a b, by_thit a b = true -> better_hit a b = true.
Proof.
  intros a b. unfold by_thit, better_hit. destruct (feq (snd a) (snd b)); cbn [andb]; [intros ->; apply orb_true_r|intros ->; reflexivity].
Qed.
Lemma by_better_eq a b : not_nan (snd a) -> not_nan (snd b) -> by_thit a b = better_hit a b.
Proof.
  intros Na Nb. unfold by_thit, better_hit. destruct (feq (snd a) (snd b)) eqn:E; cbn [andb]; [|rewrite orb_false_r; reflexivity].
  change (fgt (snd a) (snd b)) with (flt (snd b) (snd a)). assert (F : flt (snd b) (snd a) = false); [|rewrite F; reflexivity].
  rewrite feq_fle, !fle_iff in E by assumption. tauto.
Qed.
Lemma by_thit_weak l : (forall x : thit, In x l -> not_nan (snd x)) -> weak_order_on by_thit l.
Proof.
  intros Nn.
  assert (Key : forall a b, not_nan a -> not_nan b -> feq a b = true <-> flt a b = false /\ flt b a = false).
  { intros a b Ha Hb. rewrite feq_fle, !fle_iff by assumption. tauto. }
  assert (Fg : forall a b, fgt a b = flt b a) by reflexivity.
  split.
  - intros x y Hx Hy H. apply Nn in Hx, Hy. rewrite by_better_eq in * by assumption. unfold better_hit in *. apply orb_true_iff in H as [H|H].
    + rewrite Fg in H |- *. apply orb_false_iff. split; [apply flt_asym; exact H|]. apply andb_false_iff. left. destruct (feq (snd y) (snd x)) eqn:E; [|reflexivity]. apply Key in E as [E1 E2]; auto. congruence.
    + apply andb_true_iff in H as [E L]. apply Key in E as [E1 E2]; auto. apply orb_false_iff. split; [rewrite Fg; exact E1|]. apply andb_false_iff. right. apply string_ltb_asym. exact L.
  - intros x y z Hx Hy Hz. apply Nn in Hx, Hy, Hz. rewrite !by_better_eq by assumption. unfold better_hit. rewrite !orb_false_iff, !andb_false_iff. rewrite !Fg. intros [A1 A2] [B1 B2].
    split; [eapply (flt_ntrans (snd z) (snd y) (snd x)); eauto|].
    destruct (feq (snd z) (snd x)) eqn:E; [|auto]. right. apply Key in E as [E1 E2]; auto.
    assert (Eyx : feq (snd y) (snd x) = true). { apply Key; auto. split; [|exact A1]. eapply (flt_ntrans (snd x) (snd z) (snd y)); eauto. }
    assert (Ezy : feq (snd z) (snd y) = true). { apply Key; auto. split; [|exact B1]. eapply (flt_ntrans (snd y) (snd x) (snd z)); eauto. }
    destruct A2 as [A2|A2]; [congruence|]. destruct B2 as [B2|B2]; [congruence|]. eapply string_ltb_ntrans; eauto.
Qed.
Lemma topk_better n (l out : list thit) : (forall x, In x l -> not_nan (snd x)) -> is_topk by_thit n l out -> is_topk better_hit n l out.
Proof.
  intros Nn (rest & P & Ln & S1 & B). exists rest. split; [exact P|]. split; [exact Ln|].
  assert (No : forall x, In x (out ++ rest) -> not_nan (snd x)) by (intros x Hx; apply Nn; eapply Permutation_in; [apply Permutation_sym; exact P|exact Hx]). split.
  - assert (No' : forall x, In x out -> not_nan (snd x)) by (intros; apply No; apply in_or_app; auto). clear -S1 No'. induction S1 as [|a l S1 IH F]; constructor.
    + apply IH. intros; apply No'; right; auto.
    + rewrite Forall_forall in F |- *. intros x Hx. rewrite <- by_better_eq; [apply F; exact Hx|apply No'; right; auto|apply No'; left; auto].
  - intros x y Hx Hy. rewrite <- by_better_eq; [apply B; auto|apply No; apply in_or_app; auto|apply No; apply in_or_app; auto].
Qed.
Lemma candidates_ok ord srt k qs : (forall l, Permutation l (ord l)) -> sort_ok by_thit srt -> (0 <= k)%Z -> qs <> [] ->
  (forall n id s, found_by ask qs n id s -> not_nan s) ->
  exists n, queries_asked ask k qs n /\
  ((forall id s, ~ found_by ask qs n id s) /\ search_candidates ask ord srt k qs = (if existsb (fun q => match ask q with None => true | _ => false end) qs then Err EOther else Ok []) \/
   (exists id s, found_by ask qs n id s) /\ exists out all, search_candidates ask ord srt k qs = Ok out /\ bests (found_by ask qs n) all /\ is_topk better_hit (Z.to_nat k) all out).
Proof.
  intros Ho Hs Hk Hq Hn. destruct (query_loop_ok k qs Hn) as (n & Q & Bs & Em). exists n. split; [exact Q|]. unfold search_candidates. destruct qs as [|q qs]; [congruence|]. set (qs' := q :: qs) in *.
  destruct (query_loop ask k 0 qs' [] false) as [m failed] eqn:L. cbn [fst snd] in *. destruct m as [|h m].
  - left. destruct Bs as (_ & _ & C). split; [intros id s H; destruct (C _ _ H) as (? & [] & _)|]. destruct (Em eq_refl) as [_ [F1 F2]].
    destruct (existsb _ qs') eqn:X.
    + assert (failed = true); [|subst; reflexivity]. apply F2. apply existsb_exists in X as (q1 & X1 & X2). exists q1. destruct (ask q1); [discriminate|auto].
    + destruct failed; [|reflexivity]. destruct (F1 eq_refl) as (q1 & X1 & X2). assert (Y : existsb (fun q => match ask q with None => true | _ => false end) qs' = true); [|congruence]. apply existsb_exists. exists q1. rewrite X2. auto.
  - right. set (m' := h :: m) in *. split; [destruct h as [i s]; exists i, s; destruct Bs as (_ & B & _); apply B; left; reflexivity|].
    assert (Nm : forall x, In x m' -> not_nan (snd x)) by (intros [i s] H; destruct Bs as (_ & B & _); apply (Hn n i s); apply B; exact H).
    assert (T : is_topk better_hit (Z.to_nat k) m' (firstn (Z.to_nat k) (srt (ord m')))).
    { apply topk_better; [exact Nm|]. apply (is_topk_perm _ _ _ _ _ (Ho m')). apply topk_of_sort; [exact Hs|]. apply by_thit_weak. intros x Hx. apply Nm. eapply Permutation_in; [apply Permutation_sym; apply Ho|exact Hx]. }
    exists (firstn (Z.to_nat k) (srt (ord m'))), m'. split; [|auto]. cbv zeta. destruct (Z.ltb_spec k (Z.of_nat (length (srt (ord m'))))) as [K|K].
    + destruct (Z.ltb_spec k 0); [lia|]. reflexivity.
    + rewrite firstn_all2 by lia. reflexivity.
Qed.
End Cand.
