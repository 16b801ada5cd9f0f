From Coq Require Import String Ascii List NArith ZArith Bool Lia Permutation.
From Verif Require Import Base Floats64 TopK EncodingModel DimensionModel StoreModel StoreSpec StoreProofs StoreInv StoreProofs2 StoreProofs3
  SearchModel SearchSpec SearchProofs SqlModel FilterModel FilterSpec FilterProofs FilterProofs2 FacetModel FacetSpec.
Import ListNotations.
Open Scope string_scope.
Open Scope list_scope.

(** *** patterns *)
Lemma like_end t : like_matches "%" t.
Proof. assert (E : (t ++ "")%string = t) by (induction t as [|a t IH]; [reflexivity|cbn; rewrite IH; reflexivity]). rewrite <- E. apply (lm_any "" "" t lm_end). Qed.
Lemma like_plain p q : no_wildcards p -> forall t, like_matches (p ++ q) t <-> exists w v, t = (w ++ v)%string /\ same_letters p w /\ like_matches q v.
Proof.
  induction p as [|c p IH]; intros Hp t; cbn [append].
  - split; [intros H; exists "", t; repeat split; auto; constructor|]. intros (w & v & -> & A & B). inversion A. exact B.
  - apply has_char_cons in Hp as [Hc Hp]. apply orb_false_iff in Hc as [C1 C2]. apply Ascii.eqb_neq in C1, C2. split.
    + intros H. inversion H as [|? ? ? ? E1 E2|? ? ? ? E1 E2|p' c' d t' H1 H2 H3 H4]; subst; try congruence.
      apply IH in H4 as (w & v & -> & A & B); auto. exists (String d w), v. repeat split; auto. constructor; auto.
    + intros (w & v & -> & A & B). inversion A; subst. cbn [append]. apply lm_char; auto. apply IH; auto. eauto.
Qed.
Lemma like_prefix p : no_wildcards p -> forall t, like_matches (p ++ "%") t <-> exists w v, t = (w ++ v)%string /\ same_letters p w.
Proof.
  intros Hp t. rewrite like_plain by auto. split; intros (w & v & H); exists w, v; [tauto|]. destruct H; repeat split; auto. apply like_end.
Qed.
Lemma like_contains p : no_wildcards p -> forall t, like_matches ("%" ++ p ++ "%") t <-> exists u w v, t = (u ++ w ++ v)%string /\ same_letters p w.
Proof.
  intros Hp t. cbn [append]. split.
  - intros H. inversion H as [|p' t' u H1|? ? ? ? E|]; subst; try congruence. apply like_prefix in H1 as (w & v & -> & A); eauto 6.
  - intros (u & w & v & -> & A). apply lm_any. apply like_prefix; eauto.
Qed.

(** *** induction *)
Lemma facet_rect2 (P : facet -> Prop) :
  (forall vs, P (FEquals vs)) -> (forall vs, P (FIn vs)) -> (forall a b, P (FRange a b)) -> (forall p, P (FContains p)) -> (forall p, P (FPrefix p)) ->
  P FExists -> (forall op l, Forall P l -> P (FNested op l)) -> P FOther -> forall f, P f.
Proof.
  intros H1 H2 H3 H4 H5 H6 H7 H8. fix IH 1. intros [vs|vs|a b|p|p| |op l|].
  - apply H1. - apply H2. - apply H3. - apply H4. - apply H5. - exact H6.
  - apply H7. revert l. fix IHl 1. intros [|x l]; [constructor|]. constructor; [apply IH|apply IHl].
  - exact H8.
Qed.
Definition parts (k : string) : list facet -> list atom :=
  fix parts (l : list facet) : list atom :=
    match l with [] => [] | x :: l' => match build_facet k x with [] => parts l' | t => AParen t :: parts l' end end.
Lemma build_nested k op l : build_facet k (FNested op l) =
  match parts k l with [] => [] | ts => match op with LOr => map (fun a => [a]) ts | LNot => [[ANot [ts]]] | LAnd => [ts] end end.
Proof. reflexivity. Qed.

Section F.
Variable N : numerals.
Lemma plain_nested k op l m : plain_facet N k (FNested op l) m <->
  l <> [] /\ Forall (fun x => plain_facet N k x m /\ ~ vacuous x) l /\ (op = LNot -> assoc k m <> None).
Proof.
  assert (E : forall l, (fix all (l : list facet) : Prop := match l with [] => True | x :: l' => (plain_facet N k x m /\ ~ vacuous x) /\ all l' end) l
    <-> Forall (fun x => plain_facet N k x m /\ ~ vacuous x) l).
  { intros l0. induction l0 as [|x l0 IH]; [split; [constructor|tauto]|]. rewrite IH. split; [intros [A B]; constructor; auto|intros H; inversion H; auto]. }
  cbn [plain_facet]. rewrite E. tauto.
Qed.
Lemma acc_all k l m : (fix all (l : list facet) : Prop := match l with [] => True | x :: l' => accepts N k x m /\ all l' end) l
    <-> Forall (fun x => accepts N k x m) l.
Proof. induction l as [|x l IH]; [split; [constructor|tauto]|]. rewrite IH. split; [intros [A B]; constructor; auto|intros H; inversion H; auto]. Qed.
Lemma acc_some k l m : (fix some (l : list facet) : Prop := match l with [] => False | x :: l' => accepts N k x m \/ some l' end) l
    <-> Exists (fun x => accepts N k x m) l.
Proof. induction l as [|x l IH]; [split; [tauto|intros H; inversion H]|]. rewrite IH. split; [intros [A|A]; auto|intros H; inversion H; auto]. Qed.
Lemma vac_all l : (fix all (l : list facet) : Prop := match l with [] => True | x :: l' => vacuous x /\ all l' end) l <-> Forall vacuous l.
Proof. induction l as [|x l IH]; [split; [constructor|tauto]|]. rewrite IH. split; [intros [A B]; constructor; auto|intros H; inversion H; auto]. Qed.

Lemma empty_vacuous k f : build_facet k f = [] <-> vacuous f.
Proof.
  induction f as [vs|vs|a b|p|p| |op l IH|] using facet_rect2.
  - destruct vs; cbn; split; congruence.
  - destruct vs; cbn; split; congruence.
  - cbn [build_facet vacuous]. unfold bound. destruct a, b; cbn; split; intros H; try discriminate; try (destruct H; discriminate); auto.
  - cbn [build_facet vacuous]. destruct (String.eqb_spec p ""); split; congruence.
  - cbn [build_facet vacuous]. destruct (String.eqb_spec p ""); split; congruence.
  - cbn. split; [discriminate|tauto].
  - rewrite build_nested. cbn [vacuous]. rewrite vac_all.
    assert (E : parts k l = [] <-> Forall vacuous l).
    { clear op. induction IH as [|x l Hx Hl IHl]; [split; [constructor|reflexivity]|]. cbn [parts]. rewrite Forall_cons_iff, <- IHl, <- Hx.
      fold (parts k). destruct (build_facet k x); [tauto|]. split; [discriminate|]. intros [? _]; discriminate. }
    rewrite <- E. destruct (parts k l); [tauto|]. destruct op; split; try discriminate.
  - cbn. tauto.
Qed.

(** What a clause should be: decided, without error, true exactly when [P]. *)
Definition tells (present : Prop) (v : tv) (P : Prop) : Prop := v <> TError /\ (v = TTrue <-> P) /\ (present -> v <> TUnknown).
Lemma tells_bool pr b (P : Prop) : (b = true <-> P) -> tells pr (of_bool b) P.
Proof. intros H. split; [apply of_bool_E|split; [rewrite of_bool_T; auto|]]. destruct b; discriminate. Qed.
Lemma tells_not pr v P : tells pr v P -> pr -> tells pr (tv_not v) (~ P).
Proof. intros (A & B & C) Hp. specialize (C Hp). destruct v; cbn; unfold tells; try congruence; intuition congruence. Qed.
Lemma tells_and pr v w P Q : tells pr v P -> tells pr w Q -> tells pr (tv_and v w) (P /\ Q).
Proof. intros (A & B & C) (A' & B' & C'). unfold tells. rewrite tv_and_T, B, B'. split; [apply tv_and_E; auto|]. split; [tauto|]. intros Hp. destruct v, w; cbn; try discriminate; intuition congruence. Qed.
Lemma tells_or pr v w P Q : tells pr v P -> tells pr w Q -> tells pr (tv_or v w) (P \/ Q).
Proof. intros (A & B & C) (A' & B' & C'). unfold tells. rewrite tv_or_T, B, B' by auto. split; [apply tv_or_E; auto|]. split; [tauto|]. intros Hp. destruct v, w; cbn; try discriminate; intuition congruence. Qed.
Lemma tells_iff pr v P Q : (P <-> Q) -> tells pr v P -> tells pr v Q.
Proof. unfold tells. tauto. Qed.

Lemma text_in_known a vs : Forall is_text vs -> text_in a (map bind_param vs) <> TUnknown.
Proof.
  induction 1 as [|v vs [x ->] H IH]; cbn [map text_in bind_param text_eq]; [discriminate|]. destruct (String.eqb a x); cbn; [discriminate|exact IH].
Qed.
Lemma on_text_tells k m f (Q : string -> Prop) : (forall a, assoc k m = Some a -> tells True (f a) (Q a)) ->
  tells (assoc k m <> None) (on_text (Some (assoc k m)) f) (exists a, assoc k m = Some a /\ Q a).
Proof.
  intros H. destruct (assoc k m) as [a|] eqn:Ea; cbn [on_text].
  - destruct (H a eq_refl) as (A & B & C). split; auto. split; auto. rewrite B. split; [eauto|]. intros (a' & [= <-] & HQ). exact HQ.
  - split; [discriminate|]. split; [split; [discriminate|intros (a & E & _); discriminate]|congruence].
Qed.
Lemma bound_tells coll r k v m op : r_meta r = Some m -> casts_numerals N -> plain_field k -> (op = CGE \/ op = CLE) ->
  number_of N v <> None -> numeric_field N k m ->
  tells (assoc k m <> None) (eval_leaf N coll r (LCmp op k v)) (exists a, assoc k m = Some a /\ compares N op a v).
Proof.
  intros Hm Hc Hk Hop Hv Hn.
  assert (L : eval_leaf N coll r (LCmp op k v) = on_text (extract k (r_meta r)) (fun a => real_cmp N op (sql_real N a) (bind_param v)))
    by (destruct Hop as [->| ->]; reflexivity).
  rewrite L, Hm, extract_plain by auto. apply on_text_tells. intros a Ea. destruct (sql_num N a) as [x|] eqn:Ex; [|destruct (Hn a Ea Ex)].
  destruct (real_cmp_number N op a x v Ex Hv Hc) as [A B]. split; auto. split; auto. intros _.
  destruct (number_of N v) as [y|] eqn:Ey; [|congruence]. destruct (bind_number N v y Ey) as [->|(s & -> & Es)]; cbn [real_cmp]; [|rewrite Es]; destruct (num_cmp _ _ _); discriminate.
Qed.

Lemma parts_tell coll r k m l : plain_field k -> Forall (fun x => tells (assoc k m <> None) (eval_text N coll r (build_facet k x)) (accepts N k x m) /\ build_facet k x <> []) l ->
  Forall2 (fun a x => tells (assoc k m <> None) (eval_atom N coll r a) (accepts N k x m)) (parts k l) l.
Proof.
  intros Hk. induction 1 as [|x l [Hx Hne] Hl IH]; [constructor|]. cbn [parts]. fold (parts k). destruct (build_facet k x) as [|c t] eqn:E; [congruence|].
  constructor; auto. rewrite eval_paren. exact Hx.
Qed.
Lemma conj_tells coll r pr ts (Ps : list Prop) : Forall2 (fun a P => tells pr (eval_atom N coll r a) P) ts Ps -> tells pr (eval_conj N coll r ts) (Forall (fun P => P) Ps).
Proof.
  induction 1 as [|a P ts Ps Ha H IH]; cbn [eval_conj].
  - split; [discriminate|]. split; [split; auto|discriminate].
  - apply (tells_iff _ _ (P /\ Forall (fun P => P) Ps)); [rewrite Forall_cons_iff; tauto|]. destruct ts.
    + inversion H; subst. eapply tells_iff; [|exact Ha]. split; [auto|tauto].
    + apply tells_and; auto.
Qed.
Lemma disj_tells coll r pr ts (Ps : list Prop) : ts <> [] -> Forall2 (fun a P => tells pr (eval_atom N coll r a) P) ts Ps ->
  tells pr (eval_text N coll r (map (fun a => [a]) ts)) (Exists (fun P => P) Ps).
Proof.
  intros Hne H. induction H as [|a P ts Ps Ha H IH]; cbn [map eval_text eval_conj]; [congruence|].
  apply (tells_iff _ _ (P \/ Exists (fun P => P) Ps)); [rewrite Exists_cons; tauto|]. destruct ts.
  - inversion H; subst. eapply tells_iff; [|exact Ha]. split; [auto|intros [A|A]; [auto|inversion A]].
  - apply tells_or; auto. apply IH. discriminate.
Qed.
Lemma Forall2_map_r {A B C} (R : A -> C -> Prop) (f : B -> C) l l' : Forall2 (fun a b => R a (f b)) l l' -> Forall2 R l (map f l').
Proof. induction 1; constructor; auto. Qed.

(** The text of a facet tells whether the metadata is accepted. *)
Lemma facet_tells coll r k m : r_meta r = Some m -> casts_numerals N -> plain_field k -> forall f, plain_facet N k f m -> ~ vacuous f ->
  tells (assoc k m <> None) (eval_text N coll r (build_facet k f)) (accepts N k f m).
Proof.
  intros Hm Hc Hk. induction f as [vs|vs|a b|p|p| |op l IH|] using facet_rect2; intros Hp Hv.
  - destruct vs as [|v vs]; [destruct Hv; reflexivity|]. destruct Hp as [x ->]. cbn [build_facet eval_text eval_conj eval_atom eval_leaf].
    rewrite Hm, extract_plain by auto. apply on_text_tells. intros a _. apply tells_bool. rewrite String.eqb_eq. cbn. tauto.
  - destruct vs as [|v vs]; [destruct Hv; reflexivity|]. cbn [build_facet eval_text eval_conj eval_atom eval_leaf accepts plain_facet] in *.
    rewrite Hm, extract_plain by auto.
    eapply tells_iff; [|apply (on_text_tells k m _ (fun a => exists w, In w (v :: vs) /\ equals N a w))].
    + split; [intros (a & A & w & B); exists a, w; tauto|intros (a & w & A & B); exists a; split; [auto|exists w; auto]].
    + intros a _. destruct (text_in_spec N a (v :: vs) Hp) as [A B]. split; [exact A|]. split; [exact B|]. intros _. exact (text_in_known a (v :: vs) Hp).
  - destruct Hp as [Ha Hb]. cbn [vacuous] in Hv.
    assert (A : forall op v, (op = CGE \/ op = CLE) -> v <> GNil -> good_bound N k v m ->
       bound op k v = [[ALeaf (LCmp op k v)]] /\ tells (assoc k m <> None) (eval_leaf N coll r (LCmp op k v)) (v = GNil \/ exists a, assoc k m = Some a /\ compares N op a v)).
    { intros op v Hop Hne [->|[H1 H2]]; [congruence|]. split; [destruct v; try reflexivity; congruence|].
      eapply tells_iff; [|apply bound_tells; eauto]. tauto. }
    cbn [build_facet accepts].
    assert (Dec : forall v, v = GNil \/ v <> GNil) by (intros []; auto; right; discriminate).
    destruct (Dec a) as [->|Na], (Dec b) as [->|Nb].
    + tauto.
    + destruct (A CLE b) as [-> T]; auto. eapply tells_iff; [|exact T]. tauto.
    + destruct (A CGE a) as [-> T]; auto. eapply tells_iff; [|exact T]. tauto.
    + destruct (A CGE a) as [-> T1]; auto. destruct (A CLE b) as [-> T2]; auto. cbn [join_and app eval_text eval_conj eval_atom]. apply tells_and; auto.
  - cbn [vacuous plain_facet build_facet accepts] in *. destruct (String.eqb_spec p ""); [tauto|]. cbn [eval_text eval_conj eval_atom eval_leaf].
    rewrite Hm, extract_plain by auto.
    eapply tells_iff; [|apply (on_text_tells k m _ (fun a => exists u w v, a = (u ++ w ++ v)%string /\ same_letters p w))].
    + split; [intros (a & A & u & w & v & -> & B); right; eauto|]. intros [H|(u & w & v & A & B)]; [congruence|]. eexists. split; [exact A|]. eauto.
    + intros a _. apply tells_bool. rewrite sql_like_spec. apply like_contains; auto.
  - cbn [vacuous plain_facet build_facet accepts] in *. destruct (String.eqb_spec p ""); [tauto|]. cbn [eval_text eval_conj eval_atom eval_leaf].
    rewrite Hm, extract_plain by auto.
    eapply tells_iff; [|apply (on_text_tells k m _ (fun a => exists w v, a = (w ++ v)%string /\ same_letters p w))].
    + split; [intros (a & A & w & v & -> & B); right; eauto|]. intros [H|(w & v & A & B)]; [congruence|]. eexists. split; [exact A|]. eauto.
    + intros a _. apply tells_bool. rewrite sql_like_spec. apply like_prefix; auto.
  - cbn [build_facet eval_text eval_conj eval_atom eval_leaf accepts]. rewrite Hm, extract_plain by auto. destruct (assoc k m) as [a|].
    + split; [discriminate|split; [|discriminate]]. split; eauto.
    + split; [discriminate|split; [|congruence]]. split; [discriminate|]. intros (a & H). discriminate.
  - apply plain_nested in Hp as (Hne & Hp & Hnot). rewrite build_nested.
    assert (T : Forall2 (fun a P => tells (assoc k m <> None) (eval_atom N coll r a) P) (parts k l) (map (fun x => accepts N k x m) l)).
    { apply Forall2_map_r. apply parts_tell; auto. rewrite Forall_forall in *. intros x Hx. destruct (Hp x Hx) as [A B]. split; [apply IH; auto|]. rewrite empty_vacuous. exact B. }
    assert (Np : parts k l <> []) by (intros E; rewrite E in T; destruct l; [congruence|]; inversion T).
    assert (Fa : Forall (fun P : Prop => P) (map (fun x => accepts N k x m) l) <-> Forall (fun x => accepts N k x m) l) by (rewrite Forall_map; tauto).
    assert (Fe : Exists (fun P : Prop => P) (map (fun x => accepts N k x m) l) <-> Exists (fun x => accepts N k x m) l) by (rewrite Exists_map; tauto).
    destruct (parts k l) as [|p0 ps] eqn:Ep; [congruence|]. rewrite <- Ep in *. destruct op; cbn [accepts].
    + eapply tells_iff; [rewrite acc_all, <- Fa; reflexivity|]. cbn [eval_text]. apply conj_tells; auto.
    + eapply tells_iff; [rewrite acc_some, <- Fe; reflexivity|]. apply disj_tells; auto.
    + eapply tells_iff; [rewrite acc_all, <- Fa; reflexivity|]. cbn [eval_text eval_conj]. rewrite eval_not. apply tells_not; [|auto]. cbn [eval_text]. apply conj_tells; auto.
  - destruct Hv. exact I.
Qed.
End F.

(** *** conjunction of facets *)
Lemma tv_and_assoc a b c : tv_and (tv_and a b) c = tv_and a (tv_and b c).
Proof. destruct a, b, c; reflexivity. Qed.
Lemma tv_and_true a : tv_and a TTrue = a.
Proof. destruct a; reflexivity. Qed.
Lemma conj_cons N coll r a l : eval_conj N coll r (a :: l) = tv_and (eval_atom N coll r a) (eval_conj N coll r l).
Proof. destruct l; [cbn; rewrite tv_and_true|]; reflexivity. Qed.
Lemma conj_app N coll r a b : eval_conj N coll r (a ++ b) = tv_and (eval_conj N coll r a) (eval_conj N coll r b).
Proof. induction a as [|x a IH]; [reflexivity|]. cbn [app]. rewrite !conj_cons, IH. symmetry. apply tv_and_assoc. Qed.
Lemma join_single a b : length a <= 1 -> length b <= 1 -> length (join_and a b) <= 1.
Proof. destruct a as [|x [|]], b as [|y [|]]; cbn; lia. Qed.
Lemma build_single k f : ~ or_group f -> length (build_facet k f) <= 1.
Proof.
  destruct f as [[|]|[|]|a b|p|p| |op l|]; cbn; auto; intros H.
  - apply join_single; [destruct a|destruct b]; cbn; lia.
  - destruct (String.eqb p ""); cbn; auto.
  - destruct (String.eqb p ""); cbn; auto.
  - fold (parts k). destruct op; [destruct (parts k l); cbn; lia| |destruct (parts k l); cbn; lia].
    destruct l as [|x [|y l]]; [cbn; lia| |destruct H; exact I]. cbn [parts]. destruct (build_facet k x); cbn; lia.
Qed.
Lemma vacuous_accepts N k f m : plain_facet N k f m -> vacuous f -> accepts N k f m.
Proof.
  destruct f as [vs|vs|a b|p|p| |op l|]; cbn [vacuous accepts]; auto.
  - intros _ ->. exact I. - intros _ ->. exact I. - intros _ [-> ->]; auto. - tauto.
  - intros Hp Hv. apply plain_nested in Hp as (Hne & Hp & _). destruct l as [|x l]; [congruence|]. inversion Hp; subst. tauto.
Qed.
Definition decides_where N coll r (t : sqltext) (P : Prop) : Prop :=
  (t = [] /\ P) \/ (t <> [] /\ tells False (eval_text N coll r t) P).
Lemma decides_join N coll r a b P Q : length a <= 1 -> length b <= 1 -> decides_where N coll r a P -> decides_where N coll r b Q ->
  decides_where N coll r (join_and a b) (P /\ Q).
Proof.
  intros Ha Hb [[-> HP]|[Na TP]] [[-> HQ]|[Nb TQ]].
  - left. auto.
  - right. split; auto. eapply tells_iff; [|exact TQ]. tauto.
  - right. assert (E : join_and a [] = a) by (destruct a as [|? []]; reflexivity). rewrite E. split; auto. eapply tells_iff; [|exact TP]. tauto.
  - destruct a as [|x [|]]; try congruence; [|cbn in Ha; lia]. destruct b as [|y [|]]; try congruence; [|cbn in Hb; lia].
    right. split; [discriminate|]. cbn [join_and eval_text] in *. rewrite conj_app. apply tells_and; auto.
Qed.
Lemma facet_decides N coll r k m f : r_meta r = Some m -> casts_numerals N -> plain_field k -> plain_facet N k f m ->
  decides_where N coll r (build_facet k f) (accepts N k f m).
Proof.
  intros Hm Hc Hk Hp. destruct (build_facet k f) as [|c t] eqn:E.
  - left. split; auto. apply vacuous_accepts; auto. apply (empty_vacuous k). exact E.
  - right. split; [discriminate|]. rewrite <- E. assert (Hv : ~ vacuous f) by (rewrite <- (empty_vacuous k), E; discriminate).
    destruct (facet_tells N coll r k m Hm Hc Hk f Hp Hv) as (A & B & _). split; [exact A|split; [exact B|tauto]].
Qed.
Lemma where_decides N coll r m fs : r_meta r = Some m -> casts_numerals N ->
  Forall (fun kf => plain_field (fst kf) /\ plain_facet N (fst kf) (snd kf) m) fs ->
  Forall (fun kf => ~ or_group (snd kf)) fs \/ length fs = 1 ->
  decides_where N coll r (facet_where fs) (accepts_all N fs m).
Proof.
  intros Hm Hc Hp [Ho|Ho].
  - unfold facet_where.
    assert (G : forall fs t P, length t <= 1 -> decides_where N coll r t P ->
      Forall (fun kf => plain_field (fst kf) /\ plain_facet N (fst kf) (snd kf) m) fs -> Forall (fun kf : string * facet => ~ or_group (snd kf)) fs ->
      decides_where N coll r (fold_left (fun t kf => join_and t (build_facet (fst kf) (snd kf))) fs t) (P /\ accepts_all N fs m)).
    { clear fs Hp Ho. unfold decides_where, accepts_all. induction fs as [|[k f] fs IH]; intros t P Ht D Hp Ho; cbn [fold_left fst snd].
      - destruct D as [[A B]|[A B]]; [left; repeat split; auto|]. right. split; auto. eapply tells_iff; [|exact B]. split; [auto|tauto].
      - inversion Hp as [|? ? [K1 K2] Hp']; inversion Ho as [|? ? O1 Ho']; subst. cbn [fst snd] in *.
        pose proof (IH (join_and t (build_facet k f)) (P /\ accepts N k f m) (join_single _ _ Ht (build_single k f O1))
          (decides_join N coll r _ _ _ _ Ht (build_single k f O1) D (facet_decides N coll r k m f Hm Hc K1 K2)) Hp' Ho') as R.
        destruct R as [[A B]|[A B]]; [left; split; auto; rewrite Forall_cons_iff; cbn [fst snd]; tauto|].
        right. split; auto. eapply tells_iff; [|exact B]. rewrite Forall_cons_iff. cbn [fst snd]. tauto. }
    pose proof (G fs [] True) as R. destruct R as [[A B]|[A B]]; auto.
    + left. auto. + left. split; auto. tauto. + right. split; auto. eapply tells_iff; [|exact B]. tauto.
  - destruct fs as [|[k f] [|]]; try discriminate. inversion Hp as [|? ? [K1 K2] Hp']; subst. cbn [fst snd] in *.
    unfold facet_where. cbn [fold_left fst snd join_and].
    destruct (facet_decides N coll r k m f Hm Hc K1 K2) as [[A B]|[A B]].
    + left. split; auto. repeat constructor; auto.
    + right. split; auto. eapply tells_iff; [|exact B]. unfold accepts_all. rewrite Forall_cons_iff. cbn. split; [auto|tauto].
Qed.

(** *** which clauses read the metadata column *)
Lemma reads_join a b : reads_metadata (join_and a b) = reads_metadata a || reads_metadata b.
Proof.
  unfold reads_metadata. revert b. induction a as [|x a IH]; intros b; [reflexivity|]. destruct b as [|y b].
  - cbn [join_and]. rewrite orb_false_r; destruct a; reflexivity.
  - destruct a as [|x' a]; [cbn [join_and existsb]; rewrite existsb_app, orb_false_r, orb_assoc; reflexivity|].
    change (join_and (x :: x' :: a) (y :: b)) with (x :: join_and (x' :: a) (y :: b)). cbn [existsb] in *. rewrite IH. cbn [existsb]. rewrite !orb_assoc. reflexivity.
Qed.
Lemma reads_paren t : reads_metadata_atom (AParen t) = reads_metadata t.
Proof.
  cbn [reads_metadata_atom]. unfold reads_metadata. induction t as [|l t IH]; [reflexivity|]. cbn [existsb]. rewrite <- IH. f_equal.
Qed.
Lemma reads_not t : reads_metadata_atom (ANot t) = reads_metadata t.
Proof. rewrite <- reads_paren. reflexivity. Qed.
Lemma facet_reads k f : build_facet k f <> [] -> reads_metadata (build_facet k f) = true.
Proof.
  induction f as [vs|vs|a b|p|p| |op l IH|] using facet_rect2; cbn [build_facet]; try congruence.
  - destruct vs; [congruence|reflexivity]. - destruct vs; [congruence|reflexivity].
  - rewrite reads_join. destruct a, b; cbn; intros H; try reflexivity; congruence.
  - destruct (String.eqb p ""); [congruence|reflexivity]. - destruct (String.eqb p ""); [congruence|reflexivity].
  - reflexivity.
  - fold (parts k).
    assert (A : Forall (fun a => reads_metadata_atom a = true) (parts k l)).
    { clear op. induction IH as [|x l Hx Hl IHl]; [constructor|]. cbn [parts]. fold (parts k). destruct (build_facet k x) as [|c t] eqn:E; auto.
      constructor; auto. rewrite reads_paren. apply Hx. discriminate. }
    destruct (parts k l) as [|a ts]; [congruence|]. inversion A; subst. intros _. destruct op.
    + unfold reads_metadata. cbn [existsb]. rewrite H1. reflexivity.
    + unfold reads_metadata. cbn [map existsb]. rewrite H1. reflexivity.
    + unfold reads_metadata. cbn [existsb]. rewrite reads_not. unfold reads_metadata. cbn [existsb]. rewrite H1. reflexivity.
Qed.
Lemma where_reads fs : Exists (fun kf => ~ vacuous (snd kf)) fs -> reads_metadata (facet_where fs) = true.
Proof.
  unfold facet_where. generalize (@nil (list atom)) as t. induction fs as [|[k f] fs IH]; intros t H; [inversion H|].
  cbn [fold_left fst snd]. inversion H as [? ? H1|? ? H1]; subst; [|auto].
  assert (G : forall fs t, reads_metadata t = true -> reads_metadata (fold_left (fun t kf => join_and t (build_facet (fst kf) (snd kf))) fs t) = true).
  { clear. induction fs as [|kf fs IH]; intros t H; [exact H|]. cbn [fold_left]. apply IH. rewrite reads_join, H. reflexivity. }
  apply G. rewrite reads_join. cbn [snd] in H1. rewrite (facet_reads k f); [apply orb_true_r|]. rewrite (empty_vacuous k). exact H1.
Qed.
Lemma where_vacuous fs : Forall (fun kf => vacuous (snd kf)) fs -> facet_where fs = [].
Proof.
  unfold facet_where. induction 1 as [|[k f] fs H Hl IH]; [reflexivity|]. cbn [fold_left fst snd]. cbn [snd] in H. apply (empty_vacuous k) in H. rewrite H. exact IH.
Qed.
Lemma clause_reads fs o : Exists (fun kf => ~ vacuous (snd kf)) fs \/ o_filter o <> [] -> reads_metadata (facet_clause fs o) = true.
Proof.
  intros H. unfold facet_clause.
  assert (G : forall l t, reads_metadata t = true \/ l <> [] ->
    reads_metadata (fold_left (fun t kv => join_and t [[ALeaf (LCmp CEQ (fst kv) (GStr (snd kv)))]]) l t) = true).
  { induction l as [|[k v] l IH]; intros t Ht; cbn [fold_left]; [destruct Ht; [auto|congruence]|]. apply IH. left. rewrite reads_join. apply orb_true_r. }
  apply G. destruct H as [H|H]; [|auto]. left. unfold with_collection. destruct (String.eqb _ _); [|rewrite reads_join]; rewrite (where_reads fs H); reflexivity.
Qed.

Section S.
Variable I : index_ops.
Notation store := (store I).
Lemma facets_fail srt gsrt scan N sc (s : store) q o fs want maxv : st_closed I s = false ->
  Exists (fun kf => ~ vacuous (snd kf)) fs \/ o_filter o <> [] ->
  search_facets I srt gsrt scan N sc s q o fs want maxv = Err EOther.
Proof. intros C H. unfold search_facets, fetch_facets. rewrite C, clause_reads by exact H. reflexivity. Qed.

(** *** search without conditions *)
Lemma oks_perm {A} (l l' : list (outcome A)) : Permutation l l' -> Permutation (oks l) (oks l').
Proof. apply Permutation_flat_map. Qed.
Lemma lists_perm (s : store) P f all all' : Permutation all all' -> lists_stored I s P f all -> lists_stored I s P f all'.
Proof.
  intros Hp [A B]. split.
  - eapply Permutation_NoDup; [apply Permutation_map; exact Hp|exact A].
  - intros e x. rewrite <- B. split; intros H; [apply Permutation_sym in Hp|]; eapply Permutation_in; eauto.
Qed.

Lemma vacuous_fetch scan N (s : store) envs fs o : reachable I envs s -> st_closed I s = false -> (forall l, Permutation l (scan l)) ->
  Forall (fun kf => vacuous (snd kf)) fs -> o_filter o = [] ->
  ((0 < o_topk o)%Z -> at_most I s o (Z.to_nat (o_topk o * 10))) ->
  exists p rows, fetch_facets scan N (st_db I s) fs o = Ok (oks (map (scan_search (st_db I s)) rows)) /\
    Permutation (filter p (t_rows (st_db I s))) rows /\
    forall r e0, In r (t_rows (st_db I s)) -> scan_get true (st_db I s) r = Ok e0 -> (p r = true <-> in_collection o e0).
Proof.
  intros R C Hsc Hv Hf Hn. unfold fetch_facets, facet_clause. rewrite Hf, where_vacuous by auto. cbn [fold_left].
  destruct (coll_filter I N s envs o R) as (p & E & Hp). unfold fetch_sql in E.
  set (w := with_collection o []) in *. destruct (reads_metadata w); [discriminate|].
  set (rs := match w with [] => t_rows (st_db I s) | _ => filter _ _ end) in *.
  assert (Prs : exists p', rs = filter p' (t_rows (st_db I s)) /\
    forall r e0, In r (t_rows (st_db I s)) -> scan_get true (st_db I s) r = Ok e0 -> (p' r = true <-> in_collection o e0)).
  { unfold rs, w, with_collection, in_collection. destruct (String.eqb_spec (o_coll o) "") as [Eo|Eo].
    - exists (fun _ => true). rewrite filter_all by auto. split; [reflexivity|]. intros; split; auto.
    - cbn [join_and]. eexists. split; [reflexivity|]. intros r e0 Hr S. unfold scan_get in S. destruct (decode_vector _); try discriminate. cbn [bind] in S. injection S as <-. cbn [e_coll].
      unfold selects, clause_of. cbn [eval_text eval_conj eval_atom eval_leaf]. destruct (String.eqb_spec (coll_name (st_db I s) (r_coll r)) (o_coll o)); cbn [of_bool]; split; auto; intros; try tauto; try discriminate. }
  destruct Prs as (p' & Ers & Hp'). exists p', (scan rs). split.
  - f_equal. f_equal. f_equal. unfold facet_limit. destruct (Z.ltb_spec 0 (o_topk o)) as [Hk|]; auto. apply firstn_all2.
    rewrite <- (Permutation_length (Hsc rs)). rewrite <- (map_length r_id). apply (Hn Hk).
    + rewrite Ers. apply NoDup_map_filter. exact (reachable_uniq I envs s R).
    + intros id Hin. apply in_map_iff in Hin as (r & <- & Hr). rewrite Ers in Hr. apply filter_In in Hr as [Hr Hpr].
      destruct (row_of_get I s envs r R C Hr) as (e & G & _ & _). exists e. split; auto. unfold get_by_id in G. rewrite C, (find_uniq _ r (reachable_uniq I envs s R) Hr) in G.
      apply (Hp' r e Hr G). exact Hpr.
  - split; [rewrite <- Ers; apply Hsc|exact Hp'].
Qed.
Lemma vacuous_search srt gsrt scan N sc (s : store) envs q o fs want maxv :
  sort_ok by_score srt -> (forall l, Permutation l (scan l)) -> reachable I envs s -> st_closed I s = false ->
  (forall id e, get_by_id I s id = Ok e -> not_nan (score sc o q (without_acl e))) ->
  Forall (fun kf => vacuous (snd kf)) fs -> o_filter o = [] ->
  ((0 < o_topk o)%Z -> at_most I s o (Z.to_nat (o_topk o * 10))) ->
  exists out counts all, search_facets I srt gsrt scan N sc s q o fs want maxv = Ok (out, counts) /\
    lists_stored I s (fun e => in_collection o e /\ above_threshold o (score sc o q e)) (score sc o q) all /\
    is_topk by_score (topk_of o) all out.
Proof.
  intros Hs Hsc R C Hn Hv Hf Ha. destruct (vacuous_fetch scan N s envs fs o R C Hsc Hv Hf Ha) as (p & rows & E & Hp & Hpp).
  unfold search_facets. rewrite C, E. cbn [bind]. eexists. eexists.
  unfold score_candidates. rewrite kept_filter. match goal with |- context [srt ?l] => set (all := l) end. exists all. split; [reflexivity|].
  assert (L : lists_stored I s (fun e => in_collection o e /\ above_threshold o (score sc o q e)) (score sc o q) all).
  { unfold all. eapply lists_filter.
    - eapply (lists_perm s (in_collection o)).
      + apply Permutation_map, oks_perm, Permutation_map. exact Hp.
      + rewrite <- (filter_all (fun _ => true) (oks _)) by auto. apply (scanned_stored I s p (fun _ => true) (in_collection o)); auto; [exact (reachable_uniq I envs s R)|].
        intros r e Hr Er. apply scan_search_get in Er as (e0 & G & ->). rewrite (Hpp r e0 Hr G). unfold in_collection, without_acl. cbn [e_coll]. tauto.
    - intros id e _. rewrite kept_spec. tauto. }
  split; [exact L|]. apply topk_of_sort; auto. eapply lists_not_nan; [exact L|]. exact Hn.
Qed.

(** *** counts *)
Lemma more_order l : weak_order_on more l.
Proof.
  unfold more. split; intros *; rewrite ?Nat.ltb_lt, ?Nat.ltb_ge; lia.
Qed.
Definition value_in (k : string) (r : row) : list string :=
  match r_meta r with Some m => match assoc k m with Some a => [a] | None => [] end | None => [] end.
Lemma values_some rows k : plain_field k -> Forall (fun r => r_meta r <> None) rows -> values rows k = Some (flat_map (value_in k) rows).
Proof.
  intros Hk. induction 1 as [|r rows Hr Hl IH]; [reflexivity|]. unfold values in *. cbn [fold_right flat_map]. rewrite IH.
  assert (E : value_in k r = match r_meta r with Some m => match assoc k m with Some a => [a] | None => [] end | None => [] end) by reflexivity. rewrite E.
  destruct (r_meta r) as [m|]; [|congruence]. rewrite extract_plain by auto. destruct (assoc k m); reflexivity.
Qed.
Lemma values_none rows k : Exists (fun r => r_meta r = None) rows -> values rows k = None.
Proof.
  induction 1 as [r rows H|r rows H IH]; unfold values in *; cbn [fold_right].
  - rewrite H. unfold extract. destruct (json_path k); reflexivity.
  - rewrite IH. destruct (extract k (r_meta r)) as [[]|]; reflexivity.
Qed.
Lemma groups_in vs v n : In (v, n) (groups vs) <-> In v vs /\ n = count_occ string_dec vs v.
Proof.
  unfold groups. rewrite in_map_iff. split; [intros (w & [= -> <-] & H); split; auto; eapply nodup_In; eauto|].
  intros [H ->]. exists v. split; auto. apply nodup_In. exact H.
Qed.
Lemma groups_nodup vs : NoDup (map fst (groups vs)).
Proof. unfold groups. rewrite map_map. cbn. rewrite map_id. apply NoDup_nodup. Qed.
Definition has_value (k v : string) (r : row) : bool :=
  match r_meta r with Some m => match assoc k m with Some a => String.eqb a v | None => false end | None => false end.
Lemma count_values rows k v : count_occ string_dec (flat_map (value_in k) rows) v = length (filter (has_value k v) rows).
Proof.
  induction rows as [|r rows IH]; [reflexivity|]. cbn [flat_map filter]. rewrite count_occ_app, IH. unfold value_in at 1.
  assert (E : has_value k v r = match r_meta r with Some m => match assoc k m with Some a => String.eqb a v | None => false end | None => false end) by reflexivity. rewrite E.
  destruct (r_meta r) as [m|]; [|reflexivity]. destruct (assoc k m) as [a|]; [|reflexivity]. cbn [count_occ].
  destruct (string_dec a v) as [->|Hne]; [rewrite String.eqb_refl; reflexivity|]. destruct (String.eqb_spec a v); [congruence|reflexivity].
Qed.
Lemma counted_rows (s : store) envs k v : reachable I envs s -> st_closed I s = false ->
  counted I s k v (length (filter (has_value k v) (t_rows (st_db I s)))).
Proof.
  intros R C. exists (map r_id (filter (has_value k v) (t_rows (st_db I s)))). split; [|split].
  - apply NoDup_map_filter. exact (reachable_uniq I envs s R).
  - apply map_length.
  - intros id. rewrite in_map_iff. split.
    + intros (r & <- & H). apply filter_In in H as [Hr Hv]. destruct (row_of_get I s envs r R C Hr) as (e & G & M & _). exists e.
      unfold has_value in Hv. rewrite <- M in Hv. destruct (e_meta e) as [m|]; [|discriminate]. exists m. repeat split; auto.
      destruct (assoc k m) as [a|]; [|discriminate]. apply String.eqb_eq in Hv. congruence.
    + intros (e & m & G & M & A). pose proof (get_ok_inv I s id e G) as (r & _ & F & _ & _ & _ & Hid & Hr). exists r. split; auto. apply filter_In. split; auto.
      unfold has_value. rewrite (get_meta I s id e r G F), M, A. apply String.eqb_refl.
Qed.
Lemma counted_fun (s : store) k v n n' : counted I s k v n -> counted I s k v n' -> n = n'.
Proof.
  intros (l & A & <- & B) (l' & A' & <- & B'). apply Nat.le_antisymm; apply NoDup_incl_length; auto; intros x Hx; [apply B', B|apply B, B']; exact Hx.
Qed.
Lemma facet_counts_spec gsrt (s : store) envs maxv k : reachable I envs s -> st_closed I s = false -> plain_field k -> sort_ok more gsrt ->
  (forall id e, get_by_id I s id = Ok e -> e_meta e <> None) ->
  exists all, NoDup (map fst all) /\ (forall v n, In (v, n) all <-> 0 < n /\ counted I s k v n) /\
    match facet_counts gsrt (st_db I s) maxv k with
    | None => all = []
    | Some r => fr_field r = k /\ is_topk more (max_values maxv) all (fr_values r) /\ fr_total r = list_sum (map snd (fr_values r))
    end.
Proof.
  intros R C Hk Hs Hm. unfold facet_counts. rewrite values_some; auto.
  2:{ apply Forall_forall. intros r Hr. destruct (row_of_get I s envs r R C Hr) as (e & G & M & _). rewrite <- M. eapply Hm; eauto. }
  set (vs := flat_map (value_in k) (t_rows (st_db I s))). exists (groups vs). split; [apply groups_nodup|]. split.
  - intros v n. rewrite groups_in. unfold vs. rewrite count_values. rewrite (count_occ_In string_dec), count_values. split.
    + intros [H ->]. split; [lia|]. apply (counted_rows s envs); auto.
    + intros [H Hc]. rewrite (counted_fun s k v n _ Hc (counted_rows s envs k v R C)) in *. split; [lia|reflexivity].
  - pose proof (topk_of_sort more gsrt (max_values maxv) (groups vs) Hs (more_order _)) as T.
    destruct (firstn (max_values maxv) (gsrt (groups vs))) as [|g l] eqn:E.
    + destruct (Hs (groups vs)) as [P _]. destruct (gsrt (groups vs)) as [|x y]; [apply Permutation_sym, Permutation_nil in P; auto|].
      unfold max_values in E. destruct (Z.leb_spec maxv 0); [discriminate|]. destruct (Z.to_nat maxv) eqn:Ez; [lia|discriminate].
    + cbn [fr_field fr_values fr_total]. split; [reflexivity|]. split; [exact T|reflexivity].
Qed.
End S.
