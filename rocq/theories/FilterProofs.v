From Coq Require Import String Ascii List NArith ZArith Bool Lia Permutation.
From Verif Require Import Base Floats64 TopK EncodingModel DimensionModel StoreModel StoreSpec StoreProofs StoreInv StoreProofs2 StoreProofs3
  SearchModel SearchSpec SearchProofs SqlModel FilterModel FilterSpec.
Import ListNotations.
Open Scope string_scope.
Open Scope list_scope.

(** *** induction over filters *)
Lemma fexpr_rect2 (P : fexpr -> Prop) :
  P XNil -> (forall l, Forall P l -> P (XAnd l)) -> (forall l, Forall P l -> P (XOr l)) -> (forall l, Forall P l -> P (XNot l)) ->
  (forall op k v, P (XCmp op k v)) -> (forall k vs, P (XBetween k vs)) -> (forall k vs, P (XIn k vs)) ->
  (forall k p, P (XLike k p)) -> P XOther -> forall f, P f.
Proof.
  intros H1 H2 H3 H4 H5 H6 H7 H8 H9. fix IH 1. intros f.
  assert (L : forall l, Forall P l).
  { fix IHl 1. intros [|x l]; [constructor|]. constructor; [apply IH|apply IHl]. }
  destruct f; [exact H1|apply H2, L|apply H3, L|apply H4, L|apply H5|apply H6|apply H7|apply H8|exact H9].
Qed.

Fixpoint build_children (l : list fexpr) : outcome (list atom) :=
  match l with
  | [] => Ok []
  | x :: l' => bind (build_sql x) (fun t => bind (build_children l') (fun ts =>
                 Ok (match t with [] => ts | _ => AParen t :: ts end)))
  end.
Lemma build_and l : build_sql (XAnd l) = bind (build_children l) (fun ts => Ok (match ts with [] => [] | _ => [ts] end)).
Proof. reflexivity. Qed.
Lemma build_or l : build_sql (XOr l) = bind (build_children l) (fun ts => Ok (map (fun a => [a]) ts)).
Proof. reflexivity. Qed.

Section F.
Variable N : numerals.
Variable fm : formats.

Lemma conj_same coll r l : (fix conj (l : list atom) : tv :=
    match l with [] => TTrue | [x] => eval_atom N coll r x | x :: l' => tv_and (eval_atom N coll r x) (conj l') end) l = eval_conj N coll r l.
Proof. induction l as [|x l IH]; [reflexivity|]. cbn [eval_conj]. rewrite IH. reflexivity. Qed.
Lemma eval_paren coll r t : eval_atom N coll r (AParen t) = eval_text N coll r t.
Proof.
  cbn [eval_atom]. induction t as [|l t IH]; [reflexivity|]. cbn [eval_text]. rewrite IH, conj_same. reflexivity.
Qed.
Lemma eval_not coll r t : eval_atom N coll r (ANot t) = tv_not (eval_text N coll r t).
Proof. rewrite <- eval_paren. reflexivity. Qed.

Fixpoint mem_all (l : list fexpr) (m : smap) : outcome bool :=
  match l with [] => Ok true | x :: l' => bind (mem_eval N fm x m) (fun b => if b then mem_all l' m else Ok false) end.
Fixpoint mem_any (l : list fexpr) (m : smap) : outcome bool :=
  match l with [] => Ok false | x :: l' => bind (mem_eval N fm x m) (fun b => if b then Ok true else mem_any l' m) end.
Lemma mem_and l m : mem_eval N fm (XAnd l) m = mem_all l m.
Proof. cbn [mem_eval]. induction l as [|x l IH]; [reflexivity|]. cbn [mem_all]. rewrite <- IH. reflexivity. Qed.
Lemma mem_or l m : mem_eval N fm (XOr l) m = mem_any l m.
Proof. cbn [mem_eval]. induction l as [|x l IH]; [reflexivity|]. cbn [mem_any]. rewrite <- IH. reflexivity. Qed.

Lemma sat_and l m : satisfies N (XAnd l) m <-> Forall (fun x => satisfies N x m) l.
Proof.
  cbn [satisfies]. induction l as [|x l IH]; [split; [constructor|tauto]|]. cbn [satisfies]. rewrite IH. split; [intros [A B]; constructor; auto|].
  intros H. inversion H; auto.
Qed.
Lemma sat_or l m : satisfies N (XOr l) m <-> Exists (fun x => satisfies N x m) l.
Proof.
  cbn [satisfies]. induction l as [|x l IH]; [split; [tauto|intros H; inversion H]|]. rewrite IH. split; [intros [A|A]; auto|].
  intros H. inversion H; auto.
Qed.
Lemma expr_all l m : (fix all (l : list fexpr) : Prop := match l with [] => True | x :: l' => expressible N x m /\ all l' end) l <->
  Forall (fun x => expressible N x m) l.
Proof. induction l as [|x l IH]; [split; [constructor|tauto]|]. rewrite IH. split; [intros [A B]; constructor; auto|]. intros H; inversion H; auto. Qed.
Lemma expr_and l m : expressible N (XAnd l) m <-> l <> [] /\ Forall (fun x => expressible N x m) l.
Proof. cbn [expressible]. rewrite expr_all. tauto. Qed.
Lemma expr_or l m : expressible N (XOr l) m <-> l <> [] /\ Forall (fun x => expressible N x m) l.
Proof. cbn [expressible]. rewrite expr_all. tauto. Qed.
Lemma eval_all l m : (fix all (l : list fexpr) : Prop := match l with [] => True | x :: l' => evaluable N x m /\ all l' end) l <->
  Forall (fun x => evaluable N x m) l.
Proof. induction l as [|x l IH]; [split; [constructor|tauto]|]. rewrite IH. split; [intros [A B]; constructor; auto|]. intros H; inversion H; auto. Qed.

(** *** LIKE *)
Lemma like_any same wild p t : like same wild (String "%" p) t =
  like same wild p t || match t with "" => false | String d t' => wild d && like same wild (String "%" p) t' end.
Proof. destruct t; reflexivity. Qed.
Lemma like_one same wild p t : like same wild (String "_" p) t = match t with "" => false | String d t' => wild d && like same wild p t' end.
Proof. reflexivity. Qed.
Lemma like_char same wild c p t : c <> "%"%char -> c <> "_"%char ->
  like same wild (String c p) t = match t with "" => false | String d t' => same c d && like same wild p t' end.
Proof. intros H1 H2. cbn [like]. destruct (Ascii.eqb_spec c "%"); [congruence|]. destruct (Ascii.eqb_spec c "_"); [congruence|]. reflexivity. Qed.

Lemma sql_like_spec p : forall t, sql_like p t = true <-> like_matches p t.
Proof.
  unfold sql_like. induction p as [|c p IH].
  - intros t. cbn [like]. rewrite String.eqb_eq. split; [intros ->; constructor|]. intros H; inversion H; auto.
  - destruct (ascii_dec c "%") as [->|Np]; [|destruct (ascii_dec c "_") as [->|Nu]].
    + induction t as [|d t IHt]; rewrite like_any.
      * rewrite orb_false_r, IH. split.
        -- intros H. apply (lm_any p "" ""). exact H.
        -- intros H. inversion H as [|? ? u H1 H2 H3| |]; subst; [|congruence..]. destruct u; [|discriminate]. cbn in H3. subst. exact H1.
      * rewrite orb_true_iff, andb_true_l, IH, IHt. split.
        -- intros [H|H]; [apply (lm_any p _ ""); exact H|]. inversion H as [|? t1 u H1 H2 H3| |]; subst; [|congruence..]. apply (lm_any p t1 (String d u)). exact H1.
        -- intros H. inversion H as [|? t1 u H1 H2 H3| |]; subst; [|congruence..]. destruct u as [|d' u]; cbn in H3; [subst; auto|].
           injection H3 as -> <-. right. constructor. exact H1.
    + intros [|d t]; rewrite like_one; [split; [discriminate|intros H; inversion H; congruence]|].
      rewrite andb_true_l, IH. split; [constructor; auto|]. intros H. inversion H; subst; congruence.
    + intros [|d t]; rewrite like_char by auto; [split; [discriminate|intros H; inversion H; congruence]|].
      rewrite andb_true_iff, IH, Ascii.eqb_eq. split; [intros [A B]; constructor; auto|]. intros H. inversion H; subst; try congruence. auto.
Qed.

Lemma has_char_cons p a s : has_char p (String a s) = false <-> p a = false /\ has_char p s = false.
Proof. cbn. rewrite orb_false_iff. tauto. Qed.
Lemma like_same p : lower_only p -> forall t, lower_only t -> has_char (fun c => negb (not_newline c)) t = false ->
  like Ascii.eqb not_newline p t = sql_like p t.
Proof.
  unfold sql_like, lower_only. induction p as [|c p IH]; intros Hp; [reflexivity|].
  apply has_char_cons in Hp as [Hc Hp]. apply negb_false_iff, Ascii.eqb_eq in Hc.
  destruct (ascii_dec c "%") as [->|Np]; [|destruct (ascii_dec c "_") as [->|Nu]].
  - induction t as [|d t IHt]; intros Ht Hn;
      [rewrite !like_any, IH; auto|rewrite (like_any Ascii.eqb not_newline p (String d t)), (like_any _ (fun _ => true) p (String d t))]. rewrite IH by auto.
    apply has_char_cons in Ht as [Hd Ht]. apply has_char_cons in Hn as [Hd2 Hn]. rewrite IHt by auto.
    apply negb_false_iff in Hd2. rewrite Hd2. reflexivity.
  - intros [|d t] Ht Hn; rewrite !like_one; auto. apply has_char_cons in Ht as [Hd Ht]. apply has_char_cons in Hn as [Hd2 Hn].
    rewrite IH by auto. apply negb_false_iff in Hd2. rewrite Hd2. reflexivity.
  - intros [|d t] Ht Hn; rewrite !like_char by auto; auto. apply has_char_cons in Ht as [Hd Ht]. apply has_char_cons in Hn as [Hd2 Hn].
    rewrite IH by auto. apply negb_false_iff, Ascii.eqb_eq in Hd. rewrite Hc, Hd. reflexivity.
Qed.

(** *** SQL *)
Lemma extract_plain k m : plain_field k -> extract k (Some m) = Some (assoc k m).
Proof. intros (H1 & H2 & H3). unfold extract, json_path. rewrite H2, H3. destruct (String.eqb_spec k ""); [congruence|]. reflexivity. Qed.

Lemma tv_or_T a b : a <> TError -> b <> TError -> (tv_or a b = TTrue <-> a = TTrue \/ b = TTrue).
Proof. destruct a, b; cbn; intuition congruence. Qed.
Lemma tv_and_T a b : tv_and a b = TTrue <-> a = TTrue /\ b = TTrue.
Proof. destruct a, b; cbn; intuition congruence. Qed.
Lemma tv_or_E a b : a <> TError -> b <> TError -> tv_or a b <> TError.
Proof. destruct a, b; cbn; congruence. Qed.
Lemma tv_and_E a b : a <> TError -> b <> TError -> tv_and a b <> TError.
Proof. destruct a, b; cbn; congruence. Qed.
Lemma of_bool_T b : of_bool b = TTrue <-> b = true.
Proof. destruct b; cbn; intuition congruence. Qed.
Lemma of_bool_E b : of_bool b <> TError.
Proof. destruct b; discriminate. Qed.

Lemma bind_number v y : number_of N v = Some y -> bind_param v = SNum y \/ exists s, bind_param v = SText s /\ sql_num N s = Some y.
Proof.
  destruct v; cbn; try discriminate; intros H; eauto.
  - left. congruence.
  - destruct (is_nanb f); [discriminate|]. left. congruence.
Qed.
Lemma real_cmp_number op a x v : sql_num N a = Some x -> number_of N v <> None -> casts_numerals N ->
  real_cmp N op (sql_real N a) (bind_param v) <> TError /\
  (real_cmp N op (sql_real N a) (bind_param v) = TTrue <-> compares N op a v).
Proof.
  intros Hx Hv Hc. rewrite (Hc a x Hx). unfold compares. destruct (number_of N v) as [y|] eqn:Ey; [|congruence].
  assert (E : real_cmp N op x (bind_param v) = of_bool (num_cmp op x y)).
  { destruct (bind_number v y Ey) as [->|(s & -> & Es)]; cbn; [reflexivity|]. rewrite Es. reflexivity. }
  rewrite E. split; [apply of_bool_E|]. rewrite of_bool_T. split; [intros H; exists x, y; auto|]. intros (x' & y' & A & B & C). congruence.
Qed.

Lemma text_in_spec a vs : Forall is_text vs -> text_in a (map bind_param vs) <> TError /\
  (text_in a (map bind_param vs) = TTrue <-> exists v, In v vs /\ equals N a v).
Proof.
  induction 1 as [|v vs [x ->] H IH]; cbn [map text_in].
  - split; [discriminate|]. split; [discriminate|]. intros (v & [] & _).
  - destruct IH as [IH1 IH2]. assert (E : text_eq a (bind_param (GStr x)) <> TError) by apply of_bool_E.
    split; [apply tv_or_E; auto|]. rewrite tv_or_T, IH2 by auto. cbn [bind_param text_eq]. rewrite of_bool_T, String.eqb_eq. split.
    + intros [->|(v & Hv & He)]; [exists (GStr x); split; [left; auto|reflexivity]|exists v; split; [right; auto|auto]].
    + intros (v & [<-|Hv] & He); [left; exact He|right; eauto].
Qed.

Definition good_leaf coll r l (P : Prop) : Prop := eval_leaf N coll r l <> TError /\ (eval_leaf N coll r l = TTrue <-> P).
Lemma good_text coll r l P : good_leaf coll r l P ->
  [[ALeaf l]] <> [] /\ eval_text N coll r [[ALeaf l]] <> TError /\ (eval_text N coll r [[ALeaf l]] = TTrue <-> P).
Proof. intros [A B]. split; [discriminate|]. split; [exact A|exact B]. Qed.

Lemma range_leaf coll r m op k v : r_meta r = Some m -> casts_numerals N -> (op = CGT \/ op = CGE \/ op = CLT \/ op = CLE) ->
  expressible N (XCmp op k v) m -> good_leaf coll r (LCmp op k v) (satisfies N (XCmp op k v) m).
Proof.
  intros Hm Hc Hop Hx. assert (Hx' : plain_field k /\ number_of N v <> None /\ numeric_field N k m) by (destruct Hop as [->|[->|[->| ->]]]; exact Hx).
  destruct Hx' as (Hk & Hv & Hn).
  assert (S : satisfies N (XCmp op k v) m <-> exists a, assoc k m = Some a /\ compares N op a v) by (destruct Hop as [->|[->|[->| ->]]]; reflexivity).
  assert (L : eval_leaf N coll r (LCmp op k v) = on_text (extract k (r_meta r)) (fun a => real_cmp N op (sql_real N a) (bind_param v)))
    by (destruct Hop as [->|[->|[->| ->]]]; reflexivity).
  unfold good_leaf. rewrite S, L, Hm, extract_plain by auto. destruct (assoc k m) as [a|] eqn:Ea; cbn [on_text].
  - destruct (sql_num N a) as [x|] eqn:Ex; [|destruct (Hn a Ea Ex)]. destruct (real_cmp_number op a x v Ex Hv Hc) as [A B]. split; auto. rewrite B. split; [eauto|].
    intros (a' & [= <-] & H). exact H.
  - split; [discriminate|]. split; [discriminate|]. intros (a & H & _). discriminate.
Qed.

Definition means coll r (f : fexpr) (m : smap) (t : sqltext) : Prop :=
  build_sql f = Ok t /\ t <> [] /\ eval_text N coll r t <> TError /\ (eval_text N coll r t = TTrue <-> satisfies N f m).

Lemma children_meaning coll r m l : Forall (fun x => exists t, means coll r x m t) l ->
  exists ts, build_children l = Ok ts /\ (l <> [] -> ts <> []) /\
    Forall (fun a => eval_atom N coll r a <> TError) ts /\
    (Forall (fun a => eval_atom N coll r a = TTrue) ts <-> Forall (fun x => satisfies N x m) l) /\
    (Exists (fun a => eval_atom N coll r a = TTrue) ts <-> Exists (fun x => satisfies N x m) l).
Proof.
  induction 1 as [|x l (t & B & Ne & Er & Sat) H IH].
  - exists []. split; [reflexivity|]. split; [congruence|]. split; [constructor|]. split; [split; constructor|]. split; intros H; inversion H.
  - destruct IH as (ts & B2 & _ & E2 & A2 & O2). exists (AParen t :: ts). cbn [build_children]. rewrite B. cbn [bind]. rewrite B2. cbn [bind].
    split; [destruct t; [congruence|reflexivity]|]. split; [discriminate|]. rewrite <- eval_paren in Er, Sat.
    split; [constructor; auto|]. split.
    + rewrite !Forall_cons_iff, A2, Sat. tauto.
    + rewrite !Exists_cons, O2, Sat. tauto.
Qed.
Lemma conj_true coll r ts : ts <> [] -> Forall (fun a => eval_atom N coll r a <> TError) ts ->
  eval_conj N coll r ts <> TError /\ (eval_conj N coll r ts = TTrue <-> Forall (fun a => eval_atom N coll r a = TTrue) ts).
Proof.
  induction ts as [|a ts IH]; [congruence|]. intros _ H. inversion H as [|? ? H1 H2]; subst. cbn [eval_conj]. destruct ts as [|b ts].
  - split; auto. rewrite Forall_cons_iff. split; auto. intros [A _]; auto.
  - destruct IH as [A B]; [discriminate|exact H2|]. split; [apply tv_and_E; auto|]. rewrite tv_and_T, B, (Forall_cons_iff _ a). tauto.
Qed.
Lemma disj_true coll r ts : ts <> [] -> Forall (fun a => eval_atom N coll r a <> TError) ts ->
  let t := map (fun a => [a]) ts in
  eval_text N coll r t <> TError /\ (eval_text N coll r t = TTrue <-> Exists (fun a => eval_atom N coll r a = TTrue) ts).
Proof.
  induction ts as [|a ts IH]; [congruence|]. intros _ H. inversion H as [|? ? H1 H2]; subst. cbn [map eval_text]. destruct ts as [|b ts].
  - cbn [map eval_conj]. split; auto. rewrite Exists_cons, Exists_nil. tauto.
  - destruct IH as [A B]; [discriminate|exact H2|]. cbn [map] in *. cbn [eval_conj] in *. split; [apply tv_or_E; auto|]. rewrite tv_or_T by auto. rewrite B, (Exists_cons _ a). tauto.
Qed.

Lemma sql_meaning coll r m : r_meta r = Some m -> casts_numerals N -> forall f, expressible N f m -> exists t, means coll r f m t.
Proof.
  intros Hm Hc. induction f as [|l IH|l IH|l IH|op k v|k vs|k vs|k p|] using fexpr_rect2; intros Hx; try contradiction.
  - apply expr_and in Hx as [Ne Hx].
    destruct (children_meaning coll r m l) as (ts & B & N1 & E1 & A1 & _).
    { rewrite Forall_forall in *. intros x Hin. apply IH; auto. }
    exists [ts]. unfold means. rewrite build_and, B. cbn [bind]. split; [destruct ts; [destruct (N1 Ne eq_refl)|reflexivity]|]. split; [discriminate|].
    cbn [eval_text]. destruct (conj_true coll r ts (N1 Ne) E1) as [E2 T2]. split; auto. rewrite T2, sat_and. exact A1.
  - apply expr_or in Hx as [Ne Hx].
    destruct (children_meaning coll r m l) as (ts & B & N1 & E1 & _ & O1).
    { rewrite Forall_forall in *. intros x Hin. apply IH; auto. }
    exists (map (fun a => [a]) ts). unfold means. rewrite build_or, B. cbn [bind]. split; [reflexivity|].
    split; [destruct ts; [destruct (N1 Ne eq_refl)|discriminate]|].
    destruct (disj_true coll r ts (N1 Ne) E1) as [E2 T2]. split; auto. rewrite T2, sat_or. exact O1.
  - exists [[ALeaf (LCmp op k v)]]. split; [reflexivity|]. apply good_text.
    destruct op; [| |apply (range_leaf coll r m _ k v Hm Hc); auto..].
    + destruct Hx as (Hk & x & ->). unfold good_leaf. cbn [eval_leaf satisfies]. rewrite Hm, extract_plain by auto.
      destruct (assoc k m) as [a|]; cbn [on_text bind_param text_eq].
      * split; [apply of_bool_E|]. rewrite of_bool_T, String.eqb_eq. split; [intros ->; eexists; split; reflexivity|]. intros (a' & [= <-] & H). exact H.
      * split; [discriminate|]. split; [discriminate|]. intros (a & H & _). discriminate.
    + destruct Hx as (Hk & (x & ->) & Hp). unfold good_leaf. cbn [eval_leaf satisfies]. rewrite Hm, extract_plain by auto.
      destruct (assoc k m) as [a|]; [|congruence]. cbn [on_text bind_param text_eq]. destruct (String.eqb_spec a x) as [->|Hne]; cbn.
      * split; [discriminate|]. split; [discriminate|]. intros H. destruct (H x eq_refl eq_refl).
      * split; [discriminate|]. split; auto. intros _ a' [= <-]. exact Hne.
  - destruct vs as [[|lo [|hi vs]]|]; try contradiction. destruct Hx as (Hk & Hl & Hh & Hn).
    exists [[ALeaf (LBetween k lo hi)]]. split; [reflexivity|]. apply good_text. unfold good_leaf. cbn [eval_leaf satisfies]. rewrite Hm, extract_plain by auto.
    destruct (assoc k m) as [a|] eqn:Ea; cbn [on_text].
    + destruct (sql_num N a) as [x|] eqn:Ex; [|destruct (Hn a Ea Ex)].
      destruct (real_cmp_number CGE a x lo Ex Hl Hc) as [A1 B1]. destruct (real_cmp_number CLE a x hi Ex Hh Hc) as [A2 B2].
      split; [apply tv_and_E; auto|]. rewrite tv_and_T, B1, B2. split; [intros H; exists a; auto|]. intros (a' & [= <-] & H). exact H.
    + split; [discriminate|]. split; [discriminate|]. intros (a & H & _). discriminate.
  - destruct vs as [vs|]; [|contradiction]. destruct Hx as (Hk & Hv). exists [[ALeaf (LIn k vs)]]. split; [reflexivity|]. apply good_text.
    unfold good_leaf. cbn [satisfies].
    destruct vs as [|v0 vs]; [split; [discriminate|]; split; [discriminate|]; intros (a & v & _ & [] & _)|].
    cbn [eval_leaf]. rewrite Hm, extract_plain by auto. destruct (assoc k m) as [a|]; cbn [on_text].
    + destruct (text_in_spec a (v0 :: vs) Hv) as [A B]. split; auto. rewrite B. split; [intros (v & H); exists a, v; tauto|]. intros (a' & v & [= <-] & H). eauto.
    + split; [discriminate|]. split; [discriminate|]. intros (a & v & H & _). discriminate.
  - cbn [expressible] in Hx. exists [[ALeaf (LLike k p)]]. split; [reflexivity|]. apply good_text. unfold good_leaf. cbn [eval_leaf satisfies]. rewrite Hm, extract_plain by auto.
    destruct (assoc k m) as [a|]; cbn [on_text].
    + split; [apply of_bool_E|]. rewrite of_bool_T, sql_like_spec. split; [eauto|]. intros (a' & [= <-] & H). exact H.
    + split; [discriminate|]. split; [discriminate|]. intros (a & H & _). discriminate.
Qed.

(** *** memory *)
Definition decides (o : outcome bool) (P : Prop) : Prop := exists b, o = Ok b /\ (b = true <-> P).

Lemma compare_number op a v m k : is_number v -> reads_alike N k m -> assoc k m = Some a ->
  (compare_values N fm op a v = true <-> compares N op a v).
Proof.
  intros Hv Hr Ha. destruct (Hr a Ha) as [Hn He]. unfold compare_values, compares. rewrite He. destruct (sql_num N a) as [x|]; [|congruence].
  assert (Ev : exists y, to_float N v = Some y /\ number_of N v = Some y).
  { destruct v; cbn in *; try contradiction; eauto. rewrite Hv. eauto. }
  destruct Ev as (y & E1 & E2). rewrite E1, E2. split; [intros H; exists x, y; auto|]. intros (x' & y' & A & B & C). congruence.
Qed.
Lemma compare_text a v : not_numeral N v -> (compare_values N fm CEQ a v = true <-> equals N a v) /\ (compare_values N fm CNE a v = true <-> ~ equals N a v).
Proof.
  intros (x & -> & Hx). unfold compare_values. cbn [to_float show equals str_cmp num_cmp]. rewrite Hx. destruct (go_num N a); rewrite negb_true_iff, String.eqb_eq, String.eqb_neq; tauto.
Qed.
Lemma mem_range op k v m : (op = CGT \/ op = CGE \/ op = CLT \/ op = CLE) -> evaluable N (XCmp op k v) m ->
  decides (mem_eval N fm (XCmp op k v) m) (satisfies N (XCmp op k v) m).
Proof.
  intros Hop Hx. assert (H : is_number v /\ reads_alike N k m) by (destruct Hop as [->|[->|[->| ->]]]; exact Hx). destruct H as [Hv Hr].
  assert (S : satisfies N (XCmp op k v) m <-> exists a, assoc k m = Some a /\ compares N op a v) by (destruct Hop as [->|[->|[->| ->]]]; reflexivity).
  assert (E : mem_eval N fm (XCmp op k v) m = match assoc k m with None => Ok false | Some a => Ok (compare_values N fm op a v) end)
    by (destruct Hop as [->|[->|[->| ->]]]; reflexivity).
  unfold decides. setoid_rewrite S. rewrite E. destruct (assoc k m) as [a|] eqn:Ea.
  - eexists. split; [reflexivity|]. rewrite (compare_number op a v m k); auto. split; [eauto|]. intros (a' & [= <-] & H). exact H.
  - exists false. split; [reflexivity|]. split; [discriminate|]. intros (a & H & _). discriminate.
Qed.
Lemma mem_meaning m : forall f, evaluable N f m -> decides (mem_eval N fm f m) (satisfies N f m).
Proof.
  induction f as [|l IH|l IH|l IH|op k v|k vs|k vs|k p|] using fexpr_rect2; intros Hx.
  - exists true. cbn. tauto.
  - cbn [evaluable] in Hx. apply eval_all in Hx. unfold decides. setoid_rewrite sat_and. rewrite mem_and.
    induction l as [|x l IHl]; [exists true; split; [reflexivity|]; split; constructor|].
    inversion IH as [|? ? I1 I2]; subst. inversion Hx as [|? ? X1 X2]; subst. destruct (I1 X1) as (b & E & B). cbn [mem_all]. rewrite E. cbn [bind].
    setoid_rewrite Forall_cons_iff. destruct b.
    + destruct (IHl I2 X2) as (b2 & E2 & B2). exists b2. split; [exact E2|]. rewrite B2. tauto.
    + exists false. split; [reflexivity|]. split; [discriminate|]. intros [H _]. apply B; auto.
  - cbn [evaluable] in Hx. apply eval_all in Hx. unfold decides. setoid_rewrite sat_or. rewrite mem_or.
    induction l as [|x l IHl]; [exists false; split; [reflexivity|]; split; [discriminate|intros H; inversion H]|].
    inversion IH as [|? ? I1 I2]; subst. inversion Hx as [|? ? X1 X2]; subst. destruct (I1 X1) as (b & E & B). cbn [mem_any]. rewrite E. cbn [bind].
    setoid_rewrite Exists_cons. destruct b.
    + exists true. split; [reflexivity|]. tauto.
    + destruct (IHl I2 X2) as (b2 & E2 & B2). exists b2. split; [exact E2|]. rewrite B2. split; auto. intros [H|H]; auto. apply B in H. discriminate.
  - cbn [evaluable] in Hx. apply eval_all in Hx. destruct l as [|x l]; [exists false; cbn; split; [reflexivity|split; [discriminate|tauto]]|].
    inversion IH as [|? ? I1 I2]; subst. inversion Hx as [|? ? X1 X2]; subst. destruct (I1 X1) as (b & E & B). exists (negb b). cbn [mem_eval satisfies].
    rewrite E. split; [reflexivity|]. rewrite <- B. destruct b; cbn; intuition congruence.
  - destruct op; [| |apply mem_range; auto..].
    + cbn [evaluable] in Hx. unfold decides. cbn [mem_eval satisfies]. destruct (assoc k m) as [a|].
      * eexists. split; [reflexivity|]. rewrite (proj1 (compare_text a v Hx)). split; [eauto|]. intros (a' & [= <-] & H). exact H.
      * exists false. split; [reflexivity|]. split; [discriminate|]. intros (a & H & _). discriminate.
    + cbn [evaluable] in Hx. unfold decides. cbn [mem_eval satisfies]. destruct (assoc k m) as [a|].
      * eexists. split; [reflexivity|]. rewrite (proj2 (compare_text a v Hx)). split; [intros H a' [= <-]; exact H|]. intros H. apply H; auto.
      * exists true. split; [reflexivity|]. split; [discriminate|reflexivity].
  - destruct vs as [[|lo [|hi vs]]|]; try contradiction. destruct Hx as (Hl & Hh & Hr). unfold decides. cbn [mem_eval satisfies].
    destruct (assoc k m) as [a|] eqn:Ea.
    + eexists. split; [reflexivity|]. rewrite andb_true_iff, (compare_number CGE a lo m k), (compare_number CLE a hi m k) by auto.
      split; [intros H; exists a; auto|]. intros (a' & [= <-] & H). exact H.
    + exists false. split; [reflexivity|]. split; [discriminate|]. intros (a & H & _). discriminate.
  - destruct vs as [vs|]; [|contradiction]. cbn [evaluable] in Hx. unfold decides. cbn [mem_eval satisfies]. destruct (assoc k m) as [a|].
    + eexists. split; [reflexivity|]. rewrite existsb_exists. rewrite Forall_forall in Hx. split.
      * intros (v & Hv & H). exists a, v. split; auto. split; auto. apply (proj1 (compare_text a v (Hx v Hv))). exact H.
      * intros (a' & v & [= <-] & Hv & H). exists v. split; auto. apply (proj1 (compare_text a v (Hx v Hv))). exact H.
    + exists false. split; [reflexivity|]. split; [discriminate|]. intros (a & v & H & _). discriminate.
  - destruct Hx as (Hm & Hl & Ha). unfold decides. cbn [mem_eval satisfies]. destruct (assoc k m) as [a|].
    + eexists. split; [reflexivity|]. destruct (Ha a eq_refl) as [L1 L2]. unfold mem_like. rewrite Hm, like_same, sql_like_spec by auto. split; [eauto|]. intros (a' & [= <-] & H). exact H.
    + exists false. split; [reflexivity|]. split; [discriminate|]. intros (a & H & _). discriminate.
  - exists false. cbn. split; [reflexivity|]. split; [discriminate|tauto].
Qed.
End F.
