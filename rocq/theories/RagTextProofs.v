(** Proofs about the chunking part of RagModel.v. *)
From Coq Require Import String Ascii List NArith ZArith Bool Arith Lia ZifyBool ZifyNat ZifyN Permutation.
From Verif Require Import Base RagModel RagSpec.
Import ListNotations.
Open Scope list_scope.
Open Scope nat_scope.

Lemma is_space_white r : is_space r = white r.
Proof.
  unfold is_space, white. cbn [existsb]. apply eq_true_iff_eq. rewrite !orb_true_iff, !andb_true_iff. lia.
Qed.
Lemma is_break_line r : is_break r = line_break r.
Proof. unfold is_break, line_break. cbn [existsb]. rewrite orb_false_r. reflexivity. Qed.
Lemma break_white r : line_break r = true -> white r = true.
Proof. unfold line_break, white. cbn [existsb]. rewrite !orb_true_iff. lia. Qed.

Section Sep.
Variable sep : N -> bool.
Definition clean (w : list N) : Prop := forall r, In r w -> sep r = false.

Lemma runs_start w t ws : w <> [] -> clean w -> (t = [] \/ exists r t', t = r :: t' /\ sep r = true) -> runs sep t ws -> runs sep (w ++ t) (w :: ws).
Proof. intros. apply (runs_one sep [] w t ws); auto; intros ? []. Qed.
Lemma runs_empty : runs sep [] [].
Proof. constructor. intros ? []. Qed.
Lemma fields_runs t : forall cur, clean cur ->
  match cur with [] => runs sep t (fields_func sep [] t) | _ => runs sep (cur ++ t) (fields_func sep cur t) end.
Proof.
  induction t as [|r t IH]; intros cur Hc.
  - destruct cur as [|c cur]; cbn; [constructor; intros ? []|]. apply (runs_start (c :: cur) [] []); [discriminate|exact Hc|auto|apply runs_empty].
  - destruct (sep r) eqn:E.
    + pose proof (IH [] (fun _ F => match F with end)) as H0. cbn in H0.
      assert (H1 : runs sep (r :: t) (fields_func sep [] t)).
      { inversion H0 as [s Hs E1 E2|s w t' ws Hs Hw Hcl Ht Hr E1 E2]; subst.
        - constructor. intros x [<-|Hx]; auto.
        - change (r :: s ++ w ++ t') with ((r :: s) ++ w ++ t'). constructor; auto. intros x [<-|Hx]; auto. }
      destruct cur as [|c cur]; cbn [fields_func]; rewrite E; [exact H1|].
      change ([c :: cur] ++ fields_func sep [] t) with ((c :: cur) :: fields_func sep [] t).
      apply (runs_start (c :: cur) (r :: t)); [discriminate|exact Hc|eauto|exact H1].
    + assert (Hc' : clean (cur ++ [r])). { intros x Hx. apply in_app_or in Hx as [Hx|[<-|[]]]; auto. }
      specialize (IH (cur ++ [r]) Hc'). destruct cur as [|c cur]; cbn [fields_func]; rewrite E.
      * exact IH.
      * cbn [app] in IH |- *. rewrite <- app_assoc in IH. exact IH.
Qed.
Lemma fields_spec t : runs sep t (fields_func sep [] t).
Proof. apply (fields_runs t []). intros ? []. Qed.

Lemma prefix_unique s s' w w' t t' : (forall r, In r s -> sep r = true) -> (forall r, In r s' -> sep r = true) -> w <> [] -> w' <> [] -> clean w -> clean w' ->
  (t = [] \/ exists r u, t = r :: u /\ sep r = true) -> (t' = [] \/ exists r u, t' = r :: u /\ sep r = true) ->
  s ++ w ++ t = s' ++ w' ++ t' -> s = s' /\ w = w' /\ t = t'.
Proof.
  intros Hs Hs' Hw Hw' Hc Hc' Ht Ht'. revert s' Hs'. induction s as [|x s IH]; intros s' Hs' E.
  - destruct s' as [|y s'].
    + split; auto. cbn in E. clear Hw Hw'. revert w' Hc' E. induction w as [|a w IHw]; intros w' Hc' E.
      * destruct w' as [|b w']; [cbn in E; auto|]. cbn in E. destruct Ht as [-> |(r & u & -> & Hr)]; [discriminate|]. injection E as -> _. rewrite (Hc' b) in Hr; [discriminate|left; auto].
      * destruct w' as [|b w'].
        { cbn in E. destruct Ht' as [-> |(r & u & -> & Hr)]; [discriminate|]. injection E as <- _. rewrite (Hc a) in Hr; [discriminate|left; auto]. }
        cbn in E. injection E as -> E. destruct (IHw) with (w' := w') as [-> ->]; auto.
        { intros z Hz. apply Hc. right. auto. }
        { intros z Hz. apply Hc'. right. auto. }
    + destruct w as [|a w]; [congruence|]. cbn in E. injection E as -> _. specialize (Hs' y (or_introl eq_refl)). rewrite (Hc y) in Hs'; [discriminate|left; auto].
  - destruct s' as [|y s'].
    + destruct w' as [|b w']; [congruence|]. cbn in E. injection E as -> _. specialize (Hs b (or_introl eq_refl)). rewrite (Hc' b) in Hs; [discriminate|left; auto].
    + cbn in E. injection E as -> E. destruct (IH (fun z Hz => Hs z (or_intror Hz)) s') as (-> & -> & ->); auto. intros z Hz. apply Hs'. right. auto.
Qed.
Lemma runs_unique t ws : runs sep t ws -> forall ws', runs sep t ws' -> ws = ws'.
Proof.
  induction 1 as [s Hs|s w t ws Hs Hw Hc Ht Hr IH]; intros ws' H'.
  - inversion H' as [|s' w' t' ws'' Hs' Hw' Hc' Ht' Hr' E]; subst; auto. exfalso. destruct w' as [|a w']; [congruence|].
    assert (sep a = true) by (apply Hs; apply in_or_app; right; left; auto). rewrite (Hc' a) in *; [discriminate|left; auto].
  - remember (s ++ w ++ t) as u eqn:Eu. destruct H' as [s' Hs'|s' w' t' ws' Hs' Hw' Hc' Ht' Hr'].
    + exfalso. subst s'. destruct w as [|a w]; [congruence|].
      assert (sep a = true) by (apply Hs'; apply in_or_app; right; left; auto). rewrite (Hc a) in *; [discriminate|left; auto].
    + destruct (prefix_unique s' s w' w t' t) as (-> & -> & ->); auto. f_equal. auto.
Qed.
Lemma runs_pad_l s t ws : (forall r, In r s -> sep r = true) -> runs sep t ws -> runs sep (s ++ t) ws.
Proof.
  intros Hs H. destruct H as [s' Hs'|s' w t ws Hs' Hw Hc Ht Hr].
  - constructor. intros r Hr. apply in_app_or in Hr as [Hr|Hr]; auto.
  - rewrite app_assoc. constructor; auto. intros r Hr'. apply in_app_or in Hr' as [Hr'|Hr']; auto.
Qed.
Lemma runs_pad_r t ws : runs sep t ws -> forall s, (forall r, In r s -> sep r = true) -> runs sep (t ++ s) ws.
Proof.
  induction 1 as [s' Hs'|s' w t ws Hs' Hw Hc Ht Hr IH]; intros s Hs.
  - constructor. intros r Hr. apply in_app_or in Hr as [Hr|Hr]; auto.
  - rewrite <- !app_assoc. constructor; auto. destruct Ht as [-> |(r & u & -> & Hu)].
    + cbn. destruct s as [|x s]; [auto|right; exists x, s; split; auto]. apply Hs. left; auto.
    + right. exists r, (u ++ s). auto.
Qed.
Lemma runs_app t ws : runs sep t ws -> forall r u vs, sep r = true -> runs sep u vs -> runs sep (t ++ r :: u) (ws ++ vs).
Proof.
  induction 1 as [s' Hs'|s' w t ws Hs' Hw Hc Ht Hr IH]; intros r u vs Er Hu.
  - cbn. change (r :: u) with ([r] ++ u). rewrite app_assoc. apply runs_pad_l; auto.
    intros x Hx. apply in_app_or in Hx as [Hx|[<-|[]]]; auto.
  - rewrite <- !app_assoc. cbn [app]. constructor; auto. destruct Ht as [-> |(x & y & -> & Hx)]; [right; exists r, u; auto|right; exists x, (y ++ r :: u); auto].
Qed.
Lemma runs_join ws r : sep r = true -> (forall w, In w ws -> w <> [] /\ clean w) ->
  runs sep (match ws with [] => [] | w :: rest => w ++ flat_map (fun v => r :: v) rest end) ws.
Proof.
  intros Er H. induction ws as [|w ws IH]; [constructor; intros ? []|].
  destruct ws as [|v ws].
  - cbn. destruct (H w (or_introl eq_refl)) as [Hw Hc]. apply (runs_start w [] []); auto. apply runs_empty.
  - destruct (H w (or_introl eq_refl)) as [Hw Hc]. cbn [flat_map].
    apply (runs_start w ((r :: v) ++ flat_map (fun v0 => r :: v0) ws) (v :: ws)); auto; [right; cbn; eauto|].
    change ((r :: v) ++ flat_map (fun v0 => r :: v0) ws) with ([r] ++ (v ++ flat_map (fun v0 => r :: v0) ws)).
    apply runs_pad_l; [intros x [<-|[]]; auto|]. apply IH. intros x Hx. apply H. right. auto.
Qed.
Lemma runs_clean t ws : runs sep t ws -> forall w, In w ws -> w <> [] /\ clean w.
Proof. induction 1 as [|s' w t ws Hs' Hw Hc Ht Hr IH]; intros x Hx; [destruct Hx|]. destruct Hx as [<-|Hx]; auto. Qed.
End Sep.

Lemma runs_ext sep sep' t ws : (forall r, sep r = sep' r) -> runs sep t ws -> runs sep' t ws.
Proof.
  intros E H. induction H as [s Hs|s w t ws Hs Hw Hc Ht Hr IH]; constructor; auto; intros; rewrite <- ?E; auto.
  destruct Ht as [|(r & u & -> & Hu)]; auto. right. exists r, u. rewrite <- E. auto.
Qed.
Lemma join_words_flat ws : join_words ws = match ws with [] => [] | w :: rest => w ++ flat_map (fun v => 32%N :: v) rest end.
Proof.
  induction ws as [|w ws IH]; [reflexivity|]. destruct ws as [|v ws]; [cbn; rewrite app_nil_r; reflexivity|].
  change (join_words (w :: v :: ws)) with (w ++ 32%N :: join_words (v :: ws)). rewrite IH. reflexivity.
Qed.
Lemma runs_join_words t ws cs : runs is_space t ws -> (forall w, In w cs -> In w ws) -> runs is_space (join_words cs) cs.
Proof.
  intros H Hin. rewrite join_words_flat. apply runs_join; [reflexivity|]. intros w Hw. eapply runs_clean; eauto.
Qed.

(** *** trimming *)
Lemma drop_space_split t : exists s, t = s ++ drop_space t /\ forall r, In r s -> is_space r = true.
Proof.
  induction t as [|r t IH]; [exists []; split; [auto|intros ? []]|]. cbn [drop_space]. destruct (is_space r) eqn:E.
  - destruct IH as (s & E1 & Hs). exists (r :: s). split; [cbn; f_equal; exact E1|]. intros x [<-|Hx]; auto.
  - exists []. split; [auto|intros ? []].
Qed.
Lemma trim_split t : exists s s', t = s ++ trim_space t ++ s' /\ (forall r, In r s -> is_space r = true) /\ (forall r, In r s' -> is_space r = true).
Proof.
  destruct (drop_space_split t) as (s & E & Hs). destruct (drop_space_split (rev (drop_space t))) as (s' & E' & Hs').
  exists s, (rev s'). split; [|split; [auto|]].
  - rewrite E at 1. f_equal. unfold trim_space. rewrite <- rev_app_distr, <- E', rev_involutive. reflexivity.
  - intros r Hr. apply Hs'. apply in_rev. exact Hr.
Qed.
Lemma runs_trim t ws : runs is_space (trim_space t) ws -> runs is_space t ws.
Proof.
  destruct (trim_split t) as (s & s' & E & Hs & Hs'). intros H. rewrite E. apply runs_pad_l; auto. apply runs_pad_r; auto.
Qed.

(** *** windows *)
Fixpoint win (fuel size step : nat) (l : list (list N)) : list (list (list N)) :=
  match fuel with
  | O => []
  | S f => match l with [] => [] | _ => firstn size l :: (if length l <=? size then [] else win f size step (skipn step l)) end
  end.
Lemma skipn_plus {A} a : forall b (l : list A), skipn (a + b) l = skipn b (skipn a l).
Proof. induction a as [|a IH]; intros b l; [reflexivity|]. destruct l; [rewrite !skipn_nil; reflexivity|]. cbn. apply IH. Qed.
Lemma windows_win fuel : forall size step start (ws : list (list N)), windows fuel size step start ws = win fuel size step (skipn start ws).
Proof.
  induction fuel as [|fuel IH]; intros size step start ws; [reflexivity|]. cbn [windows win]. unfold text.
  pose proof (skipn_length start ws) as L.
  destruct (start <? length ws) eqn:E.
  - cbv zeta. destruct (skipn start ws) as [|x l] eqn:Es; [cbn in L; lia|]. rewrite <- Es in *. f_equal.
    + destruct (length ws <? start + size) eqn:F.
      * rewrite firstn_all2 by lia. rewrite firstn_all2 by lia. reflexivity.
      * f_equal. lia.
    + destruct (length ws <? start + size) eqn:F.
      * rewrite Nat.eqb_refl. destruct (length (skipn start ws) <=? size) eqn:G; [reflexivity|lia].
      * destruct (start + size =? length ws) eqn:G; destruct (length (skipn start ws) <=? size) eqn:G'; try lia; auto.
        rewrite IH. rewrite <- skipn_plus. reflexivity.
  - destruct (skipn start ws); [reflexivity|cbn in L; lia].
Qed.
Lemma win_cons fuel size step l : 0 < length l ->
  win (S fuel) size step l = firstn size l :: (if length l <=? size then [] else win fuel size step (skipn step l)).
Proof. destruct l; cbn; [lia|reflexivity]. Qed.
Lemma win_cut n o : o < n -> forall fuel l, length l <= fuel -> cut n o l (win fuel n (n - o) l).
Proof.
  intros Ho. induction fuel as [|fuel IH]; intros l Hl.
  - destruct l; [|cbn in Hl; lia]. split; [intros ? []|split; [intros [|i] ? ? ?; discriminate|reflexivity]].
  - assert (length l = 0 \/ 0 < length l) as [Hz|Hpos] by lia.
    { destruct l; [|discriminate]. split; [intros ? []|split; [intros [|i] ? ? ?; discriminate|reflexivity]]. }
    rewrite win_cons by auto.
    destruct (length l <=? n) eqn:G.
    + assert (F : firstn n l = l) by (apply firstn_all2; lia). rewrite F. split; [|split].
      * intros c [<-|[]]. lia.
      * intros [|i] c d _ H; [discriminate|destruct i; discriminate].
      * cbn. rewrite app_nil_r. reflexivity.
    + assert (Hlen : length (skipn (n - o) l) = length l - (n - o)) by apply skipn_length.
      destruct (IH (skipn (n - o) l) ltac:(lia)) as (H1 & H2 & H3).
      destruct fuel as [|fuel]; [lia|].
      assert (Hw : exists rest, win (S fuel) n (n - o) (skipn (n - o) l) = firstn n (skipn (n - o) l) :: rest).
      { rewrite win_cons by lia. eexists. reflexivity. }
      destruct Hw as [rest Hw]. rewrite Hw in *. set (d := firstn n (skipn (n - o) l)) in *.
      assert (Hd : length d = Nat.min n (length l - (n - o))) by (unfold d; rewrite firstn_length, Hlen; reflexivity).
      split; [|split].
      * intros c [<-|Hc]; [rewrite firstn_length; lia|auto].
      * intros [|i] c d' Hc Hd'.
        { cbn in Hc, Hd'. injection Hc as <-. injection Hd' as <-. rewrite firstn_length. split; [lia|]. split; [lia|].
          unfold d. rewrite firstn_firstn, Nat.min_l by lia. rewrite firstn_skipn_comm. f_equal. f_equal. lia. }
        { cbn [nth_error] in Hc, Hd'. apply (H2 i); auto. }
      * rewrite <- (firstn_skipn n l) at 1. f_equal. cbn [flat_map].
        assert (Es2 : skipn n l = skipn o (skipn (n - o) l)) by (rewrite <- skipn_plus; f_equal; lia).
        rewrite Es2, H3 at 1. rewrite skipn_app. f_equal. replace (o - length d) with 0 by lia. reflexivity.
Qed.

(** *** paragraphs *)
Lemma paragraph_spec n o p : o < n ->
  exists ws g, runs white p ws /\ cut n o ws g /\ split_paragraph n o p = map join_words g /\ (forall c w, In c g -> In w c -> In w ws).
Proof.
  intros Ho. unfold split_paragraph, text. cbv zeta. set (ws := fields_func is_space [] (trim_space p)).
  pose proof (fields_spec is_space (trim_space p)) as R. fold ws in R.
  assert (Rw : runs white p ws) by (apply (runs_ext is_space white); [apply is_space_white|apply runs_trim; exact R]).
  assert (E0 : cut n o [] []). { split; [intros ? []|split; [intros [|i] ? ? ?; discriminate|reflexivity]]. }
  destruct (trim_space p) as [|r t] eqn:Et.
  { exists ws, []. unfold ws in *. cbn in *. split; [auto|]. split; [auto|]. split; [auto|intros ? ? []]. }
  match goal with |- context [if ?b then _ else _] => destruct b eqn:G end.
  { exists ws, []. assert (ws = []) as Hn by (destruct ws; [reflexivity|cbn in G; lia]). split; [auto|]. rewrite Hn. split; [auto|]. split; [auto|intros ? ? []]. }
  match goal with |- context [if ?b then _ else _] => destruct b eqn:G2 end.
  { exists ws, [ws]. split; auto. split; [|split; [reflexivity|intros c w [<-|[]] Hw; auto]].
    split; [intros c [<-|[]]; lia|]. split; [intros [|i] c d _ H; [discriminate|destruct i; discriminate]|cbn; rewrite app_nil_r; reflexivity]. }
  destruct (n <=? o) eqn:G3; [lia|]. exists ws, (win (length ws) n (n - o) ws).
  split; auto. split; [apply win_cut; auto|]. split; [rewrite windows_win; reflexivity|].
  assert (W : forall f l c w, In c (win f n (n - o) l) -> In w c -> In w l).
  { clear. induction f as [|f IH]; intros l c w; [intros []|]. cbn [win]. destruct l as [|y l0] eqn:El; [intros []|]. rewrite <- El. intros [<-|H] Hw.
    - eapply in_firstn; eauto.
    - destruct (length l <=? n); [destruct H|]. specialize (IH _ _ _ H Hw). eapply in_skipn; eauto. }
  apply W.
Qed.

Lemma defaults_params size ov n o : ingest_defaults size ov = (n, o) -> chunk_params size ov (Z.to_nat n) (Z.to_nat o) /\ (0 <= o < n)%Z.
Proof.
  unfold ingest_defaults. intros [= <- <-]. unfold chunk_params.
  destruct (size <=? 0)%Z eqn:A, (ov <? 0)%Z eqn:B; cbv zeta.
  all: match goal with |- context [if ?b then _ else _] => destruct b eqn:C end.
  all: repeat split; intros; try lia.
  all: try (rewrite ?Z2Nat.id in *; try lia).
  all: try (cbn; lia).
  all: try (apply Z.div_pos; lia).
  all: try (apply Z.div_lt; lia).
Qed.

Lemma runs_paragraphs t ps : runs line_break t ps -> forall wss, Forall2 (runs white) ps wss -> runs white t (concat wss).
Proof.
  induction 1 as [s Hs|s w t ws Hs Hw Hc Ht Hr IH]; intros wss F; inversion F as [|p l1 ps' l2 R1 R2]; subst.
  - constructor. intros r Hin. apply break_white. auto.
  - cbn [concat]. apply runs_pad_l; [intros r Hin; apply break_white; auto|].
    destruct Ht as [-> |(r & u & -> & Hu)].
    + specialize (IH _ R2). inversion Hr as [s0 Hs0|s0 w0 t0 ws0 ? Hw0 ? ? ? E0]; subst.
      * inversion R2; subst. cbn. rewrite !app_nil_r. exact R1.
      * destruct s0; [destruct w0; [congruence|discriminate]|discriminate].
    + (* r :: u has the runs [concat l2]; prepend the words of w *)
      assert (Hru : forall sep v vs, runs sep (r :: v) vs -> sep r = true -> runs sep v vs).
      { clear. intros sep v vs H E. remember (r :: v) as z eqn:Ez. destruct H as [s Hs|s w t ws Hs Hw Hc Ht Hr].
        - subst. constructor. intros x Hx. apply Hs. right; auto.
        - destruct s as [|y s].
          + destruct w as [|y w]; [congruence|]. cbn in Ez. injection Ez as -> _. rewrite (Hc r) in E; [discriminate|left; auto].
          + cbn in Ez. injection Ez as -> <-. constructor; auto. intros x Hx. apply Hs. right; auto. }
      apply runs_app; auto; [apply break_white; auto|]. apply Hru; [apply IH; auto|apply break_white; auto].
Qed.
