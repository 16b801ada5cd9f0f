(** Proofs about the filter parser. *)
From Coq Require Import String Ascii List ZArith Bool Arith Lia.
From Coq Require Import Floats.SpecFloat.
From Verif Require Import Base Floats64 StoreModel SqlModel FilterModel ParseModel ParseSpec.
Import ListNotations.
Open Scope string_scope.
Arguments is_space : simpl never.
Arguments Ascii.eqb : simpl never.

Lemma sapp_assoc (a b c : string) : (a ++ b) ++ c = a ++ (b ++ c).
Proof. induction a as [|x a IH]; [reflexivity|]. cbn. now rewrite IH. Qed.
Lemma sapp_nil (a : string) : a ++ "" = a.
Proof. induction a as [|x a IH]; [reflexivity|]. cbn. now rewrite IH. Qed.
Lemma slen_app (a b : string) : String.length (a ++ b) = String.length a + String.length b.
Proof. induction a as [|x a IH]; [reflexivity|]. cbn. now rewrite IH. Qed.
Lemma after_app p r : after p (p ++ r) = Some r.
Proof. induction p as [|a p IH]; [now destruct r|]. cbn. now rewrite Ascii.eqb_refl. Qed.
Lemma after_eq p : forall s r, after p s = Some r -> s = p ++ r.
Proof.
  induction p as [|a p IH]; intros s r E; [destruct s; injection E as E; now subst|].
  destruct s as [|b s]; [discriminate|]. cbn in E. destruct (Ascii.eqb a b) eqn:E1; [|discriminate].
  apply Ascii.eqb_eq in E1. subst b. cbn. f_equal. now apply IH.
Qed.
Lemma cut_eq sub : forall s l r, cut sub s = Some (l, r) -> s = l ++ sub ++ r.
Proof.
  induction s as [|a s IH]; intros l r E; cbn in E.
  - destruct (after sub "") as [r'|] eqn:A; [|discriminate]. injection E as <- <-. now apply after_eq in A.
  - destruct (after sub (String a s)) as [r'|] eqn:A.
    + injection E as <- <-. now apply after_eq in A.
    + destruct (cut sub s) as [[l' r']|]; [|discriminate]. injection E as <- <-. cbn. f_equal. now apply IH.
Qed.
Lemma cut_found sub : forall x y, cut sub (x ++ sub ++ y) <> None.
Proof.
  induction x as [|a x IH]; intros y; cbn [append].
  - assert (A := after_app sub y). destruct (sub ++ y); cbn [cut]; rewrite A; discriminate.
  - cbn [cut]. destruct (after sub (String a (x ++ sub ++ y))); [discriminate|].
    specialize (IH y). destruct (cut sub (x ++ sub ++ y)) as [[l r]|]; [discriminate|congruence].
Qed.
Lemma split_two fuel sep s a b : split_on fuel sep s = [a; b] -> s = a ++ sep ++ b.
Proof.
  destruct fuel as [|n]; [discriminate|]. cbn. destruct (cut sep s) as [[l r]|] eqn:E; [|discriminate].
  intros H. injection H as <- H. apply cut_eq in E.
  destruct n as [|n]; cbn in H; [now injection H as ->|].
  destruct (cut sep r) as [[l' r']|]; [|now injection H as ->]. injection H as _ H. destruct n as [|n]; cbn in H; [discriminate|].
  destruct (cut sep r') as [[? ?]|]; discriminate.
Qed.

(** Trimming. *)
Lemma drop_left_head s : match drop_left s with String a _ => is_space a = false | "" => True end.
Proof. induction s as [|a s IH]; [exact Logic.I|]. cbn. destruct (is_space a) eqn:E; [exact IH|exact E]. Qed.
Lemma drop_right_head s : match s with String a _ => is_space a = false | "" => True end -> match drop_right s with String a _ => is_space a = false | "" => True end.
Proof.
  destruct s as [|a s]; [easy|]. intros H. cbn. destruct (drop_right s); [|exact H].
  rewrite H. exact H.
Qed.
Lemma trim_head s : match trim_space s with String a _ => is_space a = false | "" => True end.
Proof. unfold trim_space. apply drop_right_head, drop_left_head. Qed.
Lemma drop_left_len s : String.length (drop_left s) <= String.length s.
Proof. induction s as [|a s IH]; [easy|]. cbn. destruct (is_space a); cbn; lia. Qed.
Lemma drop_right_len s : String.length (drop_right s) <= String.length s.
Proof.
  induction s as [|a s IH]; [easy|]. cbn. destruct (drop_right s); [destruct (is_space a); cbn; lia|].
  cbn in *. lia.
Qed.
Lemma trim_len s : String.length (trim_space s) <= String.length s.
Proof. unfold trim_space. pose proof (drop_right_len (drop_left s)). pose proof (drop_left_len s). lia. Qed.
Lemma drop_left_all P s : all_chars P s -> all_chars P (drop_left s).
Proof. induction s as [|a s IH]; [easy|]. cbn. intros [H H']. destruct (is_space a); [now apply IH|]. now split. Qed.
Lemma drop_right_all P s : all_chars P s -> all_chars P (drop_right s).
Proof.
  induction s as [|a s IH]; [easy|]. cbn. intros [H H']. specialize (IH H'). destruct (drop_right s).
  - destruct (is_space a); cbn; tauto.
  - cbn in *. tauto.
Qed.
Lemma trim_all P s : all_chars P s -> all_chars P (trim_space s).
Proof. intros H. apply drop_right_all, drop_left_all, H. Qed.
Lemma all_app P a b : all_chars P (a ++ b) <-> all_chars P a /\ all_chars P b.
Proof. induction a as [|x a IH]; cbn; [tauto|]. rewrite IH. tauto. Qed.
Lemma cut_all P sub s l r : cut sub s = Some (l, r) -> all_chars P s -> all_chars P l /\ all_chars P r.
Proof. intros E H. apply cut_eq in E. subst s. rewrite !all_app in H. tauto. Qed.
Lemma cut_lens sub s l r : cut sub s = Some (l, r) -> String.length s = String.length l + String.length sub + String.length r.
Proof. intros E. apply cut_eq in E. subst s. rewrite !slen_app. lia. Qed.
Lemma but_last_len s : String.length (but_last s) <= String.length s.
Proof. induction s as [|a s IH]; [easy|]. cbn. destruct s; cbn in *; lia. Qed.
Lemma but_last_all P s : all_chars P s -> all_chars P (but_last s).
Proof.
  induction s as [|a s IH]; [easy|]. intros H. destruct s as [|b s]; [exact Logic.I|].
  change (but_last (String a (String b s))) with (String a (but_last (String b s))).
  destruct H as [H H']. split; [exact H|now apply IH].
Qed.
Lemma inside_len s t : inside s = Ok t -> String.length t < String.length s.
Proof.
  destruct s as [|a [|b s]]; try discriminate. intros E. assert (E' : t = but_last (String b s)) by (unfold inside in E; congruence). subst t. clear E.
  pose proof (but_last_len (String b s)) as H. change (String.length (String a (String b s))) with (S (String.length (String b s))). lia.
Qed.
Lemma inside_all P s t : inside s = Ok t -> all_chars P s -> all_chars P t.
Proof.
  destruct s as [|a [|b s]]; try discriminate. intros E. assert (E' : t = but_last (String b s)) by (unfold inside in E; congruence). subst t. clear E.
  intros H. apply but_last_all, H.
Qed.
Lemma inside_parens s : starts "(" s && ends ")" s = true -> exists t, inside s = Ok t.
Proof.
  destruct s as [|a [|b s]]; try discriminate.
  - cbn. intros H. apply andb_prop in H as [H H']. apply Ascii.eqb_eq in H, H'. congruence.
  - intros _. now eexists.
Qed.

(** More fuel than the length changes nothing. *)
Lemma parse_fuel num : forall n m s, String.length s < n -> String.length s < m -> parse num n s = parse num m s.
Proof.
  induction n as [|n IH]; intros m s H H'; [lia|]. destruct m as [|m]; [lia|].
  cbn [parse]. cbv zeta. pose proof (trim_len s) as T. set (t := trim_space s) in *.
  destruct (starts "(" t && ends ")" t) eqn:P.
  - destruct (inside_parens t P) as [u U]. rewrite U. cbn. apply inside_len in U. apply IH; lia.
  - assert (C : forall a l r sep, cut sep t = Some (String a l, r) -> 0 < String.length sep -> parse num n (String a l) = parse num m (String a l) /\ parse num n r = parse num m r).
    { intros a l r sep E L. apply cut_lens in E. cbn [String.length] in *. split; apply IH; cbn [String.length]; lia. }
    destruct (cut " AND " t) as [[[|a l] r]|] eqn:E.
    + destruct (cut " OR " t) as [[[|a' l'] r']|] eqn:E'; try reflexivity.
      destruct (C _ _ _ _ E' ltac:(cbn; lia)) as [-> ->]. reflexivity.
    + destruct (C _ _ _ _ E ltac:(cbn; lia)) as [-> ->]. reflexivity.
    + destruct (cut " OR " t) as [[[|a' l'] r']|] eqn:E'; try reflexivity.
      destruct (C _ _ _ _ E' ltac:(cbn; lia)) as [-> ->]. reflexivity.
Qed.

(** No BETWEEN. *)
Lemma comparison_no_between num s x :
  match s with String a _ => is_space a = false | "" => True end ->
  match cut " AND " s with Some (String _ _, _) => False | _ => True end ->
  parse_comparison num s = Ok x -> no_between x.
Proof.
  intros H C E. unfold parse_comparison in E. destruct (contains " BETWEEN " s).
  - exfalso.
    destruct (split_on (String.length s) " BETWEEN " s) as [|k [|r [|? ?]]] eqn:S; try discriminate.
    destruct (split_on (String.length r) " AND " r) as [|a [|b [|? ?]]] eqn:S'; try discriminate.
    apply split_two in S, S'. subst r. 
    assert (S2 : s = (k ++ " BETWEEN " ++ a) ++ " AND " ++ b) by (rewrite S, !sapp_assoc; reflexivity).
    pose proof (cut_found " AND " (k ++ " BETWEEN " ++ a) b) as F. rewrite <- S2 in F.
    destruct (cut " AND " s) as [[[|c l] r]|] eqn:E2; [|easy|congruence].
    apply cut_eq in E2. clear S2 S. subst s. cbn in H. discriminate.
  - destruct (contains " IN " s).
    + destruct (split_on (String.length s) " IN " s) as [|k [|r [|? ?]]]; try discriminate.
      cbv zeta in E. destruct (negb _ || negb _); [discriminate|].
      destruct (inside (trim_space r)) as [t| |]; try discriminate. cbn in E.
      destruct (parse_values num _) as [vs| |]; try discriminate. injection E as <-. exact Logic.I.
    + revert E. generalize operators. induction l as [|[t o] l IH]; [discriminate|]. cbn [parse_op].
      destruct (cut t s) as [[[|a k] r]|]; [exact IH| |exact IH].
      destruct (parse_value num (trim_space r)) as [v| |]; try discriminate. intros E. injection E as <-. exact Logic.I.
Qed.
Lemma parse_no_between num : forall n s x, parse num n s = Ok x -> no_between x.
Proof.
  induction n as [|n IH]; [discriminate|]. intros s x E. cbn [parse] in E. cbv zeta in E.
  pose proof (trim_head s) as H. set (t := trim_space s) in *.
  destruct (starts "(" t && ends ")" t).
  - destruct (inside t) as [u| |]; try discriminate. now apply (IH u).
  - assert (B : forall (c : list fexpr -> fexpr) a b, c = XAnd \/ c = XOr ->
        bind (parse num n a) (fun x => bind (parse num n b) (fun y => Ok (c [x; y]))) = Ok x -> no_between x).
    { intros c a b C E'. destruct (parse num n a) as [x1| |] eqn:E1; try discriminate.
      destruct (parse num n b) as [x2| |] eqn:E2; try discriminate. cbn in E'. injection E' as <-.
      apply IH in E1, E2. destruct C as [-> | ->]; cbn; tauto. }
    destruct (cut " AND " t) as [[[|a l] r]|] eqn:E1.
    + destruct (cut " OR " t) as [[[|a' l'] r']|] eqn:E2.
      * apply (comparison_no_between num t); [exact H|now rewrite E1|exact E].
      * apply (B XOr _ _ (or_intror eq_refl) E).
      * apply (comparison_no_between num t); [exact H|now rewrite E1|exact E].
    + apply (B XAnd _ _ (or_introl eq_refl) E).
    + destruct (cut " OR " t) as [[[|a' l'] r']|] eqn:E2.
      * apply (comparison_no_between num t); [exact H|now rewrite E1|exact E].
      * apply (B XOr _ _ (or_intror eq_refl) E).
      * apply (comparison_no_between num t); [exact H|now rewrite E1|exact E].
Qed.

(** No quotes, no panic. *)
Lemma value_no_panic num s : no_quotes s -> parse_value num s <> Panic.
Proof.
  intros H. unfold parse_value. cbv zeta. apply (trim_all _ s) in H. fold (no_quotes (trim_space s)) in H.
  set (t := trim_space s) in *.
  assert (Q : forall q, q = quote \/ q = dquote -> starts q t = false).
  { intros q Hq. destruct t as [|a t']; [reflexivity|]. cbn in *. apply Ascii.eqb_neq. destruct H as [[H1 H2] _].
    intros <-. destruct Hq as [-> | ->]; [now apply H1|now apply H2]. }
  rewrite !Q by tauto. cbn [andb]. destruct (String.eqb t "true" || _); [discriminate|]. destruct (String.eqb t "false" || _); [discriminate|].
  destruct (num t); discriminate.
Qed.
Lemma values_no_panic num l : Forall no_quotes l -> parse_values num l <> Panic.
Proof.
  induction 1 as [|s l H HF IH]; [discriminate|]. cbn.
  assert (V := value_no_panic num (trim_space s) (trim_all _ _ H)).
  destruct (parse_value num (trim_space s)); [|discriminate|congruence]. cbn.
  destruct (parse_values num l); [discriminate|discriminate|congruence].
Qed.
Lemma split_all P sep : forall n s, all_chars P s -> Forall (all_chars P) (split_on n sep s).
Proof.
  induction n as [|n IH]; intros s H; cbn; [now repeat constructor|].
  destruct (cut sep s) as [[l r]|] eqn:E; [|now repeat constructor].
  apply (cut_all P) in E; [|exact H]. constructor; [tauto|]. apply IH. tauto.
Qed.
Lemma comparison_no_panic num s : no_quotes s -> parse_comparison num s <> Panic.
Proof.
  intros H. unfold parse_comparison. destruct (contains " BETWEEN " s).
  - pose proof (split_all _ " BETWEEN " (String.length s) s H) as S.
    destruct (split_on (String.length s) " BETWEEN " s) as [|k [|r [|? ?]]]; try discriminate.
    assert (Hr : no_quotes r) by (inversion S as [|? ? ? S']; now inversion S').
    pose proof (split_all _ " AND " (String.length r) r Hr) as S2.
    destruct (split_on (String.length r) " AND " r) as [|a [|b [|? ?]]]; try discriminate.
    inversion S2 as [|? ? Ha S3]; subst. inversion S3 as [|? ? Hb ?]; subst.
    pose proof (value_no_panic num _ (trim_all _ _ Ha)). pose proof (value_no_panic num _ (trim_all _ _ Hb)).
    destruct (parse_value num (trim_space a)); [|discriminate|congruence]. cbn.
    destruct (parse_value num (trim_space b)); [discriminate|discriminate|congruence].
  - destruct (contains " IN " s).
    + pose proof (split_all _ " IN " (String.length s) s H) as S.
      destruct (split_on (String.length s) " IN " s) as [|k [|r [|? ?]]]; try discriminate. cbv zeta.
      assert (Hr : no_quotes r) by (inversion S as [|? ? ? S']; now inversion S').
      apply trim_all in Hr. destruct (negb _ || negb _) eqn:N; [discriminate|].
      rewrite <- negb_andb in N. apply negb_false_iff in N. destruct (inside_parens _ N) as [t T]. rewrite T. cbn [bind].
      pose proof (values_no_panic num _ (split_all _ "," (String.length t) t (inside_all _ _ _ T Hr))) as V.
      destruct (parse_values num _); [discriminate|discriminate|congruence].
    + generalize operators. induction l as [|[t o] l IH]; [discriminate|]. cbn [parse_op].
      destruct (cut t s) as [[[|a k] r]|] eqn:E; [exact IH| |exact IH].
      apply (cut_all _ _ _ _ _ E) in H. destruct H as [_ H].
      pose proof (value_no_panic num _ (trim_all _ _ H)). destruct (parse_value num (trim_space r)); [discriminate|discriminate|congruence].
Qed.
Lemma parse_no_panic num : forall n s, no_quotes s -> parse num n s <> Panic.
Proof.
  induction n as [|n IH]; [discriminate|]. intros s H. cbn [parse]. cbv zeta. apply (trim_all _ s) in H. fold (no_quotes (trim_space s)) in H.
  set (t := trim_space s) in *. destruct (starts "(" t && ends ")" t) eqn:P.
  - destruct (inside_parens _ P) as [u U]. rewrite U. cbn. apply IH. apply (inside_all _ _ _ U H).
  - assert (B : forall (c : fexpr -> fexpr -> fexpr) a b sep, cut sep t = Some (a, b) ->
        bind (parse num n a) (fun x => bind (parse num n b) (fun y => Ok (c x y))) <> Panic).
    { intros c a b sep E. apply (cut_all _ _ _ _ _ E) in H. destruct H as [Ha Hb]. apply IH in Ha, Hb.
      destruct (parse num n a); [|discriminate|congruence]. cbn. destruct (parse num n b); [discriminate|discriminate|congruence]. }
    pose proof (comparison_no_panic num t H) as C.
    destruct (cut " AND " t) as [[[|a l] r]|] eqn:E1.
    + destruct (cut " OR " t) as [[[|a' l'] r']|] eqn:E2; [exact C| |exact C]. exact (B (fun x y => XOr [x; y]) _ _ _ E2).
    + exact (B (fun x y => XAnd [x; y]) _ _ _ E1).
    + destruct (cut " OR " t) as [[[|a' l'] r']|] eqn:E2; [exact C| |exact C]. exact (B (fun x y => XOr [x; y]) _ _ _ E2).
Qed.

(** White space around a text. *)
Lemma drop_left_blank w x : all_chars (fun a => is_space a = true) w -> drop_left (w ++ x) = drop_left x.
Proof. induction w as [|a w IH]; [reflexivity|]. intros [H H']. cbn. rewrite H. now apply IH. Qed.
Lemma drop_right_blank w : all_chars (fun a => is_space a = true) w -> drop_right w = "".
Proof. induction w as [|a w IH]; [reflexivity|]. intros [H H']. cbn. now rewrite (IH H'), H. Qed.
Lemma drop_right_app y w : all_chars (fun a => is_space a = true) w -> drop_right (y ++ w) = drop_right y.
Proof. intros H. induction y as [|a y IH]; [now apply drop_right_blank|]. cbn. now rewrite IH. Qed.
Lemma drop_left_app s w : all_chars (fun a => is_space a = true) w -> drop_right (drop_left (s ++ w)) = drop_right (drop_left s).
Proof.
  intros H. induction s as [|a s IH].
  - cbn [append drop_left drop_right]. pose proof (drop_left_blank w "" H) as E. rewrite <- (sapp_nil w) at 1. now rewrite E.
  - cbn [append drop_left]. destruct (is_space a); [exact IH|]. apply (drop_right_app (String a s) w H).
Qed.
Lemma trim_around w1 s w2 : all_chars (fun a => is_space a = true) w1 -> all_chars (fun a => is_space a = true) w2 -> trim_space (w1 ++ s ++ w2) = trim_space s.
Proof. intros H1 H2. unfold trim_space. rewrite drop_left_blank by exact H1. now apply drop_left_app. Qed.
Lemma parse_around num w1 s w2 : all_chars (fun a => is_space a = true) w1 -> all_chars (fun a => is_space a = true) w2 ->
  parse_filter num (w1 ++ s ++ w2) = parse_filter num s.
Proof.
  intros H1 H2. unfold parse_filter. set (n := String.length (w1 ++ s ++ w2)).
  rewrite (parse_fuel num (S (String.length s)) (S n) s) by (unfold n; rewrite ?slen_app; lia).
  cbn [parse]. now rewrite (trim_around w1 s w2 H1 H2).
Qed.
