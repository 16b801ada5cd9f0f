(** Properties of Observe. *)
From Coq Require Import String Ascii List NArith ZArith Bool Lia Permutation.
From Verif Require Import Base Floats64 EncodingModel DimensionModel StoreModel SearchModel GraphModel HindModel ArgModel ObserveModel StoreProofs HindProofs HindProps RerankProps.
Import ListNotations.
Open Scope string_scope.
Open Scope list_scope.
Open Scope nat_scope.

(** *** Specification *)
(** The memories that name an entity, once for each time they name it. *)
Definition named (e : string) (ms : list memory) : list memory :=
  flat_map (fun m => map (fun _ => m) (filter (String.eqb e) (hm_ents m))) ms.
Definition speaks (kws : list string) (m : memory) : Prop := exists kw, In kw kws /\ contains kw (arg_lower (hm_content m)) = true.

(** *** Lemmas *)
Definition sel (e : string) (ps : list (string * memory)) : list memory := map snd (filter (fun p => String.eqb e (fst p)) ps).
Definition grouped (g : list (string * list memory)) (ps : list (string * memory)) : Prop :=
  NoDup (map fst g) /\ forall e l, In (e, l) g <-> (l = sel e ps /\ l <> []).
Lemma put_keys g e m : forall k, In k (map fst (put_entity g e m)) <-> (k = e \/ In k (map fst g)).
Proof.
  induction g as [|[k0 l0] g IH]; intros k; cbn [put_entity]; [cbn; intuition|]. destruct (String.eqb_spec k0 e) as [->|N]; cbn [map fst In]; [intuition|]. rewrite IH. intuition.
Qed.
Lemma put_nodup g e m : NoDup (map fst g) -> NoDup (map fst (put_entity g e m)).
Proof.
  induction g as [|[k0 l0] g IH]; intros H; cbn [put_entity]; [repeat constructor; auto|]. destruct (String.eqb_spec k0 e) as [->|N]; [exact H|]. cbn [map fst] in *. inversion H; subst. constructor; [|auto].
  rewrite put_keys. intros [X|X]; auto.
Qed.
Lemma put_in g e m : NoDup (map fst g) -> forall k l, In (k, l) (put_entity g e m) <->
  (k <> e /\ In (k, l) g) \/ (k = e /\ ((exists l0, In (e, l0) g /\ l = l0 ++ [m]) \/ (~ In e (map fst g) /\ l = [m]))).
Proof.
  induction g as [|[k0 l0] g IH]; intros H k l; cbn [put_entity].
  - cbn. split; [intros [[= <- <-]|[]]; right; split; auto|]. intros [[_ []]|[-> [(? & [] & _)|[_ ->]]]]. auto.
  - cbn [map fst] in H. inversion H; subst. destruct (String.eqb_spec k0 e) as [->|N].
    + cbn [In map fst]. split.
      * intros [[= <- <-]|X]; [right; split; [reflexivity|left; exists l0; auto]|]. left. split; [|auto]. intros ->. apply H2. apply (in_map fst) in X. exact X.
      * intros [[A [[= E _]|X]]|[-> [(l1 & [[= <-]|X] & ->)|[X _]]]]; [congruence|auto|auto| |exfalso; apply X; auto]. exfalso. apply H2. apply (in_map fst) in X. exact X.
    + cbn [In map fst]. rewrite (IH H3). split.
      * intros [[= <- <-]|[[A B]|[-> [(l1 & A & ->)|[A ->]]]]]; [left; auto|left; auto|right; split; [reflexivity|left; exists l1; auto]|right; split; [reflexivity|right]]. split; [|reflexivity]. intros [X|X]; auto.
      * intros [[A [B|B]]|[-> [(l1 & [[= X _]|A] & ->)|[A ->]]]]; [auto|auto|congruence| |]; right; right; (split; [reflexivity|]); [left; exists l1; auto|right; auto].
Qed.
Lemma put_grouped g ps e m : grouped g ps -> grouped (put_entity g e m) (ps ++ [(e, m)]).
Proof.
  intros [N H]. split; [now apply put_nodup|]. intros k l. rewrite (put_in g e m N). unfold sel. rewrite filter_app, map_app. cbn [filter fst].
  destruct (String.eqb_spec k e) as [->|K].
  - cbn [map snd]. change (map snd (filter (fun p => String.eqb e (fst p)) ps)) with (sel e ps). split.
    + intros [[X _]|[_ [(l0 & A & ->)|[A ->]]]]; [congruence| |].
      * apply H in A as [-> _]. split; [reflexivity|]. intros X. destruct (sel e ps); discriminate.
      * split; [|discriminate]. destruct (sel e ps) as [|x xs] eqn:S; [reflexivity|]. exfalso. apply A. apply (in_map fst _ (e, x :: xs)). apply H. split; [symmetry; exact S|discriminate].
    + intros [-> _]. right. split; [reflexivity|]. destruct (sel e ps) as [|x xs] eqn:S.
      * right. split; [|reflexivity]. intros X. apply in_map_iff in X as ([k l] & <- & X). cbn [fst] in *. apply H in X as [-> X]. congruence.
      * left. exists (x :: xs). split; [|reflexivity]. apply H. split; [symmetry; exact S|discriminate].
  - cbn [map]. rewrite app_nil_r. change (map snd (filter (fun p => String.eqb k (fst p)) ps)) with (sel k ps). rewrite H. intuition congruence.
Qed.
Lemma by_entity_grouped ms : grouped (by_entity ms) (flat_map (fun m => map (fun e => (e, m)) (hm_ents m)) ms).
Proof.
  unfold by_entity. assert (G : forall ms g ps, grouped g ps -> grouped (fold_left (fun g m => fold_left (fun g e => put_entity g e m) (hm_ents m) g) ms g) (ps ++ flat_map (fun m => map (fun e => (e, m)) (hm_ents m)) ms)).
  { induction ms0 as [|m ms0 IH]; intros g ps H; cbn [fold_left flat_map]; [rewrite app_nil_r; exact H|]. rewrite app_assoc. apply IH.
    revert g ps H. induction (hm_ents m) as [|e es IHe]; intros g ps H; cbn [fold_left map]; [rewrite app_nil_r; exact H|].
    change (ps ++ (e, m) :: map (fun e => (e, m)) es) with (ps ++ [(e, m)] ++ map (fun e => (e, m)) es). rewrite app_assoc. apply IHe. now apply put_grouped. }
  apply (G ms [] []). split; [constructor|]. intros e l. cbn. split; [intros []|intros [-> X]; apply X; reflexivity].
Qed.
Lemma sel_named e ms : sel e (flat_map (fun m => map (fun e => (e, m)) (hm_ents m)) ms) = named e ms.
Proof.
  unfold sel, named. induction ms as [|m ms IH]; [reflexivity|]. cbn [flat_map]. rewrite filter_app, map_app, IH. f_equal.
  induction (hm_ents m) as [|x l IHl]; [reflexivity|]. cbn [map filter fst]. destruct (String.eqb e x); cbn [map snd]; congruence.
Qed.
Lemma in_by_entity ms e l : In (e, l) (by_entity ms) <-> l = named e ms /\ l <> [].
Proof. destruct (by_entity_grouped ms) as [_ H]. rewrite H, sel_named. reflexivity. Qed.
Lemma in_named e ms m : In m (named e ms) <-> In m ms /\ In e (hm_ents m).
Proof.
  unfold named. rewrite in_flat_map. split.
  - intros (x & A & B). apply in_map_iff in B as (y & <- & B). apply filter_In in B as [B C]. apply String.eqb_eq in C as ->. auto.
  - intros [A B]. exists m. split; [exact A|]. apply in_map_iff. exists e. split; [reflexivity|]. apply filter_In. split; [exact B|apply String.eqb_refl].
Qed.
Lemma has_word_iff kws ms : has_word kws ms = true <-> exists m, In m ms /\ speaks kws m.
Proof.
  unfold has_word. rewrite existsb_exists. split; intros (m & A & B); exists m; (split; [exact A|]); apply existsb_exists in B || apply existsb_exists; exact B.
Qed.

(** *** C234 *)
(** Observe finds a preference pattern for exactly the entities named at least twice in the
    recalled memories of which one speaks of a preference, and a causal pattern likewise. The
    observation belongs to the bank, its sources are the memories that name the entity, and
    its confidence is that of their number. *)
Definition found_pattern (now : Z) (req : reflect_request) (skep : option Z) (ms : list memory) (typ suffix reasoning : string) (kws : list string) (x : observation) : Prop :=
  exists e, 2 <= length (named e ms) /\ (exists m, In m ms /\ In e (hm_ents m) /\ speaks kws m) /\
    ob_content x = (e ++ suffix)%string /\ ob_sources x = map hm_id (named e ms) /\ ob_conf x = confidence (length (named e ms)) skep /\
    ob_id x = "" /\ ob_bank x = rr_bank req /\ ob_type x = typ /\ ob_reasoning x = reasoning /\ ob_vec x = None /\ ob_time x = Some now.
Lemma pattern_fields now req skep ms typ suffix reasoning kws x :
  found_pattern now req skep ms typ suffix reasoning kws x <->
  exists e, 2 <= length (named e ms) /\ has_word kws (named e ms) = true /\ x = pattern now req skep typ (e ++ suffix) reasoning (named e ms).
Proof.
  split.
  - intros (e & A & (m & B & C & D) & E). exists e. split; [exact A|]. split; [apply has_word_iff; exists m; split; [apply in_named; auto|exact D]|]. unfold pattern. destruct x; cbn in *.
    destruct E as (-> & -> & -> & -> & -> & -> & -> & -> & ->). reflexivity.
  - intros (e & A & B & ->). exists e. split; [exact A|]. split; [apply has_word_iff in B as (m & B & C); apply in_named in B as [B D]; exists m; auto|]. cbn. repeat (split; [reflexivity|]). reflexivity.
Qed.
Theorem entity_patterns : forall words ord ordt now req skep ms x, (forall l, Permutation (ord l) l) -> 2 <= length ms ->
  let found := detect_patterns words ord ordt now req skep ms in
  (In x found /\ ob_type x = "preference" <->
     found_pattern now req skep ms "preference" " shows consistent patterns in behavior" "Multiple memories indicate consistent behavior patterns" preference_words x) /\
  (In x found /\ ob_type x = "causal" <->
     found_pattern now req skep ms "causal" "'s actions show cause-effect patterns" "Identified cause-effect relationship patterns" causal_words x).
Proof.
  intros words ord ordt now req skep ms x P L found. unfold found, detect_patterns. replace (length ms <? 2) with false by (symmetry; apply Nat.ltb_ge; exact L).
  rewrite !pattern_fields.
  assert (G : forall y, In y (if 3 <=? length ms then generalize words ordt now req skep ms else []) -> ob_type y = "generalization").
  { intros y. destruct (3 <=? length ms); [|intros []]. unfold generalize. destruct (String.eqb _ ""); [intros []|]. intros [<-|[]]. reflexivity. }
  assert (D : forall y, In y (flat_map (of_entity now req skep) (ord (by_entity ms))) <-> exists e, 2 <= length (named e ms) /\
     ((has_word preference_words (named e ms) = true /\ y = pattern now req skep "preference" (e ++ " shows consistent patterns in behavior") "Multiple memories indicate consistent behavior patterns" (named e ms)) \/
      (has_word causal_words (named e ms) = true /\ y = pattern now req skep "causal" (e ++ "'s actions show cause-effect patterns") "Identified cause-effect relationship patterns" (named e ms)))).
  { intros y. rewrite in_flat_map. split.
    - intros ([e l] & A & B). apply (Permutation_in _ (P _)) in A. apply in_by_entity in A as [-> _]. exists e. unfold of_entity in B. cbn [fst snd] in B.
      destruct (Nat.leb_spec 2 (length (named e ms))) as [K|K]; [|destruct B]. split; [exact K|]. apply in_app_iff in B as [B|B].
      + left. destruct (has_word preference_words (named e ms)); [|destruct B]. destruct B as [<-|[]]. auto.
      + right. destruct (has_word causal_words (named e ms)); [|destruct B]. destruct B as [<-|[]]. auto.
    - intros (e & K & B). exists (e, named e ms). split; [apply (Permutation_in _ (Permutation_sym (P _))); apply in_by_entity; split; [reflexivity|]; intros X; rewrite X in K; cbn in K; lia|].
      unfold of_entity. cbn [fst snd]. apply Nat.leb_le in K. rewrite K. apply in_app_iff. destruct B as [[B ->]|[B ->]]; rewrite B; [left|right]; left; reflexivity. }
  split; rewrite in_app_iff, D; split.
  - intros [[(e & K & [[B ->]|[B ->]])|X] T]; [exists e; auto|discriminate T|apply G in X; rewrite X in T; discriminate T].
  - intros (e & K & B & ->). split; [|reflexivity]. left. exists e. auto.
  - intros [[(e & K & [[B ->]|[B ->]])|X] T]; [discriminate T|exists e; auto|apply G in X; rewrite X in T; discriminate T].
  - intros (e & K & B & ->). split; [|reflexivity]. left. exists e. auto.
Qed.
(** When no memory names an entity twice and the memories differ, such a pattern rests on at
    least two different memories that name the entity. *)
Theorem pattern_sources : forall now req skep ms typ suffix reasoning kws x, NoDup (map hm_id ms) -> Forall (fun m => NoDup (hm_ents m)) ms ->
  found_pattern now req skep ms typ suffix reasoning kws x -> NoDup (ob_sources x) /\ 2 <= length (ob_sources x).
Proof.
  intros now req skep ms typ suffix reasoning kws x N U (e & K & _ & _ & -> & _). split; [|rewrite map_length; exact K]. clear K.
  induction ms as [|m ms IH]; [constructor|]. cbn [map] in N. inversion N; subst. inversion U; subst. unfold named. cbn [flat_map]. fold (named e ms). rewrite map_app.
  assert (S : map hm_id (map (fun _ => m) (filter (String.eqb e) (hm_ents m))) = [] \/ map hm_id (map (fun _ => m) (filter (String.eqb e) (hm_ents m))) = [hm_id m]).
  { assert (Q : NoDup (filter (String.eqb e) (hm_ents m))) by (apply NoDup_filter; exact H3). assert (Al : forall y, In y (filter (String.eqb e) (hm_ents m)) -> y = e) by (intros y Y; apply filter_In in Y as [_ Y]; apply String.eqb_eq in Y; auto).
    destruct (filter (String.eqb e) (hm_ents m)) as [|a [|b r]]; [left; reflexivity|right; reflexivity|]. exfalso. inversion Q; subst. apply H5. left. rewrite (Al a), (Al b); cbn; auto. }
  destruct S as [-> | ->]; cbn [app]; [auto|]. constructor; [|auto]. intros X. apply H1. apply in_map_iff in X as (y & E & Y). apply in_named in Y as [Y _]. rewrite <- E. now apply in_map.
Qed.
Definition note (id content : string) (ents : list string) : memory :=
  {| hm_id := id; hm_bank := "a"; hm_type := "world"; hm_content := content; hm_vec := None; hm_ents := ents; hm_conf := f_zero; hm_meta := []; hm_time := None |}.
Definition any_request : reflect_request := {| rr_bank := "a"; rr_types := []; rr_min := f_zero |}.
Definition plain_words (s : string) : list string := words_of "" (arg_lower s).
Example entity_patterns_ex :
  let ms := [note "m1" "Ann Likes tea" ["ann"; "tea"]; note "m2" "Ann came" ["ann"]] in
  map (fun x => (ob_content x, ob_sources x)) (detect_patterns plain_words (fun l => l) (fun l => l) 5 any_request None ms) = [("ann shows consistent patterns in behavior", ["m1"; "m2"])] /\
  NoDup (map hm_id ms) /\ Forall (fun m => NoDup (hm_ents m)) ms.
Proof. split; [vm_compute; reflexivity|]. split; repeat constructor; cbn; intuition discriminate. Qed.
Print Assumptions entity_patterns.
Print Assumptions pattern_sources.
(** Refuted as to two memories and as to the kinds asked for: one memory that names an entity
    twice is a consistent pattern of its own, and the list of kinds is not read. *)
Theorem observe_kinds_refuted :
  (exists ms x, In x (detect_patterns plain_words (fun l => l) (fun l => l) 5 any_request None ms) /\ ob_type x = "preference" /\ ob_sources x = ["m1"; "m1"]) /\
  (forall words ord ordt now bank min kinds kinds' skep ms,
     detect_patterns words ord ordt now {| rr_bank := bank; rr_types := kinds; rr_min := min |} skep ms = detect_patterns words ord ordt now {| rr_bank := bank; rr_types := kinds'; rr_min := min |} skep ms) /\
  (exists ms x, In x (detect_patterns plain_words (fun l => l) (fun l => l) 5 {| rr_bank := "a"; rr_types := ["risk"]; rr_min := f_zero |} None ms) /\ ob_type x = "preference").
Proof.
  split; [exists [note "m1" "Ann likes tea" ["ann"; "ann"]; note "m2" "Bob came" ["bob"]]; eexists; split; [vm_compute; left; reflexivity|]; split; reflexivity|]. split; [reflexivity|].
  exists [note "m1" "Ann likes tea" ["ann"]; note "m2" "Ann came" ["ann"]]. eexists. split; [vm_compute; left; reflexivity|]. reflexivity.
Qed.
Print Assumptions observe_kinds_refuted.

(** *** C235 *)
(** The longer words of the recalled memories, each as often as it is written. *)
Definition long_words (words : string -> list string) (ms : list memory) : list string :=
  flat_map (fun m => filter (fun w => Nat.ltb 4 (String.length w)) (words (hm_content m))) ms.
Definition times (words : string -> list string) (ms : list memory) (w : string) : nat := count_occ string_dec (long_words words ms) w.
Definition counted (t : list (string * nat)) (ws : list string) : Prop := forall w n, In (w, n) t <-> n = count_occ string_dec ws w /\ n <> 0.
Lemma bump_counted t ws w : NoDup (map fst t) -> counted t ws -> NoDup (map fst (bump t w)) /\ counted (bump t w) (ws ++ [w]).
Proof.
  intros N C.
  assert (K : forall t k, In k (map fst (bump t w)) <-> k = w \/ In k (map fst t)).
  { clear. induction t as [|[a n] t IH]; intros k; cbn [bump]; [cbn; intuition|]. destruct (String.eqb_spec a w) as [->|]; cbn [map fst In]; [intuition|rewrite IH; intuition]. }
  assert (Q : forall t, NoDup (map fst t) -> NoDup (map fst (bump t w)) /\ forall k n, In (k, n) (bump t w) <-> (k <> w /\ In (k, n) t) \/ (k = w /\ ((exists n0, In (w, n0) t /\ n = S n0) \/ (~ In w (map fst t) /\ n = 1)))).
  { clear N C t. induction t as [|[a b] t IH]; intros N; cbn [bump].
    - split; [repeat constructor; auto|]. intros k n. cbn. split; [intros [[= <- <-]|[]]; right; split; auto|]. intros [[_ []]|[-> [(? & [] & _)|[_ ->]]]]. auto.
    - cbn [map fst] in N. inversion N; subst. destruct (IH H2) as [IH1 IH2]. destruct (String.eqb_spec a w) as [->|D]; cbn [map fst In].
      + split; [exact N|]. intros k n. split.
        * intros [[= <- <-]|X]; [right; split; [reflexivity|left; exists b; auto]|]. left. split; [|auto]. intros ->. apply H1. apply (in_map fst) in X. exact X.
        * intros [[A [[= E _]|X]]|[-> [(l1 & [[= <-]|X] & ->)|[X _]]]]; [congruence|auto|auto| |exfalso; apply X; auto]. exfalso. apply H1. apply (in_map fst) in X. exact X.
      + split; [constructor; [rewrite K; intros [X|X]; auto|exact IH1]|]. intros k n. rewrite IH2. split.
        * intros [[= <- <-]|[[A B]|[-> [(l1 & A & ->)|[A ->]]]]]; [left; auto|left; auto|right; split; [reflexivity|left; exists l1; auto]|right; split; [reflexivity|right]]. split; [|reflexivity]. intros [X|X]; auto.
        * intros [[A [B|B]]|[-> [(l1 & [[= X _]|A] & ->)|[A ->]]]]; [auto|auto|congruence| |]; right; right; (split; [reflexivity|]); [left; exists l1; auto|right; auto]. }
  destruct (Q t N) as [Q1 Q2]. split; [exact Q1|]. intros k n. rewrite Q2, count_occ_app. cbn [count_occ]. destruct (string_dec w k) as [->|D].
  - split.
    + intros [[X _]|[_ [(n0 & A & ->)|[A ->]]]]; [congruence| |].
      * apply C in A as [-> _]. lia.
      * destruct (count_occ string_dec ws k) eqn:E; [lia|]. exfalso. apply A. apply (in_map fst t (k, S n)). apply C. split; [symmetry; exact E|discriminate].
    + intros [-> _]. right. split; [reflexivity|]. destruct (count_occ string_dec ws k) as [|c] eqn:E.
      * right. split; [|reflexivity]. intros X. apply in_map_iff in X as ([a b] & <- & X). cbn [fst] in *. apply C in X. lia.
      * left. exists (S c). split; [apply C; split; [symmetry; exact E|discriminate]|lia].
  - rewrite Nat.add_0_r. unfold counted in C. rewrite (C k n). intuition congruence.
Qed.
Lemma themes_counted words ms : NoDup (map fst (themes words ms)) /\ counted (themes words ms) (long_words words ms).
Proof.
  unfold themes, long_words. assert (G : forall ms t ws, NoDup (map fst t) -> counted t ws -> let t' := fold_left (fun t m => fold_left (fun t w => if Nat.ltb 4 (String.length w) then bump t w else t) (words (hm_content m)) t) ms t in
     NoDup (map fst t') /\ counted t' (ws ++ flat_map (fun m => filter (fun w => Nat.ltb 4 (String.length w)) (words (hm_content m))) ms)).
  { induction ms0 as [|m ms0 IH]; intros t ws N C; cbn [fold_left flat_map]; [rewrite app_nil_r; auto|]. rewrite app_assoc.
    assert (H : let t' := fold_left (fun t w => if Nat.ltb 4 (String.length w) then bump t w else t) (words (hm_content m)) t in NoDup (map fst t') /\ counted t' (ws ++ filter (fun w => Nat.ltb 4 (String.length w)) (words (hm_content m)))).
    { clear IH. revert t ws N C. induction (words (hm_content m)) as [|w l IHl]; intros t ws N C; cbn [fold_left filter]; [rewrite app_nil_r; auto|].
      destruct (4 <? String.length w); [|apply IHl; auto]. change (ws ++ w :: filter (fun w => 4 <? String.length w) l) with (ws ++ [w] ++ filter (fun w => 4 <? String.length w) l). rewrite app_assoc.
      destruct (bump_counted t ws w N C). apply IHl; auto. }
    destruct H. apply IH; auto. }
  apply (G ms [] []); [constructor|]. intros w n. cbn. lia.
Qed.
Lemma top_spec l : let b := top_theme l in
  (b = ("", 0) /\ Forall (fun x => snd x < 2) l) \/ (In b l /\ 2 <= snd b /\ Forall (fun x => snd x <= snd b) l).
Proof.
  unfold top_theme. assert (G : forall l b0 p, ((b0 = ("", 0) /\ Forall (fun x : string * nat => snd x < 2) p) \/ (In b0 p /\ 2 <= snd b0 /\ Forall (fun x => snd x <= snd b0) p)) ->
    let b := fold_left (fun b x => if Nat.ltb (snd b) (snd x) && Nat.leb 2 (snd x) then x else b) l b0 in
    (b = ("", 0) /\ Forall (fun x => snd x < 2) (p ++ l)) \/ (In b (p ++ l) /\ 2 <= snd b /\ Forall (fun x => snd x <= snd b) (p ++ l))).
  { induction l0 as [|x l0 IH]; intros b0 p H; cbn [fold_left]; [rewrite app_nil_r; exact H|]. change (p ++ x :: l0) with (p ++ [x] ++ l0). rewrite app_assoc. apply IH.
    destruct (Nat.ltb_spec (snd b0) (snd x)), (Nat.leb_spec 2 (snd x)); cbn [andb].
    - right. split; [apply in_app_iff; right; left; reflexivity|]. split; [assumption|]. apply Forall_app. split; [|repeat constructor]. destruct H as [[-> H]|(_ & _ & H)]; eapply Forall_impl; try exact H; cbn; intros; lia.
    - destruct H as [[-> H]|(A & B & H)]; [left|lia]. split; [reflexivity|]. apply Forall_app. split; [exact H|]. constructor; [lia|constructor].
    - destruct H as [[-> H]|(A & B & H)]; [cbn in *; lia|right]. split; [apply in_app_iff; auto|]. split; [exact B|]. apply Forall_app. split; [exact H|]. constructor; [lia|constructor].
    - destruct H as [[-> H]|(A & B & H)]; [left|right].
      + split; [reflexivity|]. apply Forall_app. split; [exact H|]. constructor; [lia|constructor].
      + split; [apply in_app_iff; auto|]. split; [exact B|]. apply Forall_app. split; [exact H|]. constructor; [lia|constructor]. }
  apply (G l ("", 0) []). left. auto.
Qed.
(** From three or more memories Observe draws a generalisation exactly if a word longer than
    four bytes is written at least twice, about a word written most often. *)
Theorem generalisation : forall words ordt now req skep ms, (forall l, Permutation (ordt l) l) ->
  let g := generalize words ordt now req skep ms in
  (g = [] /\ forall w, times words ms w < 2) \/
  (exists t x, g = [x] /\ 2 <= times words ms t /\ (forall w, times words ms w <= times words ms t) /\
     ob_content x = ("General pattern: interactions involving " ++ t ++ " show consistency")%string /\ ob_sources x = map hm_id ms /\ ob_bank x = rr_bank req /\
     ob_type x = "generalization" /\ ob_conf x = confidence (length ms) skep).
Proof.
  intros words ordt now req skep ms P g. destruct (themes_counted words ms) as [_ C]. unfold g, generalize.
  assert (In1 : forall w n, In (w, n) (ordt (themes words ms)) <-> n = times words ms w /\ n <> 0).
  { intros w n. rewrite <- (C w n). split; apply Permutation_in; [apply P|apply Permutation_sym, P]. }
  pose proof (top_spec (ordt (themes words ms))) as T. cbn zeta in T. destruct (top_theme (ordt (themes words ms))) as [t n]. cbn [fst snd] in *.
  destruct T as [[[= -> ->] T]|(A & B & T)].
  - left. split; [reflexivity|]. intros w. destruct (times words ms w) as [|k] eqn:E; [lia|]. rewrite Forall_forall in T. apply (T (w, S k)). apply In1. split; [symmetry; exact E|discriminate].
  - apply In1 in A as [-> _]. right. assert (Ne : t <> "").
    { intros ->. assert (X : In "" (long_words words ms)) by (apply (count_occ_In string_dec); unfold times in B; lia). unfold long_words in X. apply in_flat_map in X as (m & _ & X). apply filter_In in X as [_ X]. discriminate. }
    apply String.eqb_neq in Ne. rewrite Ne. exists t. eexists. split; [reflexivity|]. split; [exact B|]. split; [|cbn; repeat (split; [reflexivity|]); reflexivity].
    intros w. destruct (times words ms w) as [|k] eqn:E; [lia|]. rewrite Forall_forall in T. apply (T (w, S k)). apply In1. split; [symmetry; exact E|discriminate].
Qed.
Example generalisation_ex : map ob_content (generalize plain_words (fun l => l) 5 any_request None [note "m1" "green tea today" []; note "m2" "more tea Today" []; note "m3" "green today" []]) =
  ["General pattern: interactions involving today show consistency"].
Proof. vm_compute. reflexivity. Qed.
Print Assumptions generalisation.
(** Refuted as to a theme shared by memories and as to the same answer each time: a word
    repeated in one memory is a theme, and of two equally common words the map order picks. *)
Theorem generalisation_refuted :
  map ob_content (generalize plain_words (fun l => l) 5 any_request None [note "m1" "really really" []; note "m2" "tea" []; note "m3" "milk" []]) =
    ["General pattern: interactions involving really show consistency"] /\
  exists ord1 ord2 ms, (forall l, Permutation (ord1 l) l) /\ (forall l, Permutation (ord2 l) l) /\
    generalize plain_words ord1 5 any_request None ms <> generalize plain_words ord2 5 any_request None ms.
Proof.
  split; [vm_compute; reflexivity|]. exists (fun l => l), (@rev _), [note "m1" "green today" []; note "m2" "green" []; note "m3" "today" []].
  split; [intros; apply Permutation_refl|]. split; [intros; apply Permutation_sym, Permutation_rev|]. vm_compute. discriminate.
Qed.
Print Assumptions generalisation_refuted.

(** *** C236 *)
Definition rows (I : index_ops) (y : sys I) : list row := t_rows (st_db I (sy_store y)).
Definition row_of_observation (x : observation) (r : row) : Prop := r_id r = ob_id x /\ r_content r = ob_content x.
Lemma stored_rows I F min l : forall ev y y', store_observations I F ev min y l = (y', Ok tt) -> NoDup (map ob_id l) -> Forall (fun x => ob_id x <> "") l ->
  (forall x, In x l -> fge (ob_conf x) min = true -> exists r, In r (rows I y') /\ row_of_observation x r) /\
  (forall r, In r (rows I y') -> In r (rows I y) \/ exists x, In x l /\ fge (ob_conf x) min = true /\ row_of_observation x r) /\
  (forall r, In r (rows I y) -> ~ In (r_id r) (map ob_id l) -> In r (rows I y')).
Proof.
  induction l as [|x l IH]; intros ev y y' H N U; cbn [store_observations] in H.
  - injection H as <-. split; [intros x []|]. split; [auto|auto].
  - cbn [map] in N. inversion N; subst. inversion U; subst. destruct (fge (ob_conf x) min) eqn:G.
    + destruct (retain_observation I F (ev 0) y x) as [y1 r1] eqn:R. destruct r1 as [[]| |]; [|discriminate|discriminate].
      destruct (IH _ _ _ H H3 H5) as (A & B & C). unfold retain_observation, retain in R. destruct (upsert I _ _ _) as [s1 r1] eqn:Up. injection R as <- ->.
      apply upsert_cases in Up as [(_ & cid & blob & E)|[X _]]; [|congruence]. unfold rows in A, B, C |- *. cbn [sy_store] in B, C. rewrite E, put_row_rows in B, C. set (new := make_row _ cid blob) in *.
      assert (Hid : r_id new = ob_id x) by (unfold new; cbn; apply String.eqb_neq in H4; rewrite H4; reflexivity). assert (Hc : r_content new = ob_content x) by reflexivity.
      split; [|split].
      * intros z [<-|Z] Gz; [|auto]. exists new. split; [|split; assumption]. apply C; [apply in_app_iff; right; left; reflexivity|rewrite Hid; exact H2].
      * intros r Hr. apply B in Hr as [Hr|(z & Z & Gz & Rz)]; [|right; exists z; split; [right; exact Z|auto]]. apply in_app_iff in Hr as [Hr|[<-|[]]]; [left; apply filter_In in Hr; tauto|].
        right. exists x. split; [left; reflexivity|]. split; [exact G|]. split; assumption.
      * intros r Hr Nr. cbn [map] in Nr. apply C; [|intros X; apply Nr; right; exact X]. apply in_app_iff. left. apply filter_In. split; [exact Hr|]. unfold row_is. rewrite Hid. apply negb_true_iff, String.eqb_neq. intros X. apply Nr. left. congruence.
    + destruct (IH _ _ _ H H3 H5) as (A & B & C). split; [|split].
      * intros z [<-|Z] Gz; [congruence|auto].
      * intros r Hr. apply B in Hr as [Hr|(z & Z & Gz & Rz)]; [auto|right; exists z; split; [right; exact Z|auto]].
      * intros r Hr Nr. apply C; [exact Hr|]. intros X. apply Nr. right. exact X.
Qed.
Lemma numbered_ids uuid l : map ob_id (numbered uuid l) = map uuid (seq 0 (length l)).
Proof.
  unfold numbered. rewrite map_map. cbn [ob_id]. generalize 0. induction l as [|x l IH]; intros k; [reflexivity|]. cbn [length seq combine map fst]. now rewrite IH.
Qed.
(** A successful Observe stores exactly the returned observations whose confidence reaches
    the minimum, beside the memories already there. *)
Theorem observe_stores : forall I F words ord ordt uuid now ev y req ms y' obs,
  (forall i j, uuid i = uuid j -> i = j) -> (forall i, uuid i <> "") -> (forall r i, In r (rows I y) -> r_id r <> uuid i) ->
  observe I F words ord ordt uuid now ev y req ms = (y', Ok obs) ->
  (forall x, In x obs -> fge (ob_conf x) (rr_min req) = true -> exists r, In r (rows I y') /\ row_of_observation x r) /\
  (forall r, In r (rows I y') -> In r (rows I y) \/ exists x, In x obs /\ fge (ob_conf x) (rr_min req) = true /\ row_of_observation x r) /\
  (forall r, In r (rows I y) -> In r (rows I y')).
Proof.
  intros I F words ord ordt uuid now ev y req ms y' obs Inj Ne New H. unfold observe in H. set (l := detect_patterns _ _ _ _ _ _ _) in H.
  destruct (store_observations I F ev (rr_min req) y (numbered uuid l)) as [y1 r] eqn:S. destruct r as [[]| |]; [|discriminate|discriminate]. injection H as <- <-.
  assert (Id : forall i, In i (map ob_id (numbered uuid l)) -> exists k, i = uuid k) by (intros i X; rewrite numbered_ids in X; apply in_map_iff in X as (k & <- & _); eauto).
  destruct (stored_rows I F (rr_min req) _ _ _ _ S) as (A & B & C).
  - rewrite numbered_ids. apply FinFun.Injective_map_NoDup; [exact Inj|apply seq_NoDup].
  - rewrite Forall_forall. intros x X. destruct (Id (ob_id x) (in_map _ _ _ X)) as (k & ->). apply Ne.
  - split; [exact A|]. split; [exact B|]. intros r Hr. apply C; [exact Hr|]. intros X. destruct (Id _ X) as (k & E). exact (New r k Hr E).
Qed.
Lemma upsert_strict I ev (s : store I) e : (st_policy I s = StrictMode \/ st_policy I s = WarnOnly) -> st_dim I s <> 0%Z -> e_vec e = None ->
  exists x, snd (upsert I ev s e) = Err x /\ st_db I (fst (upsert I ev s e)) = st_db I s.
Proof.
  intros P D V. unfold upsert. destruct (st_closed I s); [exists EClosed; auto|]. destruct (Z.eqb_spec (st_dim I s) 0) as [|_]; [congruence|]. unfold vec_of. rewrite V. cbn [length Z.of_nat].
  destruct (Z.eqb_spec 0 (st_dim I s)) as [|_]; [congruence|]. unfold adapt_bits, adapt_vector. cbn [map length Z.of_nat]. change (negb (0 =? 0)%Z) with false. cbv iota.
  destruct (Z.eqb_spec 0 (st_dim I s)) as [|_]; [congruence|]. destruct P as [-> | ->]; cbn [bind]; exists EOther; auto.
Qed.
Lemma stored_strict I F min l : forall ev y, (st_policy I (sy_store y) = StrictMode \/ st_policy I (sy_store y) = WarnOnly) -> st_dim I (sy_store y) <> 0%Z ->
  Forall (fun x => ob_vec x = None) l -> (exists x, In x l /\ fge (ob_conf x) min = true) ->
  exists e, snd (store_observations I F ev min y l) = Err e /\ rows I (fst (store_observations I F ev min y l)) = rows I y.
Proof.
  induction l as [|x l IH]; intros ev y P D V (z & Z & G); [destruct Z|]. inversion V; subst. cbn [store_observations]. destruct (fge (ob_conf x) min) eqn:Gx.
  - unfold retain_observation, retain. destruct (upsert_strict I (he_store (ev 0)) (sy_store y) (embedding_of F (stamped (ev 0) (observation_memory x))) P D H1) as (e & E1 & E2).
    destruct (upsert I _ _ _) as [s1 r1]. cbn [fst snd] in *. subst r1. exists e. split; [reflexivity|]. unfold rows. cbn [fst sy_store]. now rewrite E2.
  - apply IH; auto. destruct Z as [<-|Z]; [congruence|]. eauto.
Qed.
(** Refuted as to its working under every dimension policy: with a policy that refuses other
    dimensions, Observe fails whenever it has an observation to store, and stores nothing. *)
Theorem observe_strict_refuted : forall I F words ord ordt uuid now ev y req ms,
  (st_policy I (sy_store y) = StrictMode \/ st_policy I (sy_store y) = WarnOnly) -> st_dim I (sy_store y) <> 0%Z ->
  (forall skep, exists x, In x (detect_patterns words ord ordt now req skep ms) /\ fge (ob_conf x) (rr_min req) = true) ->
  exists e y', observe I F words ord ordt uuid now ev y req ms = (y', Err e) /\ rows I y' = rows I y.
Proof.
  intros I F words ord ordt uuid now ev y req ms P D H. unfold observe. set (skep := match find _ _ with Some b => _ | None => _ end). specialize (H skep).
  set (l := detect_patterns _ _ _ _ _ skep _) in *.
  assert (V : Forall (fun x => ob_vec x = None) l).
  { unfold l, detect_patterns. destruct (_ <? 2); [constructor|]. rewrite Forall_forall. intros x X. apply in_app_iff in X as [X|X].
    - apply in_flat_map in X as (g & _ & X). unfold of_entity in X. destruct (2 <=? _); [|destruct X]. apply in_app_iff in X as [X|X].
      + destruct (has_word _ _); [|destruct X]. destruct X as [<-|[]]. reflexivity.
      + destruct (has_word _ _); [|destruct X]. destruct X as [<-|[]]. reflexivity.
    - destruct (3 <=? _); [|destruct X]. unfold generalize in X. destruct (String.eqb _ _); [destruct X|]. destruct X as [<-|[]]. reflexivity. }
  assert (V2 : Forall (fun x => ob_vec x = None) (numbered uuid l) /\ exists x, In x (numbered uuid l) /\ fge (ob_conf x) (rr_min req) = true).
  { unfold numbered. split.
    - rewrite Forall_forall. intros x X. apply in_map_iff in X as ([k z] & <- & X). cbn. apply in_combine_r in X. rewrite Forall_forall in V. auto.
    - destruct H as (x & X & G). apply In_nth_error in X as (k & X). 
      assert (Y : In (k, x) (combine (seq 0 (length l)) l)).
      { clear -X. assert (Q : forall l s k, nth_error l k = Some x -> In (s + k, x) (combine (seq s (length l)) l)).
        { induction l0 as [|a l0 IH]; intros s j E; [destruct j; discriminate|]. destruct j; cbn [nth_error] in E; cbn [length seq combine In]; [injection E as ->; left; f_equal; lia|]. right. replace (s + S j) with (S s + j) by lia. auto. }
        exact (Q l 0 k X). }
      eexists. split; [apply in_map_iff; exists (k, x); split; [reflexivity|exact Y]|]. exact G. }
  destruct V2 as [V1 V3]. destruct (stored_strict I F (rr_min req) (numbered uuid l) ev y P D V1 V3) as (e & E1 & E2).
  destruct (store_observations I F ev (rr_min req) y (numbered uuid l)) as [y1 r]. cbn [fst snd] in *. subst r. exists e, y1. auto.
Qed.
Definition two_notes : list memory := [note "m1" "Ann likes tea" ["ann"]; note "m2" "Ann came" ["ann"]].
Definition uuids (k : nat) : string := String "u" (string_of_list_ascii (repeat "i"%char k)).
Definition smart_sys : sys near_index := sys0 "memories".
Definition strict_sys : sys near_index :=
  {| sy_store := {| st_db := st_db near_index (sy_store smart_sys); st_dim := 2; st_policy := StrictMode; st_closed := false; st_ix := st_ix near_index (sy_store smart_sys) |}; sy_graph := no_graph; sy_banks := [] |}.
Definition padding_sys : sys near_index :=
  {| sy_store := {| st_db := st_db near_index (sy_store smart_sys); st_dim := 2; st_policy := AutoPad; st_closed := false; st_ix := st_ix near_index (sy_store smart_sys) |}; sy_graph := no_graph; sy_banks := [] |}.
Example observe_ex :
  match observe near_index F0 plain_words (fun l => l) (fun l => l) uuids 5 (fun _ => ev0) padding_sys any_request two_notes with
  | (y', Ok l) => (map ob_content l, map r_id (rows _ y')) = (["ann shows consistent patterns in behavior"], ["u"])
  | _ => False
  end /\
  match observe near_index F0 plain_words (fun l => l) (fun l => l) uuids 5 (fun _ => ev0) strict_sys any_request two_notes with (y', Err _) => rows _ y' = [] | _ => False end.
Proof. split; vm_compute; reflexivity. Qed.
Print Assumptions observe_stores.
Print Assumptions observe_strict_refuted.
