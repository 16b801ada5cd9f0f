From Coq Require Import String List Arith ZArith Bool Lia Permutation Sorted.
From Coq Require Import Floats.SpecFloat.
From Verif Require Import Base Floats64 TopK HeapModel HeapProofs HnswModel HnswSpec HnswSearchProofs.
Import ListNotations.
Local Notation item := (float * string)%type.

Section HP.
Context {vec : Type}.
Variable dist : vec -> vec -> float.
Variable keep : vec -> vec.

(** *** node map *)
Lemma ids_upd (ns : nodes vec) id f : ids_of (upd ns id f) = ids_of ns.
Proof. unfold ids_of, upd. rewrite map_map. apply map_ext. intros [i n]. cbn. destruct (String.eqb i id); auto. Qed.
Lemma get_upd (ns : nodes vec) id f x : get (upd ns id f) x = if String.eqb id x then option_map f (get ns x) else get ns x.
Proof.
  induction ns as [|[i n] ns IH]; cbn; [destruct (String.eqb id x); auto|].
  destruct (String.eqb_spec i id) as [->|N]; cbn.
  - destruct (String.eqb_spec id x) as [->|N2]; cbn; auto.
  - destruct (String.eqb_spec i x) as [->|N2]; cbn; [destruct (String.eqb_spec id x); congruence|]. exact IH.
Qed.
Lemma get_app (ns : nodes vec) id n x : ~ In id (ids_of ns) -> get (ns ++ [(id, n)]) x = if String.eqb id x then Some n else get ns x.
Proof.
  induction ns as [|[i m] ns IH]; cbn; intros H; [auto|].
  destruct (String.eqb_spec i x) as [->|N].
  - destruct (String.eqb_spec id x) as [->|N2]; auto. exfalso; auto.
  - apply IH. tauto.
Qed.
Lemma ids_app (ns : nodes vec) id n : ids_of (ns ++ [(id, n)]) = ids_of ns ++ [id].
Proof. unfold ids_of. rewrite map_app. auto. Qed.
Lemma length_ids (ns : nodes vec) : length (ids_of ns) = length ns.
Proof. apply map_length. Qed.

(** What the API sees of a node: id, kept vector, deleted flag. *)
Definition proj (ns : nodes vec) : list (string * (vec * bool)) := map (fun p => (fst p, (n_vec (snd p), n_del (snd p)))) ns.
Lemma ids_proj ns : ids_of ns = map fst (proj ns).
Proof. unfold ids_of, proj. rewrite map_map. apply map_ext. auto. Qed.
Lemma proj_upd_same ns id f : (forall n : node vec, n_vec (f n) = n_vec n /\ n_del (f n) = n_del n) -> proj (upd ns id f) = proj ns.
Proof.
  intros H. unfold proj, upd. rewrite map_map. apply map_ext. intros [i n]. cbn. destruct (String.eqb i id); cbn; auto.
  destruct (H n) as [-> ->]. auto.
Qed.
Lemma proj_get ns id n : get ns id = Some n -> In (id, (n_vec n, n_del n)) (proj ns).
Proof. intros H. apply get_in in H. apply (in_map (fun p : string * node vec => (fst p, (n_vec (snd p), n_del (snd p))))) in H. exact H. Qed.

Lemma layer_set (n : node vec) lc l lc' :
  layer_of (set_layer lc l n) lc' = if Nat.eqb lc lc' && Nat.ltb lc (length (n_nbrs n)) then Some l else layer_of n lc'.
Proof.
  unfold layer_of, set_layer. cbn [n_nbrs]. destruct (Nat.eqb_spec lc lc') as [<-|N]; cbn [andb].
  - destruct (Nat.ltb_spec lc (length (n_nbrs n))); [apply set_nth_same; auto|].
    rewrite (proj2 (nth_error_None _ _)); [symmetry; apply nth_error_None; auto|rewrite set_nth_length; auto].
  - apply set_nth_other; auto.
Qed.

(** *** well-formedness *)
Definition link_ok (ns : nodes vec) (id : string) (l : list string) : Prop := NoDup l /\ ~ In id l /\ incl l (ids_of ns).
Record wf (ns : nodes vec) : Prop := {
  w_nodup : NoDup (ids_of ns);
  w_layers : forall id n, get ns id = Some n -> n_nbrs n <> [];
  w_links : forall id n lc l, get ns id = Some n -> layer_of n lc = Some l -> link_ok ns id l }.
Definition caps (M : nat) (ns : nodes vec) : Prop :=
  forall id n lc l, get ns id = Some n -> layer_of n lc = Some l -> length l <= cap M lc.
(** [id] is linked from nowhere at layers satisfying P. *)
Definition fresh (ns : nodes vec) (id : string) (P : nat -> Prop) : Prop :=
  forall x n lc l, P lc -> get ns x = Some n -> layer_of n lc = Some l -> ~ In id l.

Lemma wf_closed ns lc : wf ns -> closed ns lc (fun x => In x (ids_of ns)).
Proof.
  intros W x Hx. apply in_get in Hx as [n G]. exists n. split; auto. intros l L y Hy. apply (w_links ns W x n lc l G L). auto.
Qed.
Lemma fresh_closed ns id (P : nat -> Prop) lc : wf ns -> fresh ns id P -> P lc -> closed ns lc (fun x => In x (ids_of ns) /\ x <> id).
Proof.
  intros W F HP x [Hx Nx]. apply in_get in Hx as [n G]. exists n. split; auto. intros l L y Hy. split.
  - apply (w_links ns W x n lc l G L). auto.
  - intros ->. apply (F x n lc l HP G L Hy).
Qed.

(** *** descend *)
Lemma closest_ok ns q eps lc S : closed ns lc S -> NoDup eps -> eps <> [] -> (forall x, In x eps -> S x) ->
  exists r, closest dist ns q eps 1 lc = Ok r /\ NoDup r /\ r <> [] /\ (forall x, In x r -> S x).
Proof.
  intros HC ND NE HS. unfold closest. destruct (search_layer_sound dist ns q eps 1 lc S HC ND HS) as (r & E & N & H1 & H2 & _). rewrite E.
  eexists. split; [reflexivity|]. split; [apply NoDup_firstn; auto|]. split.
  - specialize (H2 NE). destruct r; [congruence|discriminate].
  - intros x Hx. apply H1. eapply in_firstn; eauto.
Qed.
Lemma descend_ok ns q lc stop S : forall cur, (forall l, closed ns l S) -> NoDup cur -> cur <> [] -> (forall x, In x cur -> S x) ->
  exists r, descend dist ns q lc stop cur = Ok r /\ NoDup r /\ r <> [] /\ (forall x, In x r -> S x).
Proof.
  induction lc as [|lc IH]; intros cur HC ND NE HS; cbn [descend]; [eauto|].
  destruct (Nat.leb _ _); [eauto|]. destruct (closest_ok ns q cur (Datatypes.S lc) S (HC _) ND NE HS) as (r & E & N1 & N2 & N3). rewrite E. auto.
Qed.

(** *** selectNeighborsHeuristic *)
Lemma pairs_ok ns q cands : (forall x, In x cands -> In x (ids_of ns)) -> exists ps, pairs_of dist ns q cands = Ok ps /\ map snd ps = cands.
Proof.
  induction cands as [|c cs IH]; intros H; cbn; [eauto|]. destruct IH as (ps & E & M); [intros; apply H; right; auto|].
  destruct (in_get ns c (H c (or_introl eq_refl))) as [n G]. rewrite G, E. destruct (String.eqb c "query"); eexists; (split; [reflexivity|cbn; congruence]).
Qed.
Lemma select_ok ns q cands m : (forall x, In x cands -> In x (ids_of ns)) -> NoDup cands ->
  exists r, select_neighbors dist ns q cands m = Ok r /\ NoDup r /\ incl r cands /\ length r = Nat.min m (length cands).
Proof.
  intros H ND. unfold select_neighbors. destruct (Nat.leb_spec (length cands) m) as [L|L].
  - exists cands. split; auto. split; auto. split; [apply incl_refl|]. rewrite Nat.min_r; auto.
  - destruct (pairs_ok ns q cands H) as (ps & E & M). rewrite E. eexists. split; [reflexivity|].
    pose proof (ex_sort_perm less_item ps) as P. apply (Permutation_map snd) in P. rewrite M in P.
    split; [apply NoDup_firstn; eapply Permutation_NoDup; eauto|]. split.
    + intros x Hx. apply in_firstn in Hx. eapply Permutation_in; [apply Permutation_sym; exact P|auto].
    + rewrite firstn_length, <- (Permutation_length P). auto.
Qed.

(** *** one change of a neighbour list *)
Lemma set_wf ns id lc l : wf ns -> link_ok ns id l -> wf (upd ns id (set_layer lc l)).
Proof.
  intros W L. constructor.
  - rewrite ids_upd. apply W.
  - intros x n. rewrite get_upd. destruct (String.eqb_spec id x) as [->|N]; [|apply W].
    destruct (get ns x) as [m|] eqn:G; cbn; [|discriminate]. intros [= <-]. cbn. intros E. apply (w_layers ns W x m G).
    apply length_zero_iff_nil. rewrite <- (set_nth_length lc l), E. auto.
  - intros x n lc' l'. rewrite get_upd. unfold link_ok. rewrite ids_upd. fold (link_ok ns x l'). destruct (String.eqb_spec id x) as [->|N]; [|apply W].
    destruct (get ns x) as [m|] eqn:G; cbn; [|discriminate]. intros [= <-]. rewrite layer_set.
    destruct (_ && _) eqn:C; [intros [= <-]; auto|]. apply W; auto.
Qed.

(** Only layer [lc] lists differ. *)
Definition frame (lc : nat) (ns ns' : nodes vec) : Prop :=
  proj ns' = proj ns /\
  forall x n, get ns x = Some n -> exists n', get ns' x = Some n' /\ length (n_nbrs n') = length (n_nbrs n) /\
    forall lc', lc' <> lc -> layer_of n' lc' = layer_of n lc'.
Lemma frame_refl lc ns : frame lc ns ns.
Proof. split; auto. intros x n G. exists n. auto. Qed.
Lemma frame_trans lc a b c : frame lc a b -> frame lc b c -> frame lc a c.
Proof.
  intros [P1 F1] [P2 F2]. split; [congruence|]. intros x n G. destruct (F1 x n G) as (n1 & G1 & L1 & H1). destruct (F2 x n1 G1) as (n2 & G2 & L2 & H2).
  exists n2. split; auto. split; [congruence|]. intros lc' N. rewrite H2, H1; auto.
Qed.
Lemma frame_ids lc a b : frame lc a b -> ids_of b = ids_of a.
Proof. intros [P _]. rewrite !ids_proj. congruence. Qed.
Lemma frame_set lc ns id l : frame lc ns (upd ns id (set_layer lc l)).
Proof.
  split; [apply proj_upd_same; auto|]. intros x n G. rewrite get_upd, G. destruct (String.eqb id x); cbn; [|eauto].
  eexists. split; [reflexivity|]. cbn. rewrite set_nth_length. split; auto. intros lc' N. rewrite layer_set.
  destruct (Nat.eqb_spec lc lc'); [congruence|auto].
Qed.
Lemma frame_back lc a b x n' : frame lc a b -> get b x = Some n' -> exists n, get a x = Some n /\ length (n_nbrs n') = length (n_nbrs n) /\
    n_vec n' = n_vec n /\ forall lc', lc' <> lc -> layer_of n' lc' = layer_of n lc'.
Proof.
  intros F G. assert (Hx : In x (ids_of a)) by (rewrite <- (frame_ids lc a b F); eapply get_some_in; eauto).
  destruct (in_get a x Hx) as [n Gn]. pose proof F as [Pj F2]. destruct (F2 x n Gn) as (n2 & G2 & L2 & H2). rewrite G in G2. injection G2 as <-.
  exists n. repeat split; auto.
  (* vectors agree through proj *)
  clear -Pj G Gn. revert b Pj G. induction a as [|[i m] a IH]; intros b Pj G; [discriminate|].
  destruct b as [|[j m'] b]; [discriminate|]. cbn in Pj. injection Pj as Ei Ev Ed Pj. subst j. cbn in *.
  destruct (String.eqb i x); [congruence|]. eapply IH; eauto.
Qed.
Lemma fresh_frame ns ns' id lc : frame lc ns ns' -> fresh ns id (fun l => l <= lc) -> fresh ns' id (fun l => l < lc).
Proof.
  intros F Fr x n lc' l HP G L. destruct (frame_back lc ns ns' x n F G) as (m & Gm & _ & _ & Hm). rewrite Hm in L by lia.
  refine (Fr x m lc' l _ Gm L). cbn in HP |- *. lia.
Qed.

(** *** add + prune *)
Definition back_step (prune : bool) (M : nat) (ns : nodes vec) (nb id : string) (lc : nat) : outcome (nodes vec) :=
  if prune then prune_node dist M (add_connection ns nb id lc) nb lc else Ok (add_connection ns nb id lc).

Lemma add_ok ns nb id lc : wf ns -> In id (ids_of ns) -> nb <> id ->
  let ns1 := add_connection ns nb id lc in wf ns1 /\ frame lc ns ns1 /\
  (forall x n l, get ns1 x = Some n -> layer_of n lc = Some l -> exists n0 l0, get ns x = Some n0 /\ layer_of n0 lc = Some l0 /\ incl l0 l /\
      (x <> nb -> l = l0) /\ (x = nb -> In id l) /\ incl l (id :: l0)) .
Proof.
  intros W Hid Hne. unfold add_connection.
  assert (Same : (forall l, (exists n, get ns nb = Some n /\ layer_of n lc = Some l) -> In id l) -> forall x n l, get ns x = Some n -> layer_of n lc = Some l -> exists n0 l0, get ns x = Some n0 /\ layer_of n0 lc = Some l0 /\ incl l0 l /\
      (x <> nb -> l = l0) /\ (x = nb -> In id l) /\ incl l (id :: l0)).
  { intros Hm x n l G L. exists n, l. split; [auto|]. split; [auto|]. split; [apply incl_refl|]. split; [auto|]. split; [|intros y Hy; right; auto].
    intros ->. apply Hm. eauto. }
  destruct (get ns nb) as [n0|] eqn:G0; [|split; [auto|split; [apply frame_refl|apply Same; intros l (n & E & _); discriminate]]].
  destruct (layer_of n0 lc) as [l0|] eqn:L0; [|split; [auto|split; [apply frame_refl|apply Same; intros l (n & [= <-] & E); congruence]]].
  destruct (mem id l0) eqn:Hm; [split; [auto|split; [apply frame_refl|apply Same; intros l (n & [= <-] & E); rewrite L0 in E; injection E as <-; apply mem_In; auto]]|].
  apply mem_nIn in Hm. destruct (w_links ns W nb n0 lc l0 G0 L0) as (A1 & A2 & A3).
  split; [|split; [apply frame_set|]].
  - apply set_wf; auto. split; [|split].
    + eapply Permutation_NoDup; [apply Permutation_cons_append|]. constructor; auto.
    + intros H. apply in_app_or in H as [H|[H|[]]]; auto.
    + intros y H. apply in_app_or in H as [H|[<-|[]]]; auto.
  - intros x n l. rewrite get_upd. destruct (String.eqb_spec nb x) as [<-|N].
    + rewrite G0. cbn. intros [= <-]. rewrite layer_set. destruct (_ && _) eqn:C.
      * intros [= <-]. exists n0, l0. split; auto. split; auto. split; [intros y Hy; apply in_or_app; auto|]. split; [congruence|].
        split; [intros _; apply in_or_app; right; left; auto|]. intros y Hy. apply in_app_or in Hy as [Hy|[<-|[]]]; [right|left]; auto.
      * rewrite Nat.eqb_refl in C. cbn in C. apply Nat.ltb_ge in C. apply nth_error_None in C. unfold layer_of in L0. congruence.
    + intros G L. exists n, l. split; auto. split; auto. split; [apply incl_refl|]. split; auto. split; [congruence|]. intros y Hy; right; auto.
Qed.

Lemma step_ok prune M ns nb id lc : wf ns -> In id (ids_of ns) -> In nb (ids_of ns) -> nb <> id ->
  exists ns', back_step prune M ns nb id lc = Ok ns' /\ wf ns' /\ frame lc ns ns' /\ (prune = true -> caps M ns -> caps M ns').
Proof.
  intros W Hid Hnb Hne. unfold back_step. destruct (add_ok ns nb id lc W Hid Hne) as (W1 & F1 & H1).
  set (ns1 := add_connection ns nb id lc) in *. destruct prune; [|exists ns1; split; auto; split; auto; split; auto; discriminate].
  unfold prune_node. assert (Hnb1 : In nb (ids_of ns1)) by (rewrite (frame_ids lc ns ns1 F1); auto).
  destruct (in_get ns1 nb Hnb1) as [n G]. rewrite G.
  assert (Caps1 : caps M ns -> forall x m l lc', get ns1 x = Some m -> layer_of m lc' = Some l -> (x <> nb \/ lc' <> lc) -> length l <= cap M lc').
  { intros C x m l lc' Gx Lx D. destruct (Nat.eq_dec lc' lc) as [->|N].
    - destruct D as [D|D]; [|congruence]. destruct (H1 x m l Gx Lx) as (n0 & l0 & G0 & L0 & _ & E & _). rewrite (E D). eapply C; eauto.
    - destruct (frame_back lc ns ns1 x m F1 Gx) as (m0 & Gm & _ & _ & Hm). rewrite Hm in Lx by auto. eapply C; eauto. }
  destruct (layer_of n lc) as [l|] eqn:L.
  2:{ exists ns1. split; auto. split; auto. split; auto. intros _ C x m lc' l' Gx Lx. eapply Caps1; eauto.
      destruct (string_dec x nb) as [->|Nx]; auto. right. intros ->. congruence. }
  destruct (Nat.leb_spec (length l) (cap M lc)) as [Hl|Hl].
  - exists ns1. split; auto. split; auto. split; auto. intros _ C x m lc' l' Gx Lx.
    destruct (string_dec x nb) as [->|Nx]; [|eapply Caps1; eauto]. destruct (Nat.eq_dec lc' lc) as [->|N]; [congruence|eapply Caps1; eauto].
  - destruct (w_links ns1 W1 nb n lc l G L) as (A1 & A2 & A3).
    destruct (select_ok ns1 (n_vec n) l (cap M lc) A3 A1) as (r & E & N1 & N2 & N3). rewrite E. eexists. split; [reflexivity|].
    split; [apply set_wf; auto; split; auto; split; [intros H; apply A2, N2; auto|eapply incl_tran; eauto]|].
    split; [eapply frame_trans; [exact F1|apply frame_set]|]. intros _ C x m lc' l'. rewrite get_upd.
    destruct (String.eqb_spec nb x) as [<-|Nx].
    + rewrite G. cbn. intros [= <-]. rewrite layer_set. destruct (Nat.eqb_spec lc lc') as [<-|Nl]; cbn [andb].
      * destruct (Nat.ltb _ _) eqn:Lt; [intros [= <-]; lia|]. apply Nat.ltb_ge in Lt. apply nth_error_None in Lt. unfold layer_of in L. congruence.
      * intros L'. eapply (Caps1 C nb n); eauto.
    + intros Gx Lx. eapply Caps1; eauto.
Qed.

Lemma link_back_unfold prune M ns id nb nbs lc :
  link_back dist prune M ns id (nb :: nbs) lc = match back_step prune M ns nb id lc with Ok ns2 => link_back dist prune M ns2 id nbs lc | Err e => Err e | Panic => Panic end.
Proof. reflexivity. Qed.

Lemma link_back_ok prune M id lc nbs : forall ns, wf ns -> In id (ids_of ns) -> (forall x, In x nbs -> In x (ids_of ns) /\ x <> id) ->
  exists ns', link_back dist prune M ns id nbs lc = Ok ns' /\ wf ns' /\ frame lc ns ns' /\ (prune = true -> caps M ns -> caps M ns').
Proof.
  induction nbs as [|nb nbs IH]; intros ns W Hid H.
  - exists ns. cbn. split; auto. split; auto. split; [apply frame_refl|auto].
  - rewrite link_back_unfold. destruct (H nb (or_introl eq_refl)) as [Hnb Hne].
    destruct (step_ok prune M ns nb id lc W Hid Hnb Hne) as (ns1 & E & W1 & F1 & C1). rewrite E.
    destruct (IH ns1 W1) as (ns2 & E2 & W2 & F2 & C2).
    + rewrite (frame_ids lc ns ns1 F1); auto.
    + intros x Hx. rewrite (frame_ids lc ns ns1 F1). apply H; right; auto.
    + exists ns2. split; auto. split; auto. split; [eapply frame_trans; eauto|auto].
Qed.

Lemma link_layer_ok prune M efc ns id v cur lc : wf ns -> In id (ids_of ns) -> fresh ns id (fun l => l <= lc) ->
  NoDup cur -> (forall x, In x cur -> In x (ids_of ns) /\ x <> id) ->
  exists ns' nbs, link_layer dist prune M efc ns id v cur lc = Ok (ns', nbs) /\ wf ns' /\ frame lc ns ns' /\
    (prune = true -> caps M ns -> caps M ns') /\ NoDup nbs /\ (forall x, In x nbs -> In x (ids_of ns) /\ x <> id) /\ length nbs <= cap M lc /\
    (cur <> [] -> 1 <= M -> nbs <> []) /\
    link_back dist prune M (upd ns id (set_layer lc nbs)) id nbs lc = Ok ns'.
Proof.
  intros W Hid F ND HS. unfold link_layer.
  assert (HC : closed ns lc (fun x => In x (ids_of ns) /\ x <> id)) by (eapply fresh_closed; eauto; cbn; lia).
  destruct (search_layer_sound dist ns v cur efc lc _ HC ND HS) as (cands & E & N1 & N2 & N3 & _). rewrite E.
  destruct (select_ok ns v cands (cap M lc)) as (nbs & E2 & M1 & M2 & M3); [intros x Hx; apply N2; auto|auto|]. rewrite E2.
  assert (HN : forall x, In x nbs -> In x (ids_of ns) /\ x <> id) by (intros x Hx; apply N2; auto).
  assert (LK : link_ok ns id nbs) by (split; auto; split; [intros H; destruct (HN id H); congruence|intros x Hx; apply HN; auto]).
  set (ns1 := upd ns id (set_layer lc nbs)).
  destruct (link_back_ok prune M id lc nbs ns1) as (ns2 & E3 & W2 & F2 & C2).
  - apply set_wf; auto.
  - unfold ns1. rewrite ids_upd; auto.
  - intros x Hx. unfold ns1. rewrite ids_upd; auto.
  - rewrite E3. exists ns2, nbs. split; auto. split; auto. split; [eapply frame_trans; [apply frame_set|exact F2]|].
    split; [|split; [auto|split; [auto|split; [lia|split; [|auto]]]]].
    + intros Hp C. apply C2; auto. intros x n lc' l. unfold ns1. rewrite get_upd. destruct (String.eqb_spec id x) as [<-|N]; [|apply C].
      destruct (get ns id) as [m|] eqn:G; cbn; [|discriminate]. intros [= <-]. rewrite layer_set. destruct (Nat.eqb_spec lc lc') as [<-|]; cbn [andb].
      * destruct (Nat.ltb _ _); [intros [= <-]; lia|eapply C; eauto].
      * eapply C; eauto.
    + intros NE HM E0. specialize (N3 NE). rewrite E0 in M3. cbn in M3. destruct cands; [congruence|]. cbn in M3.
      destruct lc; cbn in M3; lia.
Qed.

Definition same_proj (ns ns' : nodes vec) : Prop := proj ns' = proj ns.
Lemma link_layers_ok prune M efc id v lc : forall ns cur, wf ns -> In id (ids_of ns) -> fresh ns id (fun l => l <= lc) ->
  NoDup cur -> (forall x, In x cur -> In x (ids_of ns) /\ x <> id) ->
  exists ns', link_layers dist prune M efc ns id v cur lc = Ok ns' /\ wf ns' /\ same_proj ns ns' /\ (prune = true -> caps M ns -> caps M ns').
Proof.
  induction lc as [|lc IH]; intros ns cur W Hid F ND HS; cbn [link_layers];
    match goal with |- context [link_layer _ _ _ _ _ _ _ _ ?l] => destruct (link_layer_ok prune M efc ns id v cur l W Hid F ND HS) as (ns1 & nbs & E & W1 & F1 & C1 & N1 & N2 & _) end; rewrite E.
  - exists ns1. split; auto. split; auto. split; auto. apply F1.
  - destruct (IH ns1 nbs W1) as (ns2 & E2 & W2 & P2 & C2).
    + rewrite (frame_ids _ ns ns1 F1); auto.
    + pose proof (fresh_frame ns ns1 id _ F1 F) as Fr. intros x n l' l HP. apply Fr. lia.
    + auto.
    + intros x Hx. rewrite (frame_ids _ ns ns1 F1). auto.
    + exists ns2. split; auto. split; auto. split; auto. unfold same_proj in *. destruct F1 as [P1 _]. congruence.
Qed.

(** *** Insert *)
Lemma new_wf ns id n : wf ns -> ~ In id (ids_of ns) -> n_nbrs n <> [] -> (forall lc l, layer_of n lc = Some l -> l = []) -> wf (ns ++ [(id, n)]).
Proof.
  intros W H L0 L. constructor.
  - rewrite ids_app. eapply Permutation_NoDup; [apply Permutation_cons_append|]. constructor; auto. apply W.
  - intros x m. rewrite get_app by auto. destruct (String.eqb_spec id x); [intros [= <-]; auto|apply W].
  - intros x m lc l. rewrite get_app by auto. unfold link_ok. rewrite ids_app. destruct (String.eqb_spec id x) as [->|N].
    + intros [= <-] E. rewrite (L _ _ E). split; [constructor|]. split; [intros []|intros ? []].
    + intros G E. destruct (w_links ns W x m lc l G E) as (A1 & A2 & A3). split; auto. split; auto. intros y Hy. apply in_or_app; auto.
Qed.
Lemma repeat_layer k lc (l : list string) : nth_error (repeat [] k) lc = Some l -> l = [].
Proof. intros H. apply nth_error_In, repeat_spec in H. auto. Qed.
Lemma new_caps M ns id n : caps M ns -> ~ In id (ids_of ns) -> (forall lc l, layer_of n lc = Some l -> l = []) -> caps M (ns ++ [(id, n)]).
Proof.
  intros C H L x m lc l. rewrite get_app by auto. destruct (String.eqb_spec id x) as [->|N]; [|apply C].
  intros [= <-] E. rewrite (L _ _ E). cbn. lia.
Qed.
Lemma new_fresh ns id n (P : nat -> Prop) : wf ns -> ~ In id (ids_of ns) -> (forall lc l, layer_of n lc = Some l -> l = []) -> fresh (ns ++ [(id, n)]) id P.
Proof.
  intros W H L x m lc l _. rewrite get_app by auto. destruct (String.eqb_spec id x) as [->|N].
  - intros [= <-] E. rewrite (L _ _ E). intros [].
  - intros G E Hx. apply H. apply (w_links ns W x m lc l G E). auto.
Qed.

(** The entry point names a node, unless it is the empty string. *)
Definition entry_ok (h : hnsw vec) : Prop := h_entry h <> ""%string -> In (h_entry h) (ids_of (h_nodes h)).

Lemma insert_ok prune h id v lvl : wf (h_nodes h) -> entry_ok h -> ~ In id (ids_of (h_nodes h)) ->
  exists h', insert_node dist keep prune h id v lvl = Ok h' /\ wf (h_nodes h') /\ entry_ok h' /\
    proj (h_nodes h') = proj (h_nodes h) ++ [(id, (keep v, false))] /\
    h_M h' = h_M h /\ h_efc h' = h_efc h /\
    (prune = true -> caps (h_M h) (h_nodes h) -> caps (h_M h) (h_nodes h')) /\
    (h_entry h' = h_entry h /\ h_entry h <> ""%string \/ h_entry h' = id).
Proof.
  intros W EO Hid. unfold insert_node. set (n := Node (keep v) (repeat [] (S lvl)) false). set (ns := h_nodes h ++ [(id, n)]).
  assert (L : forall lc l, layer_of n lc = Some l -> l = []) by (intros lc l H; apply (repeat_layer _ _ _ H)).
  assert (W1 : wf ns) by (apply new_wf; auto; discriminate).
  assert (P1 : proj ns = proj (h_nodes h) ++ [(id, (keep v, false))]) by (unfold ns, proj; rewrite map_app; auto).
  assert (C1 : caps (h_M h) (h_nodes h) -> caps (h_M h) ns) by (intros C; apply new_caps; auto).
  destruct (String.eqb_spec (h_entry h) "") as [E0|N0].
  - eexists. split; [reflexivity|]. cbn. split; auto. split; [intros _; unfold ns; cbn [h_nodes h_entry]; rewrite ids_app; apply in_or_app; right; left; auto|].
    repeat split; auto.
  - specialize (EO N0). assert (Ne : h_entry h <> id) by (intros E; rewrite E in EO; auto).
    destruct (in_get _ _ EO) as [e Ge]. assert (Ge' : get ns (h_entry h) = Some e).
    { unfold ns. rewrite get_app by auto. destruct (String.eqb_spec id (h_entry h)); congruence. }
    rewrite Ge'.
    assert (Fr : fresh ns id (fun _ => True)) by (apply new_fresh; auto).
    destruct (descend_ok ns v (n_level e) lvl (fun x => In x (ids_of ns) /\ x <> id) [h_entry h]) as (cur & E & N1 & N2 & N3).
    { intros l. apply (fresh_closed ns id (fun _ => True)); auto. }
    { repeat constructor. intros []. }
    { discriminate. }
    { intros x [<-|[]]. split; auto. unfold ns. rewrite ids_app. apply in_or_app; auto. }
    rewrite E. destruct (link_layers_ok prune (h_M h) (h_efc h) id v lvl ns cur W1) as (ns2 & E2 & W2 & P2 & C2); auto.
    { unfold ns. rewrite ids_app. apply in_or_app. right; left; auto. }
    { intros x m lc l _. apply Fr. exact I. }
    rewrite E2. unfold same_proj in P2. eexists. split; [reflexivity|]. cbn [h_nodes h_entry h_M h_efc]. split; auto. split.
    { intros _. cbn [h_nodes h_entry]. rewrite ids_proj, P2, <- ids_proj. unfold ns. rewrite ids_app. apply in_or_app.
      destruct (Nat.ltb (n_level e) lvl); [right; left; auto|left; auto]. }
    split; [congruence|]. split; auto. split; auto. split; [auto|].
    destruct (Nat.ltb (n_level e) lvl); auto.
Qed.

(** *** several insertions *)
Lemma has_ids (c : list (string * (vec * bool))) id : existsb (fun e => String.eqb (fst e) id) c = true <-> In id (map fst c).
Proof.
  rewrite existsb_exists, in_map_iff. split.
  - intros (e & H & E). apply String.eqb_eq in E. eauto.
  - intros (e & E & H). exists e. split; auto. apply String.eqb_eq; auto.
Qed.
Lemma has_get ns id : existsb (fun e => String.eqb (fst e) id) (proj ns) = match get ns id with Some _ => true | None => false end.
Proof.
  destruct (get ns id) as [n|] eqn:G.
  - apply has_ids. rewrite <- ids_proj. eapply get_some_in; eauto.
  - destruct (existsb _ _) eqn:E; auto. apply has_ids in E. rewrite <- ids_proj in E. apply in_get in E as [n E]. congruence.
Qed.

Definition entry_set (h : hnsw vec) : Prop := ~ In ""%string (ids_of (h_nodes h)) -> h_nodes h <> [] -> h_entry h <> ""%string.
Lemma insert_all_ok prune vs : forall h, wf (h_nodes h) -> entry_ok h ->
  exists h', insert_all dist keep prune h vs = Ok h' /\ wf (h_nodes h') /\ entry_ok h' /\
    proj (h_nodes h') = fold_left (c_insert keep) (map fst vs) (proj (h_nodes h)) /\
    h_M h' = h_M h /\ h_efc h' = h_efc h /\
    (prune = true -> caps (h_M h) (h_nodes h) -> caps (h_M h) (h_nodes h')) /\
    (entry_set h -> entry_set h').
Proof.
  induction vs as [|[[id v] lvl] vs IH]; intros h W EO; cbn [insert_all].
  - exists h. repeat (split; auto).
  - cbn [map fold_left]. unfold c_insert at 2, c_has. cbn [fst snd]. rewrite has_get. cbn [fst snd]. destruct (get (h_nodes h) id) as [n|] eqn:G.
    + destruct (IH h W EO) as (h' & E & A). exists h'. split; [auto|]. destruct A as (A1 & A2 & A3 & A4 & A5 & A6 & A7).
      repeat (split; auto).
    + destruct (insert_ok prune h id v lvl W EO (proj1 (get_none _ _) G)) as (h1 & E1 & W1 & EO1 & P1 & M1 & F1 & C1 & N1). rewrite E1.
      destruct (IH h1 W1 EO1) as (h2 & E2 & W2 & EO2 & P2 & M2 & F2 & C2 & N2). exists h2. rewrite P1 in P2. rewrite M1 in *.
      split; [auto|]. split; [auto|]. split; [auto|]. split; [auto|]. split; [congruence|]. split; [congruence|]. split; [auto|].
      intros ES. apply N2. intros Nm _. destruct N1 as [[N1 N1']|N1]; [congruence|].
      rewrite N1. intros ->. apply Nm. rewrite ids_proj, P1, map_app. apply in_or_app. right; left; auto.
Qed.

(** *** InsertBatchParallel *)
Lemma get_app2 (ns : nodes vec) (p : string * node vec) x : get (ns ++ [p]) x = match get ns x with Some n => Some n | None => if String.eqb (fst p) x then Some (snd p) else None end.
Proof. induction ns as [|[i m] ns IH]; cbn; [destruct p; cbn; destruct (String.eqb s x); auto|]. destruct (String.eqb i x); auto. Qed.
Lemma add_missing_get (ns : nodes vec) p x : get (add_missing ns p) x = match get ns x with Some n => Some n | None => if String.eqb (fst p) x then Some (snd p) else None end.
Proof.
  unfold add_missing. destruct (get ns (fst p)) eqn:G.
  - destruct (get ns x) eqn:Gx; auto. destruct (String.eqb_spec (fst p) x); congruence.
  - apply get_app2.
Qed.
Lemma merge_get (g : nodes vec) : forall ns x, get (fold_left add_missing g ns) x = match get ns x with Some n => Some n | None => get g x end.
Proof.
  induction g as [|[i m] g IH]; intros ns x; cbn [fold_left]; [cbn; destruct (get ns x); auto|].
  rewrite IH, add_missing_get. cbn. destruct (get ns x); auto. destruct (String.eqb i x); auto.
Qed.
Lemma add_missing_nodup (ns : nodes vec) p : NoDup (ids_of ns) -> NoDup (ids_of (add_missing ns p)).
Proof.
  intros H. unfold add_missing. destruct (get ns (fst p)) eqn:G; auto. destruct p as [i m]. rewrite ids_app.
  eapply Permutation_NoDup; [apply Permutation_cons_append|]. constructor; auto. apply get_none; auto.
Qed.
Lemma merge_nodup (g : nodes vec) : forall ns, NoDup (ids_of ns) -> NoDup (ids_of (fold_left add_missing g ns)).
Proof. induction g as [|p g IH]; intros ns H; cbn [fold_left]; auto. apply IH, add_missing_nodup; auto. Qed.
Lemma merge_ids (g ns : nodes vec) x : In x (ids_of (fold_left add_missing g ns)) <-> In x (ids_of ns) \/ In x (ids_of g).
Proof.
  split.
  - intros H. apply in_get in H as [n H]. rewrite merge_get in H. destruct (get ns x) eqn:G; [left; eapply get_some_in; eauto|right; eapply get_some_in; eauto].
  - intros H. destruct (get ns x) as [n|] eqn:G.
    + apply (get_some_in _ x n). rewrite merge_get, G. auto.
    + destruct H as [H|H]; [apply in_get in H as [n H]; congruence|]. apply in_get in H as [n H]. apply (get_some_in _ x n). rewrite merge_get, G. auto.
Qed.
Lemma merge_wf g ns : wf ns -> wf g -> wf (fold_left add_missing g ns).
Proof.
  intros W Wg. constructor.
  - apply merge_nodup, W.
  - intros id n. rewrite merge_get. destruct (get ns id) eqn:G; [intros [= <-]; apply (w_layers ns W id); auto|apply (w_layers g Wg id)].
  - intros id n lc l. rewrite merge_get. unfold link_ok. destruct (get ns id) eqn:G.
    + intros [= <-] L. destruct (w_links ns W id n0 lc l G L) as (A1 & A2 & A3). split; auto. split; auto. intros y Hy. apply merge_ids. auto.
    + intros Gg L. destruct (w_links g Wg id n lc l Gg L) as (A1 & A2 & A3). split; auto. split; auto. intros y Hy. apply merge_ids. auto.
Qed.

Definition c_raw (c : content) (e : string * (vec * bool)) : content := if c_has c (fst e) then c else c ++ [e].
Lemma merge_proj g : forall ns, proj (fold_left add_missing g ns) = fold_left c_raw (proj g) (proj ns).
Proof.
  induction g as [|[i m] g IH]; intros ns; cbn [fold_left proj map]; auto. fold (proj g). rewrite IH. f_equal.
  unfold add_missing, c_raw, c_has. cbn [fst snd]. rewrite has_get. destruct (get ns i); auto. unfold proj. rewrite map_app. auto.
Qed.
Lemma c_has_app c d id : c_has (vec:=vec) (c ++ d) id = c_has c id || c_has d id.
Proof. apply existsb_app. Qed.
Lemma c_insert_has c x id : c_has (c_insert keep c x) id = c_has c id || String.eqb (fst x) id.
Proof.
  unfold c_insert. destruct (c_has c (fst x)) eqn:E.
  - destruct (String.eqb_spec (fst x) id) as [<-|]; [rewrite E|rewrite orb_false_r]; auto.
  - rewrite c_has_app. cbn. rewrite orb_false_r. auto.
Qed.
Lemma c_fold_has l : forall c id, c_has (fold_left (c_insert keep) l c) id = c_has c id || existsb (fun x => String.eqb (fst x) id) l.
Proof.
  induction l as [|x l IH]; intros c id; cbn [fold_left existsb]; [rewrite orb_false_r; auto|]. rewrite IH, c_insert_has, orb_assoc. auto.
Qed.
Lemma c_raw_fold l : forall c, fold_left c_raw (fold_left (c_insert keep) l []) c = fold_left (c_insert keep) l c.
Proof.
  induction l as [|x l IH] using rev_ind; intros c; auto. rewrite !fold_left_app. cbn [fold_left].
  unfold c_insert at 1. rewrite c_fold_has. cbn [c_has existsb orb]. destruct (existsb (fun y => String.eqb (fst y) (fst x)) l) eqn:E.
  - rewrite IH. unfold c_insert at 2. rewrite c_fold_has, E, orb_true_r. auto.
  - rewrite fold_left_app. cbn [fold_left]. rewrite IH. reflexivity.
Qed.
Lemma chunks_concat {A} w size : forall l : list A, 1 <= w -> concat (chunks w size l) = l.
Proof.
  induction w as [|[|w] IH]; intros l H; [lia|cbn; apply app_nil_r|].
  change (chunks (S (S w)) size l) with (firstn size l :: chunks (S w) size (skipn size l)). cbn [concat]. rewrite IH by lia. apply firstn_skipn.
Qed.

Definition Good (h : hnsw vec) : Prop := wf (h_nodes h) /\ entry_ok h /\ entry_set h.
Lemma new_good M efc : Good (new_hnsw M efc).
Proof.
  split; [|split].
  - constructor; cbn; [constructor|discriminate|discriminate].
  - intros H. cbn in H. congruence.
  - intros _ H. cbn in H. congruence.
Qed.

Lemma build_all_ok M efc cs : exists gs, build_all dist keep M efc cs = Ok gs /\ Forall Good gs /\
  map (fun g => proj (h_nodes g)) gs = map (fun c => fold_left (c_insert keep) (map fst c) []) cs.
Proof.
  induction cs as [|c cs IH]; cbn [build_all]; [exists []; auto|]. destruct (new_good M efc) as (W & EO & ES).
  destruct (insert_all_ok false c (new_hnsw M efc) W EO) as (g & E & W1 & EO1 & P1 & _ & _ & _ & S1). rewrite E.
  destruct IH as (gs & E2 & F & P). rewrite E2. exists (g :: gs). split; auto. split; [constructor; auto; split; auto|]. cbn. rewrite P, P1. auto.
Qed.
Lemma merge_nodes_ok gs : forall ns, Forall Good gs -> wf ns -> wf (merge_nodes ns gs) /\
  (forall x, In x (ids_of (merge_nodes ns gs)) <-> In x (ids_of ns) \/ exists g, In g gs /\ In x (ids_of (h_nodes g))) /\
  proj (merge_nodes ns gs) = fold_left (fun c p => fold_left c_raw p c) (map (fun g => proj (h_nodes g)) gs) (proj ns).
Proof.
  induction gs as [|g gs IH]; intros ns F W; cbn [merge_nodes fold_left map].
  - split; auto. split; auto. intros x. split; auto. intros [H|(g & [] & _)]; auto.
  - inversion F; subst. destruct (IH (fold_left add_missing (h_nodes g) ns) H2) as (A1 & A2 & A3); [apply merge_wf; auto; apply H1|].
    fold (merge_nodes (fold_left add_missing (h_nodes g) ns) gs). split; auto. split.
    + intros x. rewrite A2, merge_ids. split.
      * intros [[H|H]|(g' & Hg & H)]; auto; right; [exists g; cbn; auto|exists g'; cbn; auto].
      * intros [H|(g' & [<-|Hg] & H)]; auto. right. eauto.
    + rewrite A3, merge_proj. auto.
Qed.
Lemma merge_entry_cases ns e g : (merge_entry (vec:=vec) ns e g = e \/ (merge_entry ns e g = h_entry g /\ h_entry g <> ""%string)) /\
  (h_entry g <> ""%string -> merge_entry ns e g <> ""%string) /\ (e <> ""%string -> merge_entry ns e g <> ""%string).
Proof.
  unfold merge_entry. destruct (String.eqb_spec (h_entry g) "") as [E|N]; [split; [auto|]; split; [congruence|auto]|].
  destruct (String.eqb_spec e "") as [E|N2]; [auto|]. destruct (get ns e), (get ns (h_entry g)); auto. destruct (Nat.ltb _ _); auto.
Qed.
Lemma fold_entry ns gs : forall e, let r := fold_left (merge_entry (vec:=vec) ns) gs e in
  (r = e \/ exists g, In g gs /\ r = h_entry g /\ h_entry g <> ""%string) /\
  (e <> ""%string \/ (exists g, In g gs /\ h_entry g <> ""%string) -> r <> ""%string).
Proof.
  induction gs as [|g gs IH]; intros e; cbn [fold_left].
  - split; auto. intros [H|(g & [] & _)]; auto.
  - destruct (merge_entry_cases ns e g) as (A1 & A2 & A3). destruct (IH (merge_entry ns e g)) as [B1 B2]. split.
    + destruct B1 as [B1|(g' & Hg & B1)]; [|right; exists g'; cbn; auto]. rewrite B1. destruct A1 as [A1|A1]; auto. right. exists g. cbn; auto.
    + intros [H|(g' & [<-|Hg] & H)]; apply B2; auto. right; eauto.
Qed.

Lemma parallel_ok h vs w : Good h -> exists h', insert_parallel dist keep h vs w = Ok h' /\ Good h' /\
  proj (h_nodes h') = fold_left (c_insert keep) (map fst vs) (proj (h_nodes h)) /\ h_M h' = h_M h /\ h_efc h' = h_efc h /\
  (w <= 1 -> caps (h_M h) (h_nodes h) -> caps (h_M h) (h_nodes h')).
Proof.
  intros (W & EO & ES). unfold insert_parallel.
  assert (Seq : exists h', insert_all dist keep true h vs = Ok h' /\ Good h' /\
    proj (h_nodes h') = fold_left (c_insert keep) (map fst vs) (proj (h_nodes h)) /\ h_M h' = h_M h /\ h_efc h' = h_efc h /\
    (w <= 1 -> caps (h_M h) (h_nodes h) -> caps (h_M h) (h_nodes h'))).
  { destruct (insert_all_ok true vs h W EO) as (h' & E & W1 & EO1 & P1 & M1 & F1 & C1 & S1). exists h'. split; auto. split; [split; auto|]. auto. }
  destruct (Nat.leb_spec w 1) as [L|L]; [exact Seq|]. destruct (Nat.ltb (length vs / w) 10); [exact Seq|]. clear Seq.
  destruct (build_all_ok (h_M h) (h_efc h) (chunks w (length vs / w) vs)) as (gs & E & F & P). rewrite E.
  eexists. split; [reflexivity|]. cbn [h_nodes h_entry h_M h_efc].
  destruct (merge_nodes_ok gs (h_nodes h) F W) as (A1 & A2 & A3). destruct (fold_entry (merge_nodes (h_nodes h) gs) gs (h_entry h)) as [B1 B2].
  split; [split; [auto|split]|].
  - intros Hne. cbn [h_nodes h_entry] in *. apply A2. destruct B1 as [B1|(g & Hg & B1 & B3)].
    + rewrite B1 in *. left. apply EO; auto.
    + rewrite B1. right. exists g. split; auto. rewrite Forall_forall in F. destruct (F g Hg) as (_ & EOg & _). auto.
  - intros Nm NE. cbn [h_nodes h_entry] in *. apply B2.
    destruct (merge_nodes (h_nodes h) gs) as [|[x n] rest] eqn:Em; [congruence|]. assert (Hx : In x (ids_of ((x, n) :: rest))) by (left; auto).
    apply A2 in Hx as [Hx|(g & Hg & Hx)].
    + left. apply ES; [intros H0; apply Nm, A2; auto|intros E0; rewrite E0 in Hx; destruct Hx].
    + right. exists g. split; auto. rewrite Forall_forall in F. destruct (F g Hg) as (_ & _ & ESg). apply ESg; [intros H0; apply Nm, A2; eauto|].
      intros E0; rewrite E0 in Hx; destruct Hx.
  - split; [|split; [auto|split; [auto|lia]]]. rewrite A3, P. pose proof (chunks_concat w (length vs / w) vs ltac:(lia)) as Cc.
    replace (map fst vs) with (map fst (concat (chunks w (length vs / w) vs))) by (rewrite Cc; auto).
    clear. generalize (proj (h_nodes h)). induction (chunks w (length vs / w) vs) as [|c cs IHc]; intros c0; cbn [map fold_left concat]; auto.
    rewrite map_app, fold_left_app, <- IHc, c_raw_fold. auto.
Qed.

(** *** Delete *)
Lemma delete_ok h id ch : Good h -> In id (ids_of (h_nodes h)) -> exists h', hnsw_delete h id ch = Ok h' /\ Good h' /\
  proj (h_nodes h') = c_delete (proj (h_nodes h)) id /\ h_M h' = h_M h /\ h_efc h' = h_efc h /\
  (forall M, caps M (h_nodes h) -> caps M (h_nodes h')).
Proof.
  intros (W & EO & ES) Hid. unfold hnsw_delete. destruct (in_get _ _ Hid) as [n G]. rewrite G.
  set (ns := upd (h_nodes h) id (fun n => Node (n_vec n) (n_nbrs n) true)).
  assert (Gns : forall x m, get ns x = Some m -> exists m0, get (h_nodes h) x = Some m0 /\ n_nbrs m = n_nbrs m0).
  { intros x m. unfold ns. rewrite get_upd. destruct (String.eqb id x); [|eauto]. destruct (get (h_nodes h) x); cbn; [|discriminate]. intros [= <-]. eauto. }
  assert (Ins : ids_of ns = ids_of (h_nodes h)) by apply ids_upd.
  assert (Al : forall x, In x (alive_ids ns) -> In x (ids_of ns)).
  { intros x Hx. unfold alive_ids in Hx. apply in_map_iff in Hx as (p & <- & Hp). apply filter_In in Hp as [Hp _]. apply in_map; auto. }
  eexists. split; [reflexivity|]. cbn [h_nodes h_entry h_M h_efc]. split; [split; [|split]|].
  - cbn [h_nodes]. constructor.
    + rewrite Ins. apply W.
    + intros x m H. apply Gns in H as (m0 & G0 & ->). eapply w_layers; eauto.
    + intros x m lc l H L. apply Gns in H as (m0 & G0 & E). unfold link_ok. rewrite Ins. apply (w_links _ W x m0 lc l G0). unfold layer_of in *. rewrite <- E. exact L.
  - intros Hne. cbn [h_nodes h_entry] in *. rewrite Ins. destruct (String.eqb (h_entry h) id); [|auto].
    destruct (nth_error (alive_ids ns) _) as [y|] eqn:Ny; [rewrite <- Ins; apply Al; eapply nth_error_In; eauto|auto].
  - intros Nm NE. cbn [h_nodes h_entry] in *. rewrite Ins in Nm. assert (NE' : h_nodes h <> []) by (intros E0; rewrite E0 in Hid; destruct Hid).
    destruct (String.eqb (h_entry h) id); [|auto].
    destruct (nth_error (alive_ids ns) _) as [y|] eqn:Ny; [|auto]. intros ->. apply Nm. rewrite <- Ins. apply Al. eapply nth_error_In; eauto.
  - split; [|split; [auto|split; [auto|]]].
    + unfold ns, proj, upd, c_delete. rewrite !map_map. apply map_ext. intros [i m]. cbn. destruct (String.eqb i id); auto.
    + intros M C x m lc l H L. apply Gns in H as (m0 & G0 & E). apply (C x m0 lc l G0). unfold layer_of in *. rewrite <- E. exact L.
Qed.
Lemma c_delete_absent (c : content (vec:=vec)) id : ~ In id (map fst c) -> c_delete c id = c.
Proof.
  intros H. unfold c_delete. rewrite <- (map_id c) at 2. apply map_ext_in. intros e He.
  destruct (String.eqb_spec (fst e) id) as [<-|]; auto. exfalso. apply H, in_map; auto.
Qed.

(** *** histories *)
Definition seq_op (o : hop vec) : Prop := match o with HParallel _ w => w <= 1 | _ => True end.
Lemma step_good h o : Good h -> exists h', (hstep dist keep h o = Ok h' \/ (exists e, hstep dist keep h o = Err e) /\ h' = h) /\ Good h' /\
  proj (h_nodes h') = c_step keep (proj (h_nodes h)) o /\ h_M h' = h_M h /\ h_efc h' = h_efc h /\ (seq_op o -> caps (h_M h) (h_nodes h) -> caps (h_M h) (h_nodes h')).
Proof.
  intros GH. pose proof GH as (W & EO & ES). destruct o as [id v lvl|vs|vs w|id ch]; cbn [hstep c_step seq_op].
  - unfold hnsw_insert. unfold c_insert, c_has. cbn [fst snd]. rewrite has_get. destruct (get (h_nodes h) id) eqn:G.
    + exists h. split; [right; eauto|]. auto.
    + destruct (insert_ok true h id v lvl W EO (proj1 (get_none _ _) G)) as (h1 & E1 & W1 & EO1 & P1 & M1 & F1 & C1 & N1).
      exists h1. split; auto. split; [split; [auto|split; [auto|]]|auto]. intros Nm _. destruct N1 as [[N1 N1']|N1]; [congruence|].
      rewrite N1. intros ->. apply Nm. rewrite ids_proj, P1, map_app. apply in_or_app. right; left; auto.
  - destruct (insert_all_ok true vs h W EO) as (h' & E & W1 & EO1 & P1 & M1 & F1 & C1 & S1). exists h'. split; auto. split; [split; auto|auto].
  - destruct (parallel_ok h vs w GH) as (h' & E & A). exists h'. auto.
  - destruct (in_dec string_dec id (ids_of (h_nodes h))) as [Hi|Hi].
    + destruct (delete_ok h id ch GH Hi) as (h' & E & A1 & A2 & A3 & A4 & A5). exists h'. split; auto. repeat (split; auto).
    + exists h. unfold hnsw_delete. rewrite (proj2 (get_none _ _) Hi). split; [right; eauto|]. rewrite c_delete_absent by (rewrite <- ids_proj; auto). auto.
Qed.
Lemma run_good ops : forall h, Good h -> exists h', hrun dist keep h ops = Ok h' /\ Good h' /\
  proj (h_nodes h') = fold_left (c_step keep) ops (proj (h_nodes h)) /\ h_M h' = h_M h /\ h_efc h' = h_efc h /\
  (Forall seq_op ops -> caps (h_M h) (h_nodes h) -> caps (h_M h) (h_nodes h')).
Proof.
  induction ops as [|o ops IH]; intros h G; cbn [hrun fold_left]; [exists h; repeat (split; auto); apply G|].
  destruct (step_good h o G) as (h1 & E & G1 & P1 & M1 & F1 & C1). destruct (IH h1 G1) as (h2 & E2 & G2 & P2 & M2 & F2 & C2). exists h2.
  split; [destruct E as [E|[[e E] ->]]; rewrite E; auto|]. split; auto. rewrite P2, P1, M2, M1, F2, F1. split; auto. split; auto. split; auto.
  intros F. inversion F; subst. rewrite M1 in C2. auto.
Qed.
Lemma run_new M efc ops h : hrun dist keep (new_hnsw M efc) ops = Ok h ->
  Good h /\ proj (h_nodes h) = contents keep ops /\ h_M h = M /\ h_efc h = efc /\ (Forall seq_op ops -> caps M (h_nodes h)).
Proof.
  intros E. destruct (run_good ops _ (new_good M efc)) as (h' & E' & A1 & A2 & A3 & A4 & A5). rewrite E in E'. injection E' as <-.
  split; auto. split; auto. split; auto. split; auto. intros F. apply A5; auto. intros id n lc l H. discriminate.
Qed.

(** *** Search *)
Definition alive_of (c : content (vec:=vec)) (q : vec) (cands : list string) : list item :=
  with_distance dist q (filter (fun p => mem (fst p) cands) (live c)).

Lemma alive_pairs_in ns q cands d x : In (d, x) (alive_pairs dist ns q cands) <-> In x cands /\ exists n, get ns x = Some n /\ n_del n = false /\ d = dist q (n_vec n).
Proof.
  induction cands as [|c cs IH]; cbn [alive_pairs]; [split; [intros []|intros [[] _]]|].
  destruct (get ns c) as [n|] eqn:G; [destruct (n_del n) eqn:D|].
  - rewrite IH. split; [intros [H1 H2]; split; [right; auto|auto]|]. intros [[->|H1] (m & G' & D' & E)]; [congruence|]. split; eauto.
  - cbn. rewrite IH. split.
    + intros [E|[H1 H2]]; [injection E as <- <-; split; eauto|split; auto].
    + intros [[->|H1] (m & G' & D' & E)]; [left; congruence|right; split; eauto].
  - rewrite IH. split; [intros [H1 H2]; split; [right; auto|auto]|]. intros [[->|H1] (m & G' & D' & E)]; [congruence|]. split; eauto.
Qed.
Lemma alive_pairs_nodup ns q cands : NoDup cands -> NoDup (map snd (alive_pairs dist ns q cands)).
Proof.
  induction 1 as [|c cs Hc ND IH]; cbn [alive_pairs]; [constructor|]. destruct (get ns c) as [n|] eqn:G; auto. destruct (n_del n); auto.
  cbn. constructor; auto. intros H. apply in_map_iff in H as ([d x] & E & H). cbn in E. subst x. apply alive_pairs_in in H as [H _]. auto.
Qed.
Lemma live_in ns x v : NoDup (ids_of ns) -> (In (x, v) (live (proj ns)) <-> exists n, get ns x = Some n /\ n_del n = false /\ v = n_vec n).
Proof.
  intros ND. unfold live, proj. rewrite in_map_iff. split.
  - intros (e & E & H). apply filter_In in H as [H D]. apply in_map_iff in H as ([i n] & <- & H). cbn in *. injection E as <- <-.
    exists n. split; [apply in_get_eq; auto|]. split; auto. destruct (n_del n); [discriminate|auto].
  - intros (n & G & D & ->). exists (x, (n_vec n, false)). split; auto. apply filter_In. split; auto.
    apply in_map_iff. exists (x, n). cbn. rewrite D. split; auto. apply get_in; auto.
Qed.

(** The shape of every search on a good index: the best k of the live nodes among
    the ids returned by the layer-0 search. *)
Lemma search_shape h q k ef S : Good h -> (forall lc, closed (h_nodes h) lc S) -> (h_entry h <> ""%string -> S (h_entry h)) -> (0 <= k)%Z ->
  exists cands, NoDup cands /\ (forall x, In x cands -> S x) /\
    hnsw_search dist h q k ef = Ok (firstn (Z.to_nat k) (ex_sort less_item (alive_pairs dist (h_nodes h) q cands))) /\
    (h_entry h <> ""%string -> exists cur, NoDup cur /\ cur <> [] /\ (forall x, In x cur -> S x) /\ search_layer dist (h_nodes h) q cur ef 0 = Ok cands).
Proof.
  intros (W & EO & _) HC HS Hk. unfold hnsw_search. destruct (String.eqb_spec (h_entry h) "") as [E0|N0].
  - exists []. split; [constructor|]. split; [intros ? []|]. split; [|congruence]. cbn. rewrite firstn_nil. auto.
  - destruct (in_get _ _ (EO N0)) as [e G]. rewrite G.
    destruct (descend_ok (h_nodes h) q (n_level e) 0 S [h_entry h]) as (cur & E & A1 & A2 & A3).
    { auto. } { repeat constructor. intros []. } { discriminate. } { intros x [<-|[]]. auto. }
    rewrite E. destruct (search_layer_sound dist (h_nodes h) q cur ef 0 S (HC 0) A1 A3) as (cands & E2 & B1 & B2 & _). rewrite E2.
    exists cands. split; auto. split; auto. destruct (Z.ltb_spec k 0); [lia|]. split; auto. intros _. exists cur. auto.
Qed.

Lemma less_nearer : less_item = nearer.
Proof. reflexivity. Qed.

(** C37. *)
Lemma search_sound_lemma h q k ef : Good h -> (0 <= k)%Z ->
  exists out, hnsw_search dist h q k ef = Ok out /\ length out <= Z.to_nat k /\ NoDup (map snd out) /\
    (forall d id, In (d, id) out -> exists v, In (id, v) (live (proj (h_nodes h))) /\ d = dist q v) /\
    (distances_are_numbers dist q (live (proj (h_nodes h))) -> sorted_by nearer out).
Proof.
  intros G Hk. pose proof G as (W & EO & _).
  destruct (search_shape h q k ef (fun x => In x (ids_of (h_nodes h))) G (fun lc => wf_closed _ lc W) EO Hk) as (cands & ND & HS & E & _).
  rewrite E. eexists. split; [reflexivity|]. set (ps := alive_pairs dist (h_nodes h) q cands).
  pose proof (ex_sort_perm less_item ps) as P. split; [rewrite firstn_length; lia|].
  assert (Hin : forall d id, In (d, id) ps -> exists v, In (id, v) (live (proj (h_nodes h))) /\ d = dist q v).
  { intros d id H. apply alive_pairs_in in H as (_ & n & Gn & D & ->). exists (n_vec n). split; auto. apply live_in; [apply W|eauto]. }
  split; [|split].
  - rewrite <- firstn_map. apply NoDup_firstn. eapply Permutation_NoDup; [apply Permutation_map; exact P|]. apply alive_pairs_nodup; auto.
  - intros d id H. apply in_firstn in H. apply Hin. eapply Permutation_in; [apply Permutation_sym; exact P|auto].
  - intros HN. apply sorted_firstn. apply ex_sort_sorted. apply (weak_order_asc fst). intros [d id] H. destruct (Hin d id H) as (v & Hv & ->). cbn. eapply HN; eauto.
Qed.

(** Exactness from the layer-0 links. *)
Definition connected0 (ns : nodes vec) : Prop :=
  forall S : string -> Prop, closed ns 0 S -> forall x y, S x -> In x (ids_of ns) -> In y (ids_of ns) -> S y.
Lemma search_exact_lemma h q k ef : Good h -> connected0 (h_nodes h) -> (h_nodes h <> [] -> h_entry h <> ""%string) -> (0 <= k)%Z -> length (h_nodes h) <= ef ->
  (forall x n, get (h_nodes h) x = Some n -> not_nan (dist q (n_vec n))) ->
  exists out, hnsw_search dist h q k ef = Ok out /\ is_topk nearer (Z.to_nat k) (with_distance dist q (live (proj (h_nodes h)))) out.
Proof.
  intros G HC HE Hk Hef HN. pose proof G as (W & EO & _).
  destruct (search_shape h q k ef (fun x => In x (ids_of (h_nodes h))) G (fun lc => wf_closed _ lc W) EO Hk) as (cands & ND & HS & E & HL).
  rewrite E. eexists. split; [reflexivity|]. set (ps := alive_pairs dist (h_nodes h) q cands).
  assert (All : forall x, In x (ids_of (h_nodes h)) -> In x cands).
  { intros x Hx. assert (Hne : h_entry h <> ""%string). { apply HE. intros E0. rewrite E0 in Hx. destruct Hx. }
    destruct (HL Hne) as (cur & C1 & C2 & C3 & C4).
    assert (HD : forall x d, In x (ids_of (h_nodes h)) -> Dof dist (h_nodes h) q x = Some d -> not_nan d).
    { intros y d Hy Dy. unfold Dof in Dy. destruct (get (h_nodes h) y) eqn:Gy; [|discriminate]. injection Dy as <-. eapply HN; eauto. }
    destruct (search_layer_local dist (h_nodes h) q cur ef 0 _ cands (wf_closed _ 0 W) C1 C3 HD C4) as [L1 L2].
    assert (Full : ef <= length cands -> forall y, In y (ids_of (h_nodes h)) -> In y cands).
    { intros Hl y Hy. apply (NoDup_length_incl (l' := ids_of (h_nodes h)) ND); auto. rewrite length_ids. lia. }
    destruct cur as [|c cur]; [congruence|].
    assert (Hc : In c cands). { destruct (L1 c (or_introl eq_refl)) as [H|[H _]]; auto. apply Full; auto. apply C3; left; auto. }
    apply (HC (fun y => In y cands)) with c; auto. intros y Hy. apply HS in Hy as Hy'. apply in_get in Hy' as [n Gn]. exists n. split; auto.
    intros l Ll z Hz. destruct (L2 y n l z Hy Gn Ll Hz) as [H|[H _]]; auto. apply Full; auto. apply (w_links _ W y n 0 l Gn Ll). auto. }
  assert (P : Permutation (with_distance dist q (live (proj (h_nodes h)))) ps).
  { apply NoDup_Permutation.
    - unfold with_distance. apply (NoDup_map_NoDup snd). rewrite map_map. cbn. unfold live. rewrite map_map. cbn.
      apply NoDup_map_filter. rewrite <- ids_proj. apply W.
    - apply (NoDup_map_NoDup snd), alive_pairs_nodup; auto.
    - intros [d x]. unfold ps. rewrite alive_pairs_in. unfold with_distance. rewrite in_map_iff. split.
      + intros ([i v] & Ei & H). cbn in Ei. injection Ei as <- <-. apply live_in in H as (n & Gn & D & ->); [|apply W].
        split; [apply All; eapply get_some_in; eauto|eauto].
      + intros (_ & n & Gn & D & ->). exists (x, n_vec n). split; auto. apply live_in; [apply W|eauto]. }
  rewrite less_nearer. assert (WO : weak_order_on nearer ps).
  { apply (weak_order_asc fst). intros [d x] H. apply alive_pairs_in in H as (_ & n & Gn & _ & ->). cbn. eapply HN; eauto. }
  destruct (topk_of_sort nearer (ex_sort nearer) (Z.to_nat k) ps (ex_sort_ok nearer) WO) as (rest & R1 & R2 & R3 & R4).
  exists rest. split; [eapply perm_trans; [exact P|exact R1]|]. split; [rewrite (Permutation_length P); exact R2|]. auto.
Qed.
End HP.
