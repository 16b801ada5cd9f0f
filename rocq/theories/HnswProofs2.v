From Coq Require Import String List Arith ZArith Bool Lia Permutation Sorted.
From Coq Require Import Floats.SpecFloat.
From Verif Require Import Base Floats64 TopK HeapModel HeapProofs HnswModel HnswSpec HnswSearchProofs HnswProofs.
Import ListNotations.
Local Notation item := (float * string)%type.

Section HP2.
Context {vec : Type}.
Variable dist : vec -> vec -> float.
Variable keep : vec -> vec.

(** *** small indexes are connected at layer 0 *)
Lemma link_len ns x n lc l : wf (vec:=vec) ns -> get ns x = Some n -> layer_of n lc = Some l -> length l + 1 <= length ns.
Proof.
  intros W G L. destruct (w_links ns W x n lc l G L) as (A1 & A2 & A3).
  assert (H : length (x :: l) <= length (ids_of ns)).
  { apply NoDup_incl_length; [constructor; auto|]. intros y [<-|Hy]; [eapply get_some_in; eauto|auto]. }
  rewrite length_ids in H. cbn in H. lia.
Qed.
Lemma layer0 ns x n : wf (vec:=vec) ns -> get ns x = Some n -> exists l, layer_of n 0 = Some l.
Proof. intros W G. pose proof (w_layers ns W x n G). unfold layer_of. destruct (n_nbrs n); [congruence|]. cbn. eauto. Qed.

Definition grows0 (P : string -> Prop) (ns ns' : nodes vec) : Prop :=
  forall x n l, P x -> get ns x = Some n -> layer_of n 0 = Some l -> exists n' l', get ns' x = Some n' /\ layer_of n' 0 = Some l' /\ incl l l'.
Lemma grows0_trans P a b c : grows0 P a b -> grows0 P b c -> grows0 P a c.
Proof.
  intros H1 H2 x n l Px G L. destruct (H1 x n l Px G L) as (n1 & l1 & G1 & L1 & I1). destruct (H2 x n1 l1 Px G1 L1) as (n2 & l2 & G2 & L2 & I2).
  exists n2, l2. split; auto. split; auto. eapply incl_tran; eauto.
Qed.
Lemma grows0_refl P ns : grows0 P ns ns.
Proof. intros x n l _ G L. exists n, l. split; auto. split; auto. apply incl_refl. Qed.
Lemma grows0_frame P lc ns ns' : lc <> 0 -> frame lc ns ns' -> grows0 P ns ns'.
Proof.
  intros N [_ F] x n l _ G L. destruct (F x n G) as (n' & G' & _ & H). exists n', l. split; auto. split; [rewrite H; auto|apply incl_refl].
Qed.

Lemma back_small M ns nb id : wf ns -> In id (ids_of ns) -> In nb (ids_of ns) -> nb <> id -> length ns <= 2 * M + 1 ->
  exists ns', back_step dist true M ns nb id 0 = Ok ns' /\ wf ns' /\ frame 0 ns ns' /\ grows0 (fun _ => True) ns ns' /\
    exists n l, get ns' nb = Some n /\ layer_of n 0 = Some l /\ In id l.
Proof.
  intros W Hid Hnb Hne Hl. destruct (add_ok ns nb id 0 W Hid Hne) as (W1 & F1 & H1). unfold back_step, prune_node.
  set (ns1 := add_connection ns nb id 0) in *.
  assert (Hnb1 : In nb (ids_of ns1)) by (rewrite (frame_ids 0 ns ns1 F1); auto).
  destruct (in_get ns1 nb Hnb1) as [n G]. rewrite G. destruct (layer0 ns1 nb n W1 G) as [l L]. rewrite L.
  assert (Ln : length ns1 = length ns) by (rewrite <- !length_ids, (frame_ids 0 ns ns1 F1); auto).
  pose proof (link_len ns1 nb n 0 l W1 G L). cbn [cap]. destruct (Nat.leb_spec (length l) (2 * M)); [|lia].
  exists ns1. split; auto. split; auto. split; auto. split.
  - intros x m lx _ Gx Lx. destruct F1 as [_ F1]. destruct (F1 x m Gx) as (m1 & Gm1 & _ & _). destruct (layer0 ns1 x m1 W1 Gm1) as [l1 L1].
    destruct (H1 x m1 l1 Gm1 L1) as (m0 & l0 & G0 & L0 & I0 & _). rewrite Gx in G0. injection G0 as <-. rewrite Lx in L0. injection L0 as <-. eauto.
  - exists n, l. split; auto. split; auto. destruct (H1 nb n l G L) as (m0 & l0 & _ & _ & _ & _ & Hi & _). auto.
Qed.
Lemma link_back_small M id nbs : forall ns ns', wf ns -> In id (ids_of ns) -> (forall x, In x nbs -> In x (ids_of ns) /\ x <> id) -> length ns <= 2 * M + 1 ->
  link_back dist true M ns id nbs 0 = Ok ns' -> grows0 (fun _ => True) ns ns' /\
  forall nb, In nb nbs -> exists n l, get ns' nb = Some n /\ layer_of n 0 = Some l /\ In id l.
Proof.
  induction nbs as [|nb nbs IH]; intros ns ns' W Hid H Hl E.
  - cbn in E. injection E as <-. split; [apply grows0_refl|intros ? []].
  - rewrite link_back_unfold in E. destruct (H nb (or_introl eq_refl)) as [Hnb Hne].
    destruct (back_small M ns nb id W Hid Hnb Hne Hl) as (ns1 & E1 & W1 & F1 & G1 & n & l & Gn & Ln & Hi). rewrite E1 in E.
    pose proof (frame_ids 0 ns ns1 F1) as Ids.
    destruct (IH ns1 ns') as [A1 A2]; auto.
    + rewrite Ids; auto.
    + intros x Hx. rewrite Ids. apply H; right; auto.
    + rewrite <- length_ids, Ids, length_ids; auto.
    + split; [eapply grows0_trans; eauto|]. intros x [<-|Hx]; auto. destruct (A1 nb n l I Gn Ln) as (n' & l' & G' & L' & I'). exists n', l'. auto.
Qed.

Lemma link_layers_small M efc id v lc : 1 <= M -> forall ns cur ns', wf ns -> In id (ids_of ns) -> fresh ns id (fun l => l <= lc) ->
  NoDup cur -> cur <> [] -> (forall x, In x cur -> In x (ids_of ns) /\ x <> id) -> length ns <= 2 * M + 1 ->
  link_layers dist true M efc ns id v cur lc = Ok ns' ->
  grows0 (fun x => x <> id) ns ns' /\
  exists nb n1 l1 n2 l2, In nb (ids_of ns) /\ nb <> id /\ get ns' id = Some n1 /\ layer_of n1 0 = Some l1 /\ In nb l1 /\
    get ns' nb = Some n2 /\ layer_of n2 0 = Some l2 /\ In id l2.
Proof.
  intros HM. induction lc as [|lc IH]; intros ns cur ns' W Hid Fr ND NE HS Hl E; cbn [link_layers] in E.
  - destruct (link_layer_ok dist true M efc ns id v cur 0 W Hid Fr ND HS) as (ns1 & nbs & E1 & W1 & F1 & _ & N1 & N2 & _ & N3 & LB).
    rewrite E1 in E. injection E as <-. specialize (N3 NE HM).
    set (nsa := upd ns id (set_layer 0 nbs)) in *.
    assert (Wa : wf nsa). { apply set_wf; auto. split; auto. split; [intros H; destruct (N2 id H); congruence|intros x Hx; apply N2; auto]. }
    destruct (link_back_small M id nbs nsa ns1) as [A1 A2]; auto.
    { unfold nsa; rewrite ids_upd; auto. }
    { intros x Hx. unfold nsa. rewrite ids_upd; auto. }
    { unfold nsa, upd. rewrite map_length. auto. }
    split.
    + intros x n l Nx G L. apply (A1 x n l I); auto. unfold nsa. rewrite get_upd. destruct (String.eqb_spec id x); [congruence|auto].
    + destruct nbs as [|nb nbs0]; [congruence|]. destruct (N2 nb (or_introl eq_refl)) as [Hnb Hne].
      destruct (A2 nb (or_introl eq_refl)) as (n2 & l2 & G2 & L2 & I2).
      destruct (in_get ns id Hid) as [n0 G0]. pose proof (w_layers ns W id n0 G0) as NL.
      destruct (A1 id (set_layer 0 (nb :: nbs0) n0) (nb :: nbs0) I) as (n1 & l1 & G1 & L1 & I1).
      { unfold nsa. rewrite get_upd, String.eqb_refl, G0. auto. }
      { rewrite layer_set. cbn. destruct (n_nbrs n0); [congruence|auto]. }
      exists nb, n1, l1, n2, l2. repeat (split; auto). apply I1. left; auto.
  - destruct (link_layer_ok dist true M efc ns id v cur (S lc) W Hid Fr ND HS) as (ns1 & nbs & E1 & W1 & F1 & _ & N1 & N2 & _ & N3 & LB).
    rewrite E1 in E. specialize (N3 NE HM). pose proof (frame_ids _ ns ns1 F1) as Ids.
    destruct (IH ns1 nbs ns') as [A1 A2]; auto.
    + rewrite Ids; auto.
    + pose proof (fresh_frame ns ns1 id _ F1 Fr) as Fr1. intros x n l' l HP. apply Fr1. lia.
    + intros x Hx. rewrite Ids. auto.
    + rewrite <- length_ids, Ids, length_ids; auto.
    + rewrite Ids in A2. split; auto. eapply grows0_trans; [eapply grows0_frame; [|exact F1]; lia|exact A1].
Qed.

Lemma insert_connected h id v lvl h' : Good h -> ~ In id (ids_of (h_nodes h)) -> 1 <= h_M h -> length (h_nodes h') <= 2 * h_M h + 1 ->
  (h_nodes h <> [] -> h_entry h <> ""%string) -> connected0 (h_nodes h) -> insert_node dist keep true h id v lvl = Ok h' -> connected0 (h_nodes h').
Proof.
  intros (W & EO & ES) Hid HM Hl HE HC E. destruct (insert_ok dist keep true h id v lvl W EO Hid) as (h1 & E1 & W1 & _ & P1 & _).
  rewrite E in E1. injection E1 as <-.
  unfold insert_node in E. set (n := Node (keep v) (repeat [] (S lvl)) false) in *. set (ns := h_nodes h ++ [(id, n)]) in *.
  assert (L : forall lc l, layer_of n lc = Some l -> l = []) by (intros lc l H; apply (repeat_layer _ _ _ H)).
  assert (Wn : wf ns) by (apply new_wf; auto; discriminate).
  assert (Len : length ns <= 2 * h_M h + 1).
  { unfold ns. rewrite app_length. cbn [length]. rewrite <- length_ids in Hl. rewrite ids_proj, P1, map_length, app_length in Hl. cbn [length] in Hl.
    unfold proj in Hl. rewrite map_length in Hl. lia. }
  destruct (String.eqb_spec (h_entry h) "") as [E0|N0].
  - injection E as <-. cbn [h_nodes]. assert (Hn : h_nodes h = []) by (destruct (h_nodes h); auto; exfalso; apply HE; [discriminate|auto]).
    subst ns. rewrite Hn. cbn. intros S _ x y Sx [<-|[]] [<-|[]]. auto.
  - pose proof (EO N0) as EO'. assert (Ne : h_entry h <> id) by (intros E0; rewrite E0 in EO'; auto).
    destruct (get ns (h_entry h)) as [e|]; [|discriminate].
    assert (Fr : fresh ns id (fun _ => True)) by (apply new_fresh; auto).
    assert (Hidn : In id (ids_of ns)) by (unfold ns; rewrite ids_app; apply in_or_app; right; left; auto).
    destruct (descend_ok dist ns v (n_level e) lvl (fun x => In x (ids_of ns) /\ x <> id) [h_entry h]) as (cur & E1 & N1 & N2 & N3).
    { intros l. apply (fresh_closed ns id (fun _ => True)); auto. }
    { repeat constructor. intros []. }
    { discriminate. }
    { intros x [<-|[]]. split; auto. unfold ns. rewrite ids_app. apply in_or_app; auto. }
    rewrite E1 in E. destruct (link_layers dist true (h_M h) (h_efc h) ns id v cur lvl) as [ns'| |] eqn:E2; try discriminate. injection E as <-.
    cbn [h_nodes] in *.
    destruct (link_layers_small (h_M h) (h_efc h) id v lvl HM ns cur ns' Wn Hidn) as [GR (nb & n1 & l1 & n2 & l2 & B1 & B2 & B3 & B4 & B5 & B6 & B7 & B8)]; auto.
    { intros x m lc l _. apply Fr. exact I. }
    assert (Ids : forall x, In x (ids_of ns') <-> In x (ids_of (h_nodes h)) \/ x = id).
    { intros x. rewrite !ids_proj, P1, map_app, in_app_iff. cbn. intuition. }
    assert (Hnb0 : In nb (ids_of (h_nodes h))). { unfold ns in B1. rewrite ids_app in B1. apply in_app_or in B1 as [B1|[B1|[]]]; [auto|congruence]. }
    intros S HS.
    assert (HSo : closed (h_nodes h) 0 (fun x => S x /\ In x (ids_of (h_nodes h)))).
    { intros x [Sx Hx]. destruct (in_get _ _ Hx) as [m G]. exists m. split; auto. intros l Ll y Hy. split; [|apply (w_links _ W x m 0 l G Ll); auto].
      assert (Nx : x <> id) by (intros ->; auto).
      destruct (GR x m l Nx) as (m' & l' & G' & L' & I'); [unfold ns; rewrite get_app by auto; destruct (String.eqb_spec id x); congruence|auto|].
      destruct (HS x Sx) as (m2 & G2 & H2). rewrite G' in G2. injection G2 as <-. apply (H2 l' L'). auto. }
    assert (Old : forall x, S x -> In x (ids_of (h_nodes h)) -> forall y, In y (ids_of (h_nodes h)) -> S y).
    { intros x Sx Hx y Hy. apply (HC _ HSo x y); auto. }
    assert (ToNew : forall x, S x -> In x (ids_of (h_nodes h)) -> S id).
    { intros x Sx Hx. pose proof (Old x Sx Hx nb Hnb0) as Sn. destruct (HS nb Sn) as (m2 & G2 & H2). rewrite B6 in G2. injection G2 as <-. apply (H2 l2 B7). auto. }
    assert (FromNew : S id -> S nb).
    { intros Sn. destruct (HS id Sn) as (m2 & G2 & H2). rewrite B3 in G2. injection G2 as <-. apply (H2 l1 B4). auto. }
    intros x y Sx Hx Hy. apply Ids in Hx. apply Ids in Hy.
    assert (Sold : exists z, S z /\ In z (ids_of (h_nodes h))). { destruct Hx as [Hx| ->]; eauto. }
    destruct Sold as (z & Sz & Hz). destruct Hy as [Hy| ->]; eauto.
Qed.

(** Conditional invariant: while the index stays small and no id is empty, layer 0
    is connected. *)
Definition Small (h : hnsw vec) : Prop :=
  1 <= h_M h -> length (h_nodes h) <= 2 * h_M h + 1 -> ~ In ""%string (ids_of (h_nodes h)) -> connected0 (h_nodes h).

Lemma insert_small h id v lvl h' : Good h -> Small h -> ~ In id (ids_of (h_nodes h)) -> insert_node dist keep true h id v lvl = Ok h' -> Small h'.
Proof.
  intros G Sm Hid E HM Hl Nm. pose proof G as (W & EO & ES).
  destruct (insert_ok dist keep true h id v lvl W EO Hid) as (h1 & E1 & W1 & _ & P1 & M1 & _). rewrite E in E1. injection E1 as <-.
  assert (Len : length (h_nodes h') = length (h_nodes h) + 1). { rewrite <- !length_ids, !ids_proj, P1, map_app, app_length. auto. }
  assert (Nm0 : ~ In ""%string (ids_of (h_nodes h))). { intros H. apply Nm. rewrite ids_proj, P1, map_app, <- ids_proj. apply in_or_app; auto. }
  rewrite M1 in *. apply (insert_connected h id v lvl h'); auto. apply Sm; auto. lia.
Qed.
Lemma insert_all_small vs : forall h h', Good h -> Small h -> insert_all dist keep true h vs = Ok h' -> Small h'.
Proof.
  induction vs as [|[[id v] lvl] vs IH]; intros h h' G Sm E; cbn [insert_all] in E; [injection E as <-; auto|].
  destruct (get (h_nodes h) id) eqn:Gi; [exact (IH h h' G Sm E)|]. pose proof (proj1 (get_none _ _) Gi) as Ni.
  destruct (step_good dist keep h (HInsert id v lvl) G) as (h1 & Ec & G1 & _).
  cbn [hstep] in Ec. unfold hnsw_insert in Ec. rewrite Gi in Ec.
  destruct (insert_node dist keep true h id v lvl) as [h2| |] eqn:E1; try discriminate.
  destruct Ec as [[= <-]|[[e Ec] _]]; [|discriminate]. eapply IH; [exact G1| |exact E]. exact (insert_small h id v lvl h2 G Sm Ni E1).
Qed.
Lemma step_small h o h' : Good h -> Small h -> seq_op o -> hstep dist keep h o = Ok h' -> Small h'.
Proof.
  intros G Sm So E. destruct o as [id v lvl|vs|vs w|id ch]; cbn [hstep] in E.
  - unfold hnsw_insert in E. destruct (get (h_nodes h) id) eqn:Gi; [discriminate|]. apply (insert_small h id v lvl h'); auto. apply get_none; auto.
  - exact (insert_all_small vs h h' G Sm E).
  - cbn in So. unfold insert_parallel in E. destruct (Nat.leb_spec w 1); [|lia]. exact (insert_all_small vs h h' G Sm E).
  - unfold hnsw_delete in E. destruct (get (h_nodes h) id) eqn:Gi; [|discriminate]. injection E as <-. intros HM Hl Nm. cbn [h_nodes h_M] in *.
    rewrite ids_upd in *. unfold upd in Hl. rewrite map_length in Hl. specialize (Sm HM Hl Nm). intros S HS x y Sx Hx Hy. rewrite ids_upd in *.
    apply (Sm S) with x; auto. intros z Sz. destruct (HS z Sz) as (m & Gm & Hm). rewrite get_upd in Gm. destruct (String.eqb id z); [|eauto].
    destruct (get (h_nodes h) z) as [m0|]; [|discriminate]. injection Gm as <-. exists m0. split; auto.
Qed.
Lemma run_small ops : forall h h', Good h -> Small h -> Forall seq_op ops -> hrun dist keep h ops = Ok h' -> Small h'.
Proof.
  induction ops as [|o ops IH]; intros h h' G Sm F E; cbn [hrun] in E; [injection E as <-; auto|]. inversion F; subst.
  destruct (step_good dist keep h o G) as (h1 & Ec & G1 & _).
  destruct (hstep dist keep h o) as [h2| |] eqn:E1; try discriminate.
  - destruct Ec as [[= <-]|[[e Ec] _]]; [|discriminate]. eapply IH; [exact G1| | |exact E]; auto. exact (step_small h o h2 G Sm H1 E1).
  - destruct Ec as [Ec|[_ ->]]; [discriminate|]. exact (IH h h' G Sm H2 E).
Qed.
Lemma new_small M efc : Small (new_hnsw M efc).
Proof. intros _ _ _ S _ x y _ []. Qed.

Lemma seq_forall ops : sequential (vec:=vec) ops -> Forall seq_op ops.
Proof. intros H. apply Forall_forall. intros o Ho. destruct o; cbn; auto. eapply H; eauto. Qed.

Lemma small_exact_lemma M efc ops h q k ef : 1 <= M -> sequential ops -> hrun dist keep (new_hnsw M efc) ops = Ok h ->
  length (contents keep ops) <= 2 * M + 1 -> ~ In ""%string (map fst (contents keep ops)) -> (0 <= k)%Z -> length (contents keep ops) <= ef ->
  (forall id v b, In (id, (v, b)) (contents keep ops) -> not_nan (dist q v)) ->
  exists out, hnsw_search dist h q k ef = Ok out /\ is_topk nearer (Z.to_nat k) (with_distance dist q (live (contents keep ops))) out.
Proof.
  intros HM Sq E Hl Nm Hk Hef HN. destruct (run_new dist keep M efc ops h E) as (G & P & Mh & _ & _).
  pose proof (run_small ops _ _ (new_good M efc) (new_small M efc) (seq_forall _ Sq) E) as Sm.
  assert (Len : length (h_nodes h) = length (contents keep ops)) by (rewrite <- P; unfold proj; rewrite map_length; auto).
  assert (Nm' : ~ In ""%string (ids_of (h_nodes h))) by (rewrite ids_proj, P; auto).
  rewrite <- P. apply search_exact_lemma; auto.
  - apply Sm; rewrite ?Mh; auto; lia.
  - intros NE. destruct G as (_ & _ & ES). auto.
  - lia.
  - intros x n Gx. apply proj_get in Gx. rewrite P in Gx. eauto.
Qed.

(** *** answers stay inside a closed set of nodes *)
Lemma search_in_closed h q k ef S out : Good h -> (forall lc, closed (h_nodes h) lc S) -> (h_entry h <> ""%string -> S (h_entry h)) ->
  hnsw_search dist h q k ef = Ok out -> forall d x, In (d, x) out -> S x.
Proof.
  intros G HC HS E d x Hx. destruct (Z.ltb_spec k 0) as [Hk|Hk].
  - unfold hnsw_search in E. destruct (String.eqb (h_entry h) ""); [injection E as <-; destruct Hx|].
    destruct (get _ _); [|discriminate]. destruct (descend _ _ _ _ _ _); try discriminate. destruct (search_layer _ _ _ _ _ _); try discriminate.
    rewrite (proj2 (Z.ltb_lt k 0) Hk) in E. discriminate.
  - destruct (search_shape dist h q k ef S G HC HS Hk) as (cands & _ & H1 & E1 & _). rewrite E in E1. injection E1 as ->.
    apply in_firstn in Hx. apply (Permutation_in _ (Permutation_sym (ex_sort_perm _ _))) in Hx. apply alive_pairs_in in Hx as [Hx _]. auto.
Qed.

(** *** bulk-parallel insertion leaves separate pieces *)
Lemma merge_get_first gs : forall ns g x, NoDup (concat (map (fun g => ids_of (h_nodes g)) gs)) -> In g gs -> In x (ids_of (h_nodes g)) ->
  ~ In x (ids_of ns) -> get (merge_nodes (vec:=vec) ns gs) x = get (h_nodes g) x.
Proof.
  induction gs as [|g0 gs IH]; intros ns g x ND Hg Hx Hn; [destruct Hg|]. cbn [map concat] in ND.
  change (merge_nodes ns (g0 :: gs)) with (merge_nodes (fold_left add_missing (h_nodes g0) ns) gs).
  assert (Keep : forall gs ns n, get ns x = Some n -> get (merge_nodes (vec:=vec) ns gs) x = Some n).
  { clear. induction gs as [|g gs IH]; intros ns n G; auto. change (merge_nodes ns (g :: gs)) with (merge_nodes (fold_left add_missing (h_nodes g) ns) gs).
    apply IH. rewrite merge_get, G. auto. }
  assert (Gn : get ns x = None) by (apply get_none; auto).
  destruct Hg as [->|Hg].
  - destruct (in_get _ _ Hx) as [n G]. rewrite G. apply Keep. rewrite merge_get, Gn. auto.
  - apply IH; auto; [eapply NoDup_app_r; eauto|]. rewrite merge_ids. intros [H|H]; auto.
    apply (NoDup_app_disj _ _ ND x H). apply in_concat. exists (ids_of (h_nodes g)). split; auto. apply in_map_iff. eauto.
Qed.
Lemma merge_get_old gs : forall ns x n, get ns x = Some n -> get (merge_nodes (vec:=vec) ns gs) x = Some n.
Proof.
  induction gs as [|g gs IH]; intros ns x n G; auto. change (merge_nodes ns (g :: gs)) with (merge_nodes (fold_left add_missing (h_nodes g) ns) gs).
  apply IH. rewrite merge_get, G. auto.
Qed.
Lemma c_ids_nodup (l : list (string * vec)) : forall c, NoDup (map fst c ++ map fst l) -> map fst (fold_left (c_insert keep) l c) = map fst c ++ map fst l.
Proof.
  induction l as [|x l IH]; intros c ND; cbn [fold_left map]; [rewrite app_nil_r; auto|].
  assert (Hc : c_has c (fst x) = false).
  { destruct (c_has c (fst x)) eqn:E; auto. apply has_ids in E. exfalso. apply (NoDup_app_disj _ _ ND (fst x) E). left; auto. }
  unfold c_insert at 2. rewrite Hc. rewrite IH; rewrite map_app; cbn; rewrite <- app_assoc; auto.
Qed.

Lemma parallel_pieces h vs w h' : Good h -> 2 <= w -> 10 <= length vs / w ->
  NoDup (map (fun v => fst (fst v)) vs) -> (forall id, In id (map (fun v => fst (fst v)) vs) -> ~ In id (ids_of (h_nodes h))) ->
  insert_parallel dist keep h vs w = Ok h' ->
  exists piece : string -> Prop,
    ((forall x, piece x <-> In x (ids_of (h_nodes h))) \/
     exists c, In c (chunks w (length vs / w) vs) /\ forall x, piece x <-> In x (map (fun v => fst (fst v)) c)) /\
    forall q k ef out, hnsw_search dist h' q k ef = Ok out -> forall d x, In (d, x) out -> piece x.
Proof.
  intros G Hw Hs ND Dj E. destruct (parallel_ok dist keep h vs w G) as (h1 & E1 & G1 & _). rewrite E in E1. injection E1 as <-.
  unfold insert_parallel in E. destruct (Nat.leb_spec w 1); [lia|]. destruct (Nat.ltb_spec (length vs / w) 10); [lia|].
  destruct (build_all_ok dist keep (h_M h) (h_efc h) (chunks w (length vs / w) vs)) as (gs & Eb & F & P). rewrite Eb in E. injection E as <-.
  pose proof G as (W & EO & _). set (cs := chunks w (length vs / w) vs) in *.
  pose proof (chunks_concat w (length vs / w) vs ltac:(lia)) as Cc. fold cs in Cc.
  assert (NDcs : NoDup (concat (map (map (fun v : string * vec * nat => fst (fst v))) cs))) by (rewrite <- concat_map, Cc; auto).
  assert (Idg : map (fun g => ids_of (h_nodes g)) gs = map (map (fun v : string * vec * nat => fst (fst v))) cs).
  { replace (map (fun g => ids_of (h_nodes g)) gs) with (map (map fst) (map (fun g => proj (h_nodes g)) gs)) by (rewrite map_map; apply map_ext; intros g; symmetry; apply ids_proj).
    rewrite P, map_map. apply map_ext_in. intros c Hc. assert (NDc : NoDup (map (fun v : string * vec * nat => fst (fst v)) c)).
    { clear -Hc NDcs. induction cs as [|a cs IH]; [destruct Hc|]. cbn in NDcs. destruct Hc as [->|Hc]; [eapply NoDup_app_l; eauto|apply IH; auto; eapply NoDup_app_r; eauto]. }
    rewrite c_ids_nodup; cbn; rewrite map_map; auto. }
  destruct (merge_nodes_ok gs (h_nodes h) F W) as (A1 & A2 & A3).
  destruct (fold_entry (merge_nodes (h_nodes h) gs) gs (h_entry h)) as [[B1|(g & Hg & B1 & B3)] _].
  - exists (fun x => In x (ids_of (h_nodes h))). split; [left; tauto|]. intros q k ef out E. eapply search_in_closed; [exact G1| | |exact E].
    + intros lc x Hx. destruct (in_get _ _ Hx) as [n Gn]. exists n. cbn [h_nodes]. split; [apply merge_get_old; auto|].
      intros l L y Hy. apply (w_links _ W x n lc l Gn L). auto.
    + cbn [h_entry]. rewrite B1. apply EO.
  - pose proof (proj1 (Forall_forall _ _) F g Hg) as (Wg & EOg & _).
    exists (fun x => In x (ids_of (h_nodes g))). split.
    + right. assert (Hi : In (ids_of (h_nodes g)) (map (fun g => ids_of (h_nodes g)) gs)) by (apply in_map_iff; eauto).
      rewrite Idg in Hi. apply in_map_iff in Hi as (c & Ec & Hc). exists c. split; auto. intros x. rewrite Ec. tauto.
    + assert (Dg : forall x, In x (ids_of (h_nodes g)) -> ~ In x (ids_of (h_nodes h))).
      { intros x Hx. apply Dj. rewrite <- Cc, concat_map, <- Idg. apply in_concat. exists (ids_of (h_nodes g)). split; auto. apply in_map_iff; eauto. }
      intros q k ef out E. eapply search_in_closed; [exact G1| | |exact E].
      * intros lc x Hx. destruct (in_get _ _ Hx) as [n Gn]. exists n. cbn [h_nodes]. split.
        -- rewrite (merge_get_first gs (h_nodes h) g x); auto. rewrite Idg; auto.
        -- intros l L y Hy. apply (w_links _ Wg x n lc l Gn L). auto.
      * cbn [h_entry]. rewrite B1. auto.
Qed.

(** *** selectNeighborsHeuristic keeps the nearest *)
Lemma pairs_dist ns q cands ps : ~ In "query"%string cands -> pairs_of dist ns q cands = Ok ps ->
  map snd ps = cands /\ forall d c, In (d, c) ps -> Dof dist ns q c = Some d.
Proof.
  revert ps. induction cands as [|c cs IH]; intros ps H E; cbn in E; [injection E as <-; split; auto; intros ? ? []|].
  destruct (String.eqb_spec c "query") as [->|N]; [exfalso; apply H; left; auto|].
  destruct (get ns c) as [n|] eqn:G; [|discriminate]. destruct (pairs_of dist ns q cs) as [ps0| |] eqn:E0; try discriminate. injection E as <-.
  destruct (IH ps0) as [M D]; auto; [intros Hq; apply H; right; auto|]. cbn. split; [congruence|]. intros d x [Ex|Hx]; [|auto].
  injection Ex as <- <-. unfold Dof. rewrite G. auto.
Qed.
Lemma less_item_weak (l : list item) : (forall d x, In (d, x) l -> not_nan d) -> weak_order_on less_item l.
Proof. intros H. apply (weak_order_asc fst). intros [d x] Hx. cbn. eauto. Qed.
Lemma select_nearest_lemma ns q cands m r : ~ In "query"%string cands -> (forall x, In x cands -> In x (ids_of ns)) -> m < length cands ->
  (forall x d, In x cands -> Dof dist ns q x = Some d -> not_nan d) -> select_neighbors dist ns q cands m = Ok r ->
  exists all out, map snd all = cands /\ (forall d x, In (d, x) all -> Dof dist ns q x = Some d) /\ is_topk nearer m all out /\ r = map snd out.
Proof.
  intros Nq Hin Hm HN E. unfold select_neighbors in E. destruct (Nat.leb_spec (length cands) m); [lia|].
  destruct (pairs_of dist ns q cands) as [ps| |] eqn:E0; try discriminate. injection E as <-.
  destruct (pairs_dist ns q cands ps Nq E0) as [Mp Dp]. exists ps, (firstn m (ex_sort less_item ps)). split; auto. split; auto. split.
  - apply topk_of_sort; [apply ex_sort_ok|]. apply less_item_weak. intros d x Hx. apply (HN x); auto. rewrite <- Mp. apply in_map_iff. exists (d, x). auto.
  - rewrite firstn_map. auto.
Qed.
End HP2.

Section HP3.
Context {vec : Type}.
Variable dist : vec -> vec -> float.
Variable keep : vec -> vec.

Lemma links_in h x lc y : In y (links (vec:=vec) h x lc) -> exists n l, get (h_nodes h) x = Some n /\ layer_of n lc = Some l /\ In y l /\ links h x lc = l.
Proof.
  unfold links. destruct (get (h_nodes h) x) as [n|]; [|intros []]. intros H. destruct (nth_error (n_nbrs n) lc) as [l|] eqn:E.
  - rewrite (nth_error_nth _ _ _ E) in *. exists n, l. auto.
  - apply nth_error_None in E. rewrite nth_overflow in H by auto. destruct H.
Qed.
Lemma links_cases h x lc : links (vec:=vec) h x lc = [] \/ exists n l, get (h_nodes h) x = Some n /\ layer_of n lc = Some l /\ links h x lc = l.
Proof. destruct (links h x lc) as [|y l] eqn:E; auto. right. destruct (links_in h x lc y) as (n & l' & A & B & _ & C); [rewrite E; left; auto|]. exists n, l'. rewrite <- E. auto. Qed.

Lemma links_lemma M efc ops h : hrun dist keep (new_hnsw M efc) ops = Ok h ->
  (forall id, known h id <-> In id (map fst (contents keep ops))) /\
  (forall x lc y, In y (links h x lc) -> known h y /\ y <> x) /\
  (forall x lc, NoDup (links h x lc)) /\
  (h_entry h <> ""%string -> known h (h_entry h)).
Proof.
  intros E. destruct (run_new dist keep M efc ops h E) as ((W & EO & _) & P & _). split; [|split; [|split]].
  - intros id. unfold known. fold (ids_of (h_nodes h)). rewrite ids_proj, P. tauto.
  - intros x lc y Hy. apply links_in in Hy as (n & l & G & L & Hy & _). destruct (w_links _ W x n lc l G L) as (A1 & A2 & A3).
    split; [apply A3; auto|congruence].
  - intros x lc. destruct (links_cases h x lc) as [->|(n & l & G & L & ->)]; [constructor|]. apply (w_links _ W x n lc l G L).
  - apply EO.
Qed.
Lemma caps_lemma M efc ops h : sequential ops -> hrun dist keep (new_hnsw M efc) ops = Ok h ->
  forall x lc, length (links h x lc) <= (if Nat.eqb lc 0 then 2 * M else M).
Proof.
  intros Sq E x lc. destruct (run_new dist keep M efc ops h E) as (_ & _ & _ & _ & C). specialize (C (seq_forall _ Sq)).
  destruct (links_cases h x lc) as [->|(n & l & G & L & ->)]; [cbn; lia|]. specialize (C x n lc l G L). destruct lc; cbn in *; lia.
Qed.
Lemma entry_lemma M efc ops h : hrun dist keep (new_hnsw M efc) ops = Ok h ->
  ~ In ""%string (map fst (contents keep ops)) -> contents keep ops <> [] -> h_entry h <> ""%string /\ known h (h_entry h).
Proof.
  intros E Nm NE. destruct (run_new dist keep M efc ops h E) as ((W & EO & ES) & P & _).
  assert (H : h_entry h <> ""%string). { apply ES; [rewrite ids_proj, P; auto|]. intros E0. apply NE. rewrite <- P, E0. auto. }
  split; auto. apply EO; auto.
Qed.

Lemma c_keeps l : forall c x, In x (map fst c) -> In x (map fst (fold_left (c_insert keep) l c)).
Proof.
  induction l as [|y l IH]; intros c x H; cbn; auto. apply IH. unfold c_insert. destruct (c_has c (fst y)); auto.
  rewrite map_app. apply in_or_app; auto.
Qed.
Lemma c_adds l : forall c x, In x (map fst l) -> In x (map fst (fold_left (c_insert keep) l c)).
Proof.
  induction l as [|y l IH]; intros c x H; cbn in *; [destruct H|]. destruct H as [<-|H]; auto. apply c_keeps. unfold c_insert.
  destruct (c_has c (fst y)) eqn:E; [apply has_ids; auto|]. rewrite map_app. apply in_or_app; right; left; auto.
Qed.
Lemma contents_app a b : contents keep (a ++ b) = fold_left (c_step keep) b (contents keep a).
Proof. unfold contents. apply fold_left_app. Qed.

Lemma bulk_stores_lemma M efc ops vs w h :
  hrun dist keep (new_hnsw M efc) (ops ++ [HParallel vs w]) = Ok h -> forall id v lvl, In (id, v, lvl) vs -> known h id.
Proof.
  intros E id v lvl Hin. destruct (links_lemma M efc _ h E) as (K & _). apply K. rewrite contents_app. cbn. apply c_adds.
  rewrite map_map. apply in_map_iff. exists (id, v, lvl). auto.
Qed.

Lemma hrun_app a : forall h b, hrun dist keep h (a ++ b) = match hrun dist keep h a with Ok h' => hrun dist keep h' b | Err e => Err e | Panic => Panic end.
Proof. induction a as [|o a IH]; intros h b; cbn; auto. destruct (hstep dist keep h o); auto. Qed.

Lemma disconnected_lemma M efc ops vs w h :
  2 <= w -> 10 <= length vs / w -> NoDup (map (fun v => fst (fst v)) vs) ->
  (forall id, In id (map (fun v => fst (fst v)) vs) -> ~ In id (map fst (contents keep ops))) ->
  hrun dist keep (new_hnsw M efc) (ops ++ [HParallel vs w]) = Ok h ->
  exists reach : string -> Prop,
    ((forall x, reach x <-> In x (map fst (contents keep ops))) \/
     exists part, In part (chunks w (length vs / w) vs) /\ forall x, reach x <-> In x (map (fun v => fst (fst v)) part)) /\
    forall q k ef out, hnsw_search dist h q k ef = Ok out -> forall d x, In (d, x) out -> reach x.
Proof.
  intros Hw Hs ND Dj E. rewrite hrun_app in E. destruct (hrun dist keep (new_hnsw M efc) ops) as [h0| |] eqn:E0; try discriminate.
  destruct (run_new dist keep M efc ops h0 E0) as (G & P & _). cbn [hrun hstep] in E.
  destruct (parallel_ok dist keep h0 vs w G) as (h1 & E1 & _). rewrite E1 in E. injection E as <-.
  assert (Ids : ids_of (h_nodes h0) = map fst (contents keep ops)) by (rewrite ids_proj, P; auto).
  rewrite <- Ids in *. apply (parallel_pieces dist keep h0 vs w); auto.
Qed.

Lemma chunks_len {A} w size : forall l : list A, 1 <= w -> w * size <= length l -> Forall (fun c => size <= length c) (chunks w size l).
Proof.
  induction w as [|w IH]; intros l Hw Hl; [lia|]. cbn [chunks]. destruct w as [|w].
  - constructor; auto. lia.
  - constructor; [rewrite firstn_length; lia|]. apply IH; [lia|]. rewrite skipn_length. lia.
Qed.
Lemma chunks_two {A} w size (l : list A) : 2 <= w -> exists a b r, chunks w size l = a :: b :: r.
Proof.
  intros H. destruct w as [|[|w]]; try lia. cbn [chunks]. destruct w as [|w]; cbn [chunks]; eauto.
Qed.
Lemma unfindable_lemma M efc vs w h :
  2 <= w -> 10 <= length vs / w -> NoDup (map (fun v => fst (fst v)) vs) ->
  hrun dist keep (new_hnsw M efc) [HParallel vs w] = Ok h ->
  exists id v lvl, In (id, v, lvl) vs /\ forall q k ef out, hnsw_search dist h q k ef = Ok out -> forall d, ~ In (d, id) out.
Proof.
  intros Hw Hs ND E. destruct (disconnected_lemma M efc [] vs w h Hw Hs ND) as (reach & HR & HA); auto.
  assert (Hlen : w * (length vs / w) <= length vs) by (apply Nat.mul_div_le; lia).
  pose proof (chunks_len w (length vs / w) vs ltac:(lia) Hlen) as CL.
  pose proof (chunks_concat w (length vs / w) vs ltac:(lia)) as CC.
  destruct (chunks_two w (length vs / w) vs Hw) as (a & b & r & Ec). rewrite Ec in *.
  pose proof (Forall_inv CL) as La. pose proof (Forall_inv (Forall_inv_tail CL)) as Lb. cbv beta in La, Lb.
  destruct a as [|[[ida va] la] a']; [cbn [length] in La; lia|]. destruct b as [|[[idb vb] lb] b']; [cbn [length] in Lb; lia|].
  assert (Ha : In (ida, va, la) vs) by (rewrite <- CC; cbn; auto).
  assert (Hb : In (idb, vb, lb) vs). { rewrite <- CC. cbn [concat]. apply in_or_app. right. left. auto. }
  assert (Out : exists id v lvl, In (id, v, lvl) vs /\ ~ reach id).
  { destruct HR as [HR|(part & Hp & HR)]; [exists ida, va, la; split; auto; rewrite HR; auto|].
    assert (NDc : NoDup (concat (map (map (fun v : string * vec * nat => fst (fst v))) (((ida, va, la) :: a') :: ((idb, vb, lb) :: b') :: r))))
      by (rewrite <- concat_map, CC; auto).
    destruct Hp as [<-|Hp].
    - exists idb, vb, lb. split; auto. rewrite HR. intros H. cbn [map concat] in NDc. apply (NoDup_app_disj _ _ NDc idb H). apply in_or_app; left; left; auto.
    - exists ida, va, la. split; auto. rewrite HR. intros H. cbn [map concat] in NDc. apply (NoDup_app_disj _ _ NDc ida); [left; auto|].
      change (In ida (concat (map (map (fun v : string * vec * nat => fst (fst v))) (((idb, vb, lb) :: b') :: r)))).
      rewrite <- concat_map. apply in_map_iff in H as (x & Ex & Hx). apply in_map_iff. exists x. split; auto. apply in_concat. eauto. }
  destruct Out as (id & v & lvl & Hin & Nr). exists id, v, lvl. split; auto. intros q k ef out Es d Hd. apply Nr. eapply HA; eauto.
Qed.

Lemma c_insert_get l : forall c x v, NoDup (map fst c ++ map fst l) -> In (x, v) l -> In (x, (keep v, false)) (fold_left (c_insert keep) l c).
Proof.
  assert (K : forall m c e, In e c -> In e (fold_left (c_insert keep) m c)).
  { clear l. induction m as [|y m IH]; intros c e H; cbn; auto. apply IH. unfold c_insert. destruct (c_has c (fst y)); auto. apply in_or_app; auto. }
  induction l as [|y l IH]; intros c x v ND H; [destruct H|]. cbn [fold_left].
  assert (Hc : c_has c (fst y) = false).
  { destruct (c_has c (fst y)) eqn:E; auto. apply has_ids in E. exfalso. apply (NoDup_app_disj _ _ ND (fst y) E). left; auto. }
  unfold c_insert at 2. rewrite Hc. destruct H as [->|H].
  - apply K. apply in_or_app; right; left; auto.
  - apply IH; auto. rewrite map_app. cbn. rewrite <- app_assoc. auto.
Qed.
Lemma c_insert_from l : forall c e, In e (fold_left (c_insert keep) l c) -> In e c \/ exists x, In x l /\ e = (fst x, (keep (snd x), false)).
Proof.
  induction l as [|y l IH]; intros c e H; cbn in H; auto. apply IH in H as [H|(x & Hx & ->)].
  - unfold c_insert in H. destruct (c_has c (fst y)); auto. apply in_app_or in H as [H|[<-|[]]]; auto. right. exists y. split; auto. left; auto.
  - right. exists x. split; auto. right; auto.
Qed.
Lemma small_bulk_lemma M efc vs w h q :
  1 <= M -> length vs <= 2 * M + 1 -> w <= 1 -> NoDup (map (fun v => fst (fst v)) vs) -> ~ In ""%string (map (fun v => fst (fst v)) vs) ->
  (forall x, In x vs -> not_nan (dist q (keep (snd (fst x))))) ->
  hrun dist keep (new_hnsw M efc) [HParallel vs w] = Ok h ->
  exists out, hnsw_search dist h q (Z.of_nat (length vs)) (length vs) = Ok out /\
    forall id v lvl, In (id, v, lvl) vs -> In (dist q (keep v), id) out.
Proof.
  intros HM Hl Hw ND Nm HN E.
  assert (Ids : map fst (contents keep [HParallel vs w]) = map (fun v => fst (fst v)) vs).
  { cbn. rewrite c_ids_nodup; cbn; rewrite map_map; auto. }
  assert (Len : length (contents keep [HParallel vs w]) = length vs) by (rewrite <- (map_length fst), Ids, map_length; auto).
  destruct (small_exact_lemma dist keep M efc [HParallel vs w] h q (Z.of_nat (length vs)) (length vs)) as (out & Eo & T); auto; try lia.
  - intros vs' w' [[= <- <-]|[]]. auto.
  - rewrite Ids. auto.
  - intros id v b H. cbn in H. apply c_insert_from in H as [[]|(x & Hx & [= -> -> _])]. apply in_map_iff in Hx as (y & <- & Hy). auto.
  - exists out. split; auto. intros id v lvl Hin.
    assert (Hc : In (id, (keep v, false)) (contents keep [HParallel vs w])).
    { cbn. apply c_insert_get; [cbn; rewrite map_map; auto|]. apply in_map_iff. exists (id, v, lvl). auto. }
    assert (Hw' : In (dist q (keep v), id) (with_distance dist q (live (contents keep [HParallel vs w])))).
    { unfold with_distance. apply in_map_iff. exists (id, keep v). split; auto. unfold live. apply in_map_iff. exists (id, (keep v, false)). split; auto.
      apply filter_In. auto. }
    destruct T as (rest & Pm & Lo & _). rewrite Nat2Z.id in Lo.
    assert (Lr : length (with_distance dist q (live (contents keep [HParallel vs w]))) <= length vs).
    { unfold with_distance, live. rewrite !map_length. rewrite <- Len. generalize (contents keep [HParallel vs w]). induction c as [|e c IH]; cbn; auto. destruct (negb _); cbn; lia. }
    pose proof (Permutation_length Pm) as PL. rewrite app_length in PL. assert (rest = []) by (destruct rest; auto; cbn [length] in PL; lia).
    subst. rewrite app_nil_r in Pm. eapply Permutation_in; eauto.
Qed.

Lemma local_optimum_lemma M efc ops h q k ef :
  hrun dist keep (new_hnsw M efc) ops = Ok h -> (0 <= k)%Z -> h_entry h <> ""%string ->
  (forall id v b, In (id, (v, b)) (contents keep ops) -> not_nan (dist q v)) ->
  exists visited out, hnsw_search dist h q k ef = Ok out /\ visited <> [] /\ NoDup visited /\
    is_topk nearer (Z.to_nat k)
      (with_distance dist q (filter (fun p => mem (fst p) visited) (live (contents keep ops)))) out /\
    forall x y vy by_, In x visited -> In y (links h x 0) -> In (y, (vy, by_)) (contents keep ops) ->
      In y visited \/
      (ef <= length visited /\ forall z vz bz, In z visited -> In (z, (vz, bz)) (contents keep ops) -> flt (dist q vy) (dist q vz) = false).
Proof.
  intros E Hk Hne HN. destruct (run_new dist keep M efc ops h E) as (G & P & _). pose proof G as (W & EO & _).
  destruct (search_shape dist h q k ef (fun x => In x (ids_of (h_nodes h))) G (fun lc => wf_closed _ lc W) EO Hk) as (cands & ND & HS & Es & HL).
  destruct (HL Hne) as (cur & C1 & C2 & C3 & C4).
  assert (Dc : forall z vz bz, In (z, (vz, bz)) (contents keep ops) -> Dof dist (h_nodes h) q z = Some (dist q vz)).
  { intros z vz bz Hz. rewrite <- P in Hz. unfold proj in Hz. apply in_map_iff in Hz as ([z' n] & [= -> <- <-] & Hz).
    unfold Dof. rewrite (in_get_eq _ _ _ (w_nodup _ W) Hz). auto. }
  assert (HD : forall x d, In x (ids_of (h_nodes h)) -> Dof dist (h_nodes h) q x = Some d -> not_nan d).
  { intros x d _ D. unfold Dof in D. destruct (get (h_nodes h) x) as [n|] eqn:Gx; [|discriminate]. injection D as <-.
    apply proj_get in Gx. rewrite P in Gx. eauto. }
  destruct (search_layer_local dist (h_nodes h) q cur ef 0 _ cands (wf_closed _ 0 W) C1 C3 HD C4) as [_ LO].
  destruct (search_layer_sound dist (h_nodes h) q cur ef 0 _ (wf_closed _ 0 W) C1 C3) as (cands' & E2 & _ & _ & NE & _).
  rewrite C4 in E2. injection E2 as <-.
  exists cands. eexists. split; [exact Es|]. split; [auto|]. split; auto. split.
  - assert (Pm : Permutation (alive_pairs dist (h_nodes h) q cands) (with_distance dist q (filter (fun p => mem (fst p) cands) (live (contents keep ops))))).
    { assert (NDl : NoDup (map fst (live (contents keep ops)))).
      { unfold live. rewrite map_map. cbn. rewrite <- P. clear -W. assert (H : NoDup (map fst (proj (h_nodes h)))) by (rewrite <- ids_proj; apply W).
        revert H. generalize (proj (h_nodes h)). induction l as [|e l IH]; cbn; intros H; [constructor|]. inversion H; subst.
        destruct (negb _); cbn; auto. constructor; auto. intros Hi. apply in_map_iff in Hi as (z & Ez & Hz). apply filter_In in Hz as [Hz _].
        apply H2. rewrite <- Ez. apply in_map; auto. }
      apply NoDup_Permutation.
      - pose proof (alive_pairs_nodup dist (h_nodes h) q cands ND) as H. eapply NoDup_map_inv; eauto.
      - apply NoDup_map_inv with (f := snd). unfold with_distance. rewrite map_map. cbn. apply NoDup_map_filter. auto.
      - intros [d x]. rewrite alive_pairs_in. unfold with_distance. rewrite in_map_iff. split.
        + intros (Hx & n & Gn & Dn & ->). exists (x, n_vec n). split; auto. apply filter_In. split; [|cbn; apply mem_In; auto].
          rewrite <- P. apply live_in; [apply W|eauto].
        + intros ([x' v] & [= <- <-] & Hf). apply filter_In in Hf as [Hf Hm]. cbn in Hm. apply mem_In in Hm. cbn. rewrite <- P in Hf.
          apply live_in in Hf as (n & Gn & Dn & ->); [|apply W]. split; auto. exists n. auto. }
    destruct (topk_of_sort nearer (ex_sort less_item) (Z.to_nat k) (alive_pairs dist (h_nodes h) q cands) (ex_sort_ok _)) as (rest & T1 & T2 & T3 & T4).
    { apply less_item_weak. intros d x Hx. apply alive_pairs_in in Hx as (_ & n & Gn & _ & ->). apply proj_get in Gn. rewrite P in Gn. eauto. }
    exists rest. split; [eapply Permutation_trans; [apply Permutation_sym; exact Pm|exact T1]|].
    rewrite <- (Permutation_length Pm). auto.
  - intros x y vy by_ Hx Hy Hc. apply links_in in Hy as (n & l & Gn & Ln & Hy & _).
    destruct (LO x n l y Hx Gn Ln Hy) as [H|[H1 H2]]; auto. right. split; auto. intros z vz bz Hz Hcz. eapply H2; eauto.
Qed.
End HP3.
