(** Theorems about the geographic index: C52, C53, C54 and what holds of them. *)
From Coq Require Import String List NArith ZArith Bool Lia Permutation Reals Lra Sorting.
From Coq Require Import Floats.SpecFloat.
From Flocq Require Import Core.Core.
From Verif Require Import Base Floats64 TopK FloatReal RangeProofs GeoModel GeoSpec GeoFloatProofs GeoProofs.
Import ListNotations.
Open Scope string_scope.
Open Scope list_scope.
Open Scope nat_scope.
From Coq Require Import ZifyBool ZifyNat ZifyN.

(** GetPoint and Size, and what Insert and Delete report, after any history. *)
Theorem geo_points_exact : forall wild ops,
  (forall id p, geo_get (geo_run wild ops) id = Some p <-> current ops p /\ gp_id p = id) /\
  (exists l, NoDup l /\ (forall p, In p l <-> current ops p) /\ NoDup (map gp_id l) /\ geo_size (geo_run wild ops) = Z.of_nat (length l)) /\
  (forall p, snd (geo_insert wild (geo_run wild ops) p) = Ok tt <-> acceptable_point p) /\
  (forall id, snd (geo_delete wild (geo_run wild ops) id) = true <-> exists p, current ops p /\ gp_id p = id).
Proof.
  intros wild ops. destruct (points_inv wild ops) as [N I]. split; [|split; [|split]].
  - intros id p. unfold geo_get. split.
    + intros F. apply find_some in F as [H E]. unfold point_is in E. apply String.eqb_eq in E. split; auto. apply I; auto.
    + intros [C E]. apply I in C. destruct (find (point_is id) (geo_points (geo_run wild ops))) as [q|] eqn:F.
      * apply find_some in F as [H E']. unfold point_is in E'. apply String.eqb_eq in E'. f_equal. apply (NoDup_map_inj_in gp_id (geo_points (geo_run wild ops))); auto. congruence.
      * pose proof (find_none _ _ F p C) as Q. unfold point_is in Q. apply String.eqb_neq in Q. contradiction.
  - exists (geo_points (geo_run wild ops)). split; [exact (NoDup_map_inv _ _ N)|]. auto.
  - intros p. rewrite <- accepts_iff. unfold geo_insert, accepts. destruct (String.eqb (gp_id p) ""); cbn; [split; discriminate|]. destruct (valid_coord (gp_at p)); cbn; split; auto; discriminate.
  - intros id. unfold geo_delete. destruct (find (point_is id) (geo_points (geo_run wild ops))) as [q|] eqn:F; cbn [snd]; split; auto; try discriminate.
    + intros _. apply find_some in F as [H E]. unfold point_is in E. apply String.eqb_eq in E. exists q. split; auto. apply I; auto.
    + intros [p [C E]]. apply I in C. pose proof (find_none _ _ F p C) as Q. unfold point_is in Q. apply String.eqb_neq in Q. contradiction.
Qed.
Print Assumptions geo_points_exact.

(** * Bounding boxes *)
Lemma earth_fin c : float64_coord c -> on_earth c -> exists lat lng, fin (c_lat c) lat /\ fin (c_lng c) lng /\ (-90 <= lat <= 90)%R /\ (-180 <= lng <= 180)%R.
Proof.
  intros [F1 F2] [[A B] [C D]]. destruct (between_fin (-90) 90 _ ltac:(lia) ltac:(lia) F1 A B) as [lat [H1 H2]]. destruct (between_fin (-180) 180 _ ltac:(lia) ltac:(lia) F2 C D) as [lng [H3 H4]].
  exists lat, lng. auto.
Qed.
Lemma earth_cells wild c : float64_coord c -> on_earth c -> tenths (c_lng c) (cell wild (c_lng c)) /\ (-2004 <= cell wild (c_lng c) <= 2004)%Z /\
  tenths (c_lat c) (cell wild (c_lat c)) /\ (-2004 <= cell wild (c_lat c) <= 2004)%Z.
Proof.
  intros F E. destruct (earth_fin c F E) as [lat [lng [A [B [C D]]]]]. destruct (cell_spec wild _ _ B D) as [H1 H2]. destruct (cell_spec wild (c_lat c) lat A ltac:(lra)) as [H3 H4]. auto.
Qed.
Lemma box_fin b : float64_box b -> valid_box b = true -> exists p q r s, fin (bb_min_lat b) p /\ fin (bb_max_lat b) q /\ fin (bb_min_lng b) r /\ fin (bb_max_lng b) s /\
  (-90 <= p <= q)%R /\ (q <= 90)%R /\ (-180 <= r <= s)%R /\ (s <= 180)%R.
Proof.
  intros [F1 [F2 [F3 F4]]] V. unfold valid_box in V. change (SFopp f90) with (f64_of_Z (-90)) in V. change (SFopp f180) with (f64_of_Z (-180)) in V. unfold f90, f180 in V.
  rewrite !andb_true_iff in V. destruct V as [[[[[A B] C] D] E] G].
  assert (X : forall lo hi x y, (Z.abs lo <= 2 ^ 53)%Z -> (Z.abs hi <= 2 ^ 53)%Z -> float64 x -> float64 y -> fle (f64_of_Z lo) x = true -> fle y (f64_of_Z hi) = true -> fle x y = true ->
    exists p q, fin x p /\ fin y q /\ (IZR lo <= p)%R /\ (p <= q)%R /\ (q <= IZR hi)%R).
  { clear. intros lo hi x y Hl Hh Fx Fy A B C.
    destruct (fin_of_int lo Hl) as (u & Eu & Fu & _), (fin_of_int hi Hh) as (v & Ev & Fv & _).
    assert (Nx : exists p, fin x p).
    { destruct (float64_fin x Fx) as [[s ->]|[->|H]]; auto.
      - destruct (float64_fin y Fy) as [[t ->]|[->|[q (w & <- & Fw & _)]]].
        + rewrite <- Eu in A. rewrite <- Ev in B. destruct s, t, u as [[]|[]| |[] ? ? ?], v as [[]|[]| |[] ? ? ?]; discriminate.
        + destruct s; discriminate.
        + rewrite <- Eu in A. destruct s, u as [[]|[]| |[] ? ? ?], w as [[]|[]| |[] ? ? ?]; discriminate.
      - rewrite <- Eu in A. destruct u as [[]|[]| |[] ? ? ?]; discriminate. }
    assert (Ny : exists q, fin y q).
    { destruct Nx as [p (w & <- & Fw & _)]. destruct (float64_fin y Fy) as [[t ->]|[->|H]]; auto.
      - rewrite <- Ev in B. destruct t, v as [[]|[]| |[] ? ? ?], w as [[]|[]| |[] ? ? ?]; discriminate.
      - destruct w as [[]|[]| |[] ? ? ?]; discriminate. }
    destruct Nx as [p Hp], Ny as [q Hq]. exists p, q. split; auto. split; auto. split; [apply (fin_le _ _ _ _ (fin_of_int lo Hl) Hp); auto|].
    split; [apply (fin_le _ _ _ _ Hp Hq); auto|apply (fin_le _ _ _ _ Hq (fin_of_int hi Hh)); auto]. }
  destruct (X (-90)%Z 90%Z _ _ ltac:(lia) ltac:(lia) F1 F2 A B E) as [p [q [H1 [H2 [H3 [H4 H5]]]]]].
  destruct (X (-180)%Z 180%Z _ _ ltac:(lia) ltac:(lia) F3 F4 C D G) as [r [s [H6 [H7 [H8 [H9 H10]]]]]].
  exists p, q, r, s. tauto.
Qed.
Lemma box_cells wild b c : float64_box b -> valid_box b = true -> float64_coord c -> on_earth c -> in_the_box b c ->
  In (cell wild (c_lng c)) (zrange (cell wild (bb_min_lng b)) (cell wild (bb_max_lng b))) /\ In (cell wild (c_lat c)) (zrange (cell wild (bb_min_lat b)) (cell wild (bb_max_lat b))).
Proof.
  intros Fb V Fc E [[A B] [C D]]. destruct (box_fin b Fb V) as [p [q [r [s [H1 [H2 [H3 [H4 [H5 [H6 [H7 H8]]]]]]]]]]].
  destruct (earth_fin c Fc E) as [lat [lng [K1 [K2 [K3 K4]]]]].
  apply (fin_le _ _ _ _ H1 K1) in A. apply (fin_le _ _ _ _ K1 H2) in B. apply (fin_le _ _ _ _ H3 K2) in C. apply (fin_le _ _ _ _ K2 H4) in D.
  rewrite !zrange_in. split; split; eapply cell_mono; eauto; lra.
Qed.
Lemma box_small wild b x y : float64_box b -> valid_box b = true -> In x (zrange (cell wild (bb_min_lng b)) (cell wild (bb_max_lng b))) -> In y (zrange (cell wild (bb_min_lat b)) (cell wild (bb_max_lat b))) ->
  (Z.abs x <= 2004)%Z /\ (Z.abs y <= 2004)%Z.
Proof.
  intros Fb V. rewrite !zrange_in. destruct (box_fin b Fb V) as [p [q [r [s [H1 [H2 [H3 [H4 [H5 [H6 [H7 H8]]]]]]]]]]].
  destruct (cell_spec wild _ _ H1 ltac:(lra)) as [_ A]. destruct (cell_spec wild _ _ H2 ltac:(lra)) as [_ B]. destruct (cell_spec wild _ _ H3 ltac:(lra)) as [_ C]. destruct (cell_spec wild _ _ H4 ltac:(lra)) as [_ D]. lia.
Qed.
Lemma search_box_in wild g b p : In p (flat_map (fun x => flat_map (fun y => filter (fun p => in_box b (gp_at p)) (cells (geo_grid g) (grid_key x y)))
     (zrange (cell wild (bb_min_lat b)) (cell wild (bb_max_lat b)))) (zrange (cell wild (bb_min_lng b)) (cell wild (bb_max_lng b)))) <->
  in_the_box b (gp_at p) /\ exists x y, In x (zrange (cell wild (bb_min_lng b)) (cell wild (bb_max_lng b))) /\ In y (zrange (cell wild (bb_min_lat b)) (cell wild (bb_max_lat b))) /\ In p (cells (geo_grid g) (grid_key x y)).
Proof.
  rewrite in_flat_map. split.
  - intros [x [Hx H]]. apply in_flat_map in H as [y [Hy H]]. apply filter_In in H as [H B]. apply in_box_iff in B. eauto 8.
  - intros [B [x [y [Hx [Hy H]]]]]. exists x. split; auto. apply in_flat_map. exists y. split; auto. apply filter_In. split; auto. apply in_box_iff; auto.
Qed.
Definition proper_box (b : bbox) : Prop :=
  fle (f64_of_Z (-90)) (bb_min_lat b) = true /\ fle (bb_max_lat b) (f64_of_Z 90) = true /\ fle (f64_of_Z (-180)) (bb_min_lng b) = true /\ fle (bb_max_lng b) (f64_of_Z 180) = true /\
  fle (bb_min_lat b) (bb_max_lat b) = true /\ fle (bb_min_lng b) (bb_max_lng b) = true.
Lemma valid_box_iff b : valid_box b = true <-> proper_box b.
Proof.
  unfold valid_box, proper_box. change (SFopp f90) with (f64_of_Z (-90)). change (SFopp f180) with (f64_of_Z (-180)). unfold f90, f180. rewrite !andb_true_iff. tauto.
Qed.

(** No current point of the box is missed, whatever the history; the points returned lie in
    the box and were inserted at some time. *)
Theorem geo_box_complete : forall wild ops b, float64_ops ops -> float64_box b ->
  match search_box wild (geo_run wild ops) b with
  | Ok r => proper_box b /\ (forall p, current ops p -> in_the_box b (gp_at p) -> In p r) /\ (forall p, In p r -> in_the_box b (gp_at p) /\ In (GInsert p) ops)
  | Err _ => ~ proper_box b
  | Panic => False
  end.
Proof.
  intros wild ops b Fo Fb. unfold search_box. destruct (valid_box b) eqn:V; cbn [negb]; [|rewrite <- valid_box_iff; congruence].
  split; [apply valid_box_iff; auto|]. destruct (grid_inv wild ops) as [C S]. split.
  - intros p Cp B. apply search_box_in. split; auto. exists (cell wild (c_lng (gp_at p))), (cell wild (c_lat (gp_at p))).
    destruct (box_cells wild b (gp_at p) Fb V) as [X Y]; auto; [apply Fo, (current_inserted _ _ Cp)|apply (current_acceptable _ _ Cp)|]. split; auto. split; auto. apply C; auto.
  - intros p H. apply search_box_in in H as [B [x [y [_ [_ H]]]]]. split; auto. destruct (S _ _ H) as [_ [_ I]]. auto.
Qed.
Print Assumptions geo_box_complete.
(** With careful histories the answer is exact, each point once. *)
Theorem geo_box_exact : forall wild ops b, float64_ops ops -> float64_box b -> careful ops ->
  match search_box wild (geo_run wild ops) b with
  | Ok r => proper_box b /\ NoDup r /\ forall p, In p r <-> current ops p /\ in_the_box b (gp_at p)
  | Err _ => ~ proper_box b
  | Panic => False
  end.
Proof.
  intros wild ops b Fo Fb Ca. pose proof (geo_box_complete wild ops b Fo Fb) as Co. unfold search_box in *. destruct (valid_box b) eqn:V; cbn [negb] in *; auto.
  destruct Co as [Pb [Co _]]. split; auto. destruct (grid_exact wild ops Ca) as [E N]. destruct (grid_inv wild ops) as [_ S]. split.
  - assert (Sm : forall x y, In x (zrange (cell wild (bb_min_lng b)) (cell wild (bb_max_lng b))) -> In y (zrange (cell wild (bb_min_lat b)) (cell wild (bb_max_lat b))) -> (Z.abs x < 2 ^ 30)%Z /\ (Z.abs y < 2 ^ 30)%Z).
    { intros x y Hx Hy. destruct (box_small wild b x y Fb V Hx Hy). lia. }
    assert (Same : forall x y x' y' p, In x (zrange (cell wild (bb_min_lng b)) (cell wild (bb_max_lng b))) -> In y (zrange (cell wild (bb_min_lat b)) (cell wild (bb_max_lat b))) ->
      In x' (zrange (cell wild (bb_min_lng b)) (cell wild (bb_max_lng b))) -> In y' (zrange (cell wild (bb_min_lat b)) (cell wild (bb_max_lat b))) ->
      In p (cells (geo_grid (geo_run wild ops)) (grid_key x y)) -> In p (cells (geo_grid (geo_run wild ops)) (grid_key x' y')) -> x = x' /\ y = y').
    { intros x y x' y' p Hx Hy Hx' Hy' A B. destruct (Sm x y Hx Hy), (Sm x' y' Hx' Hy'). destruct (S _ _ A) as [KA _], (S _ _ B) as [KB _]. apply grid_key_inj; auto. congruence. }
    apply NoDup_flat; [apply zrange_nodup| |].
    + intros x Hx. apply NoDup_flat; [apply zrange_nodup| |].
      * intros y Hy. apply NoDup_filter. exact (NoDup_map_inv _ _ (N (grid_key x y))).
      * intros y y' p Hy Hy' A B. apply filter_In in A as [A _]. apply filter_In in B as [B _]. destruct (Same x y x y' p); auto.
    + intros x x' p Hx Hx' A B. apply in_flat_map in A as [y [Hy A]]. apply in_flat_map in B as [y' [Hy' B]]. apply filter_In in A as [A _]. apply filter_In in B as [B _]. destruct (Same x y x' y' p); auto.
  - intros p. split.
    + intros H. apply search_box_in in H as [B [x [y [_ [_ H]]]]]. split; eauto.
    + intros [C B]. apply Co; auto.
Qed.
Print Assumptions geo_box_exact.
Definition at_ (lat lng : Z) : coord := {| c_lat := f64_of_Z lat; c_lng := f64_of_Z lng |}.
Definition pt (id : string) (lat lng : Z) : gpoint := {| gp_id := id; gp_at := at_ lat lng; gp_meta := None |}.
Definition box_of (a b c d : Z) : bbox := {| bb_min_lat := f64_of_Z a; bb_max_lat := f64_of_Z b; bb_min_lng := f64_of_Z c; bb_max_lng := f64_of_Z d |}.
Definition no_wild : float -> Z := fun _ => 0%Z.
Definition geo_history : list geo_op := [GInsert (pt "a" 1 1); GInsert (pt "b" 2 2); GInsert (pt "c" (-1) 1); GDelete "a"; GInsert (pt "a" 3 1)].
Example geo_box_ex : match search_box no_wild (geo_run no_wild geo_history) (box_of 0 3 0 3) with Ok r => map gp_id r = ["a"; "b"] | _ => False end.
Proof. vm_compute. reflexivity. Qed.
Lemma current_ex l1 p l2 : acceptable_point p -> (forall o, In o l2 -> match o with GInsert q => gp_id q <> gp_id p | GDelete id => id <> gp_id p | GClear => False end) -> current (l1 ++ GInsert p :: l2) p.
Proof.
  intros A H. exists l1, l2. split; auto. split; auto. intros o Ho. specialize (H o Ho). destruct o as [q|id|]; [| |destruct H].
  - split; [discriminate|]. split; [discriminate|]. intros q' E _. injection E as <-. auto.
  - split; [discriminate|]. split; [congruence|]. discriminate.
Qed.
Example geo_history_careful : careful geo_history /\ float64_ops geo_history.
Proof.
  split.
  - intros l1 p l2 E A q C. unfold geo_history in E.
    assert (K : forall ops x, current ops x -> forall o, In o ops -> True) by auto. clear K.
    destruct l1 as [|o1 l1]; [destruct (current_nil q C)|]. injection E as <- E.
    destruct l1 as [|o2 l1].
    { injection E as <- E. change [GInsert (pt "a" 1 1)] with ([] ++ [GInsert (pt "a" 1 1)]) in C. apply current_snoc in C as [[-> _]|[C _]]; [discriminate|destruct (current_nil q C)]. }
    injection E as <- E. destruct l1 as [|o3 l1].
    { injection E as <- E. change [GInsert (pt "a" 1 1); GInsert (pt "b" 2 2)] with ([GInsert (pt "a" 1 1)] ++ [GInsert (pt "b" 2 2)]) in C. apply current_snoc in C as [[-> _]|[C _]]; [discriminate|].
      change [GInsert (pt "a" 1 1)] with ([] ++ [GInsert (pt "a" 1 1)]) in C. apply current_snoc in C as [[-> _]|[C _]]; [discriminate|destruct (current_nil q C)]. }
    injection E as <- E. destruct l1 as [|o4 l1]; [discriminate|]. injection E as <- E.
    destruct l1 as [|o5 l1]; [injection E as <- E|injection E as <- E; destruct l1; discriminate].
    change [GInsert (pt "a" 1 1); GInsert (pt "b" 2 2); GInsert (pt "c" (-1) 1); GDelete "a"] with ([GInsert (pt "a" 1 1); GInsert (pt "b" 2 2); GInsert (pt "c" (-1) 1)] ++ [GDelete "a"]) in C.
    apply current_snoc in C as [_ C]. exact C.
  - intros p H. cbn in H. repeat (destruct H as [H|H]; [try discriminate; injection H as <-; split; reflexivity|]). destruct H.
Qed.

(** Refuted for other histories: a point inserted again at another place is still returned
    at the old one, even after it was deleted. *)
Theorem geo_box_stale_refuted : exists ops b r p, float64_ops ops /\ float64_box b /\
  search_box no_wild (geo_run no_wild ops) b = Ok r /\ In p r /\ forall q, current ops q -> gp_id q <> gp_id p.
Proof.
  exists [GInsert (pt "a" 1 1); GInsert (pt "a" 50 50); GDelete "a"], (box_of 0 3 0 3). do 2 eexists.
  split; [|split; [|split; [vm_compute; reflexivity|split; [left; reflexivity|]]]].
  - intros p H. cbn in H. repeat (destruct H as [H|H]; [try discriminate; injection H as <-; split; reflexivity|]). destruct H.
  - repeat split.
  - intros q C. change [GInsert (pt "a" 1 1); GInsert (pt "a" 50 50); GDelete "a"] with ([GInsert (pt "a" 1 1); GInsert (pt "a" 50 50)] ++ [GDelete "a"]) in C.
    apply current_snoc in C as [_ C]. exact C.
Qed.
Print Assumptions geo_box_stale_refuted.

(** * Radius *)
Section Radius.
Variable wild : float -> Z.
Lemma cells_radius_spec km n : tenths_spanned km n -> (0 <= n <= 100000000)%Z -> cells_radius wild km = n.
Proof. intros [r [Hr ->]] B. unfold cells_radius. apply ceil_any; auto. unfold int64_max. lia. Qed.
Lemma candidates_in ops c km n p : float64_ops ops -> float64_coord c -> on_earth c -> tenths_spanned km n -> (0 <= n <= 100000000)%Z ->
  (In p (candidates wild (geo_run wild ops) c km) <-> in_window n c (gp_at p) /\ In p (cells (geo_grid (geo_run wild ops)) (key_of wild (gp_at p)))).
Proof.
  intros Fo Fc Ec T B. unfold candidates. rewrite (cells_radius_spec km n T B). destruct (grid_inv wild ops) as [_ S].
  destruct (earth_cells wild c Fc Ec) as [T1 [B1 [T2 B2]]]. rewrite in_flat_map. split.
  - intros [dx [Hx H]]. apply in_flat_map in H as [dy [Hy H]]. apply zrange_in in Hx, Hy. destruct (S _ _ H) as [K [A I]].
    destruct (earth_cells wild (gp_at p) (Fo p I) (proj2 A)) as [T3 [B3 [T4 B4]]]. split; [|rewrite <- K; auto].
    unfold key_of in K. apply grid_key_inj in K as [K1 K2]; try lia.
    exists (cell wild (c_lng c)), (cell wild (c_lat c)), (cell wild (c_lng (gp_at p))), (cell wild (c_lat (gp_at p))). repeat (split; [assumption|]). lia.
  - intros [[x [y [x' [y' [H1 [H2 [H3 [H4 [H5 H6]]]]]]]]] H]. destruct (S _ _ H) as [_ [A I]].
    destruct (earth_cells wild (gp_at p) (Fo p I) (proj2 A)) as [T3 [B3 [T4 B4]]].
    rewrite (tenths_unique _ _ _ H1 T1), (tenths_unique _ _ _ H3 T3) in H5. rewrite (tenths_unique _ _ _ H2 T2), (tenths_unique _ _ _ H4 T4) in H6.
    exists (cell wild (c_lng (gp_at p)) - cell wild (c_lng c))%Z. split; [apply zrange_in; lia|]. apply in_flat_map.
    exists (cell wild (c_lat (gp_at p)) - cell wild (c_lat c))%Z. split; [apply zrange_in; lia|].
    replace (cell wild (c_lng c) + _)%Z with (cell wild (c_lng (gp_at p))) by lia. replace (cell wild (c_lat c) + _)%Z with (cell wild (c_lat (gp_at p))) by lia. exact H.
Qed.
Lemma candidates_nodup ops c km n : float64_ops ops -> float64_coord c -> on_earth c -> careful ops -> tenths_spanned km n -> (0 <= n <= 100000000)%Z ->
  NoDup (map gp_id (candidates wild (geo_run wild ops) c km)).
Proof.
  intros Fo Fc Ec Ca T B. unfold candidates. rewrite (cells_radius_spec km n T B). destruct (grid_inv wild ops) as [_ S]. destruct (grid_exact wild ops Ca) as [E N]. destruct (points_inv wild ops) as [Np Ip].
  destruct (earth_cells wild c Fc Ec) as [_ [B1 [_ B2]]].
  set (cl := fun dx dy => cells (geo_grid (geo_run wild ops)) (grid_key (cell wild (c_lng c) + dx) (cell wild (c_lat c) + dy))).
  assert (Same : forall x y x' y' p q, In x (zrange (-n) n) -> In y (zrange (-n) n) -> In x' (zrange (-n) n) -> In y' (zrange (-n) n) -> In p (cl x y) -> In q (cl x' y') -> gp_id p = gp_id q -> x = x' /\ y = y').
  { intros x y x' y' p q Hx Hy Hx' Hy' A C Eq. apply zrange_in in Hx, Hy, Hx', Hy'. pose proof (E _ _ A) as P. pose proof (E _ _ C) as Q. apply Ip in P, Q.
    assert (p = q) by (apply (NoDup_map_inj_in gp_id (geo_points (geo_run wild ops))); auto). subst q. destruct (S _ _ A) as [KA _], (S _ _ C) as [KC _].
    rewrite <- KC in KA. apply grid_key_inj in KA; lia. }
  assert (M : forall l (f : Z -> list gpoint), map gp_id (flat_map f l) = flat_map (fun x => map gp_id (f x)) l).
  { clear. intros l f. induction l as [|x l IH]; cbn; auto. rewrite map_app, IH. auto. }
  rewrite M. apply NoDup_flat; [apply zrange_nodup| |].
  - intros x Hx. rewrite M. apply NoDup_flat; [apply zrange_nodup| |].
    + intros y Hy. apply N.
    + intros y y' i Hy Hy' A C. apply in_map_iff in A as [p [Ep A]]. apply in_map_iff in C as [q [Eq C]]. destruct (Same x y x y' p q); auto. congruence.
  - intros x x' i Hx Hx' A C. rewrite M in A, C. apply in_flat_map in A as [y [Hy A]]. apply in_flat_map in C as [y' [Hy' C]]. apply in_map_iff in A as [p [Ep A]]. apply in_map_iff in C as [q [Eq C]].
    destruct (Same x y x' y' p q); auto. congruence.
Qed.
End Radius.

(** The kilometres in a distance given in some unit, and back. *)
Definition kilometres (d : float) (u : unit_) (km : float) : Prop :=
  km = match u with Km => d | Miles => f64_mul d (f64_div (f64_of_Z 160934) (f64_of_Z 100000)) | Meters => f64_div d (f64_of_Z 1000) end.
Definition in_unit (km : float) (u : unit_) (d : float) : Prop :=
  d = match u with Km => km | Miles => f64_div km (f64_div (f64_of_Z 160934) (f64_of_Z 100000)) | Meters => f64_mul km (f64_of_Z 1000) end.

(** SearchRadius returns exactly the current points that lie in the window of cells and
    whose computed distance is at most the radius, each once, with that distance, nearest
    first. *)
Theorem geo_radius_exact : forall wild dist srt ops c radius u km n,
  sort_ok nearer_hit srt -> float64_ops ops -> careful ops -> float64_coord c -> on_earth c -> fle radius (f64_of_Z 0) = false ->
  kilometres radius u km -> tenths_spanned km n -> (0 <= n <= 100000000)%Z ->
  exists r, search_radius wild dist srt (geo_run wild ops) c radius u = Ok r /\ NoDup (map (fun h => gp_id (gh_point h)) r) /\
    (forall h, In h r <-> current ops (gh_point h) /\ in_window n c (gp_at (gh_point h)) /\ fle (dist c (gp_at (gh_point h))) km = true /\
                          in_unit (dist c (gp_at (gh_point h))) u (gh_dist h)) /\
    ((forall h, In h r -> not_nan (gh_dist h)) -> sorted_by nearer_hit r).
Proof.
  intros wild dist srt ops c radius u km n Hs Fo Ca Fc Ec Hr K T B. unfold kilometres in K. subst km. unfold search_radius. rewrite (proj2 (valid_coord_iff c) Ec). cbn [negb]. change f_zero with (f64_of_Z 0). rewrite Hr.
  change (match u with Km => radius | Miles => f64_mul radius (f64_div (f64_of_Z 160934) (f64_of_Z 100000)) | Meters => f64_div radius (f64_of_Z 1000) end) with (to_km radius u) in *.
  set (all := map _ _). destruct (Hs all) as [P So].
  assert (In1 : forall h, In h all <-> current ops (gh_point h) /\ in_window n c (gp_at (gh_point h)) /\ fle (dist c (gp_at (gh_point h))) (to_km radius u) = true /\ in_unit (dist c (gp_at (gh_point h))) u (gh_dist h)).
  { intros h. unfold all. rewrite in_map_iff. destruct (grid_exact wild ops Ca) as [E _]. destruct (grid_inv wild ops) as [C _]. split.
    - intros [x0 [Eh Hx]]. apply filter_In in Hx as [Hx D]. subst h. apply (candidates_in wild ops c _ n x0 Fo Fc Ec T B) in Hx as [W H2]. cbn [gh_point gh_dist].
      split; [eauto|]. split; auto. split; auto. unfold in_unit, from_km, km_per_mile. destruct u; reflexivity.
    - intros [Cu [W [D U]]]. exists (gh_point h). split.
      + destruct h as [p d]. cbn [gh_point gh_dist] in *. f_equal. rewrite U. unfold from_km, km_per_mile. destruct u; reflexivity.
      + apply filter_In. split; auto. apply (candidates_in wild ops c _ n _ Fo Fc Ec T B). split; auto. }
  exists (srt all). split; [reflexivity|]. split; [|split].
  - apply (Permutation_NoDup (Permutation_map _ P)). unfold all. rewrite map_map. cbn [gh_point]. apply NoDup_map_filter. apply (candidates_nodup wild ops c _ n); auto.
  - intros h. split; intros Hh; [apply (In1 h), (Permutation_in _ (Permutation_sym P)); exact Hh|apply (Permutation_in _ P), (In1 h); exact Hh].
  - intros Hn. apply So. apply weak_order_asc. intros h Hh. apply Hn. apply (Permutation_in _ P); auto.
Qed.
Print Assumptions geo_radius_exact.
(** In particular a current point at most (n - 1) tenths of a degree away in latitude and in
    longitude is found when its computed distance is at most the radius. *)
Theorem geo_radius_finds_near : forall wild dist srt ops c radius u km n p latc lngc latp lngp,
  sort_ok nearer_hit srt -> float64_ops ops -> careful ops -> float64_coord c -> on_earth c -> fle radius (f64_of_Z 0) = false ->
  kilometres radius u km -> tenths_spanned km n -> (1 <= n <= 100000000)%Z ->
  current ops p -> places c latc lngc -> places (gp_at p) latp lngp -> (Rabs (latp - latc) <= IZR (n - 1) / 10)%R -> (Rabs (lngp - lngc) <= IZR (n - 1) / 10)%R ->
  fle (dist c (gp_at p)) km = true ->
  exists r h, search_radius wild dist srt (geo_run wild ops) c radius u = Ok r /\ In h r /\ gh_point h = p.
Proof.
  intros wild dist srt ops c radius u km n p latc lngc latp lngp Hs Fo Ca Fc Ec Hr K T B Cu [P1 P2] [Q1 Q2] A1 A2 D.
  destruct (geo_radius_exact wild dist srt ops c radius u km n Hs Fo Ca Fc Ec Hr K T ltac:(lia)) as [r [E [_ [I _]]]].
  pose proof (current_acceptable _ _ Cu) as [_ Ep]. pose proof (Fo p (current_inserted _ _ Cu)) as Fp.
  destruct (earth_fin c Fc Ec) as [a [b [Ha [Hb [Ba Bb]]]]]. rewrite (fin_unique _ _ _ Ha P1) in Ba. rewrite (fin_unique _ _ _ Hb P2) in Bb.
  destruct (earth_fin (gp_at p) Fp Ep) as [a' [b' [Ha' [Hb' [Ba' Bb']]]]]. rewrite (fin_unique _ _ _ Ha' Q1) in Ba'. rewrite (fin_unique _ _ _ Hb' Q2) in Bb'.
  apply Rabs_le_inv in A1, A2.
  exists r, {| gh_point := p; gh_dist := match u with Km => dist c (gp_at p) | Miles => f64_div (dist c (gp_at p)) (f64_div (f64_of_Z 160934) (f64_of_Z 100000)) | Meters => f64_mul (dist c (gp_at p)) (f64_of_Z 1000) end |}.
  split; auto. split; auto. apply I. cbn [gh_point gh_dist]. split; auto. split; [|split; [auto|reflexivity]].
  destruct (earth_cells wild c Fc Ec) as [T1 [B1 [T2 B2]]]. destruct (earth_cells wild (gp_at p) Fp Ep) as [T3 [B3 [T4 B4]]].
  do 4 eexists. split; [exact T1|]. split; [exact T2|]. split; [exact T3|]. split; [exact T4|].
  assert (N : (1 <= n < 2 ^ 50)%Z) by lia.
  pose proof (cells_near wild _ _ _ _ n Q2 P2 Bb' Bb N ltac:(lra)). pose proof (cells_near wild _ _ _ _ n P2 Q2 Bb Bb' N ltac:(lra)).
  pose proof (cells_near wild _ _ _ _ n Q1 P1 ltac:(lra) ltac:(lra) N ltac:(lra)). pose proof (cells_near wild _ _ _ _ n P1 Q1 ltac:(lra) ltac:(lra) N ltac:(lra)). lia.
Qed.
Print Assumptions geo_radius_finds_near.
Definition flat_dist (a b : coord) : float := f64_mul (f64_of_Z 111) (f64_add (SFabs (f64_sub (c_lat a) (c_lat b))) (SFabs (f64_sub (c_lng a) (c_lng b)))).
Definition geo_sort : list geo_hit -> list geo_hit := isort nearer_hit.
Example geo_radius_ex : (exists n, tenths_spanned (f64_of_Z 250) n /\ n = 23%Z) /\
  match search_radius no_wild flat_dist geo_sort (geo_run no_wild geo_history) (at_ 3 1) (f64_of_Z 250) Km with Ok r => map (fun h => gp_id (gh_point h)) r = ["a"; "b"] | _ => False end.
Proof.
  split.
  - exists 23%Z. split; auto. unfold tenths_spanned.
    pose (f := f64_div (f64_div (f64_of_Z 250) (f64_of_Z 111)) (f64_div (f64_of_Z 1) (f64_of_Z 10))).
    assert (E : f = S754_finite false 6339526502492252 (-48)) by (vm_compute; reflexivity). fold f. rewrite E.
    exists (F2R (Float radix2 6339526502492252 (-48))). split.
    + exists (@BinarySingleNaN.B754_finite 53 1024 false 6339526502492252 (-48) eq_refl). auto.
    + symmetry. apply Zceil_imp. unfold F2R. cbn. lra.
  - vm_compute. auto.
Qed.

(** Refuted for great-circle distances: the meridians meet at the poles and at the 180th
    meridian, cells do not.  Whatever the distance function computes, a point at distance
    zero is not found within 100 kilometres. *)
Lemma fin_at lat lng : (Z.abs lat <= 2 ^ 53)%Z -> (Z.abs lng <= 2 ^ 53)%Z -> places (at_ lat lng) (IZR lat) (IZR lng).
Proof. intros A B. split; apply fin_of_int; auto. Qed.
Theorem geo_radius_pole_refuted : exists ops p c, careful ops /\ float64_ops ops /\ current ops p /\
  (exists lat1 lng1 lat2 lng2, places c lat1 lng1 /\ places (gp_at p) lat2 lng2 /\ great_circle lat1 lng1 lat2 lng2 = 0%R) /\
  forall wild dist srt, sort_ok nearer_hit srt -> search_radius wild dist srt (geo_run wild ops) c (f64_of_Z 100) Km = Ok [].
Proof.
  exists [GInsert (pt "a" 90 180)], (pt "a" 90 180), (at_ 90 0). split; [|split; [|split; [|split]]].
  - intros l1 p l2 E A q C. destruct l1 as [|o l1]; [destruct (current_nil q C)|]. injection E as _ E. destruct l1; discriminate.
  - intros p [H|[]]. injection H as <-. split; reflexivity.
  - apply (current_ex [] (pt "a" 90 180) []); [|intros o []]. split; [discriminate|]. split; split; reflexivity.
  - exists (IZR 90), (IZR 0), (IZR 90), (IZR 180). split; [apply fin_at; lia|]. split; [apply fin_at; lia|]. unfold great_circle, radians. cbv zeta.
    replace ((90 - 90) * PI / 180 / 2)%R with 0%R by field. replace (90 * PI / 180)%R with (PI / 2)%R by field. rewrite sin_0, cos_PI2.
    match goal with |- context [sqrt ?x] => replace x with 0%R by ring end. rewrite sqrt_0, asin_0. ring.
  - intros wild dist srt Hs. assert (E : candidates wild (geo_run wild [GInsert (pt "a" 90 180)]) (at_ 90 0) (f64_of_Z 100) = []) by (vm_compute; reflexivity).
    unfold search_radius. replace (valid_coord (at_ 90 0)) with true by (vm_compute; reflexivity). replace (fle (f64_of_Z 100) f_zero) with false by (vm_compute; reflexivity).
    cbn [negb to_km]. rewrite E. destruct (Hs []) as [P _]. apply Permutation_nil in P. cbn [filter map]. rewrite P. reflexivity.
Qed.
Print Assumptions geo_radius_pole_refuted.
Theorem geo_radius_antimeridian_refuted : exists ops p c, careful ops /\ float64_ops ops /\ current ops p /\
  (exists lat1 lng1 lat2 lng2, places c lat1 lng1 /\ places (gp_at p) lat2 lng2 /\ great_circle lat1 lng1 lat2 lng2 = 0%R) /\
  forall wild dist srt, sort_ok nearer_hit srt -> search_radius wild dist srt (geo_run wild ops) c (f64_of_Z 100) Km = Ok [].
Proof.
  exists [GInsert (pt "a" 0 180)], (pt "a" 0 180), (at_ 0 (-180)). split; [|split; [|split; [|split]]].
  - intros l1 p l2 E A q C. destruct l1 as [|o l1]; [destruct (current_nil q C)|]. injection E as _ E. destruct l1; discriminate.
  - intros p [H|[]]. injection H as <-. split; reflexivity.
  - apply (current_ex [] (pt "a" 0 180) []); [|intros o []]. split; [discriminate|]. split; split; reflexivity.
  - exists (IZR 0), (IZR (-180)), (IZR 0), (IZR 180). split; [apply fin_at; lia|]. split; [apply fin_at; lia|]. unfold great_circle, radians. cbv zeta.
    replace ((0 - 0) * PI / 180 / 2)%R with 0%R by field. replace ((180 - -180) * PI / 180 / 2)%R with PI by field. rewrite sin_0, sin_PI.
    match goal with |- context [sqrt ?x] => replace x with 0%R by ring end. rewrite sqrt_0, asin_0. ring.
  - intros wild dist srt Hs. assert (E : candidates wild (geo_run wild [GInsert (pt "a" 0 180)]) (at_ 0 (-180)) (f64_of_Z 100) = []) by (vm_compute; reflexivity).
    unfold search_radius. replace (valid_coord (at_ 0 (-180))) with true by (vm_compute; reflexivity). replace (fle (f64_of_Z 100) f_zero) with false by (vm_compute; reflexivity).
    cbn [negb to_km]. rewrite E. destruct (Hs []) as [P _]. apply Permutation_nil in P. cbn [filter map]. rewrite P. reflexivity.
Qed.
Print Assumptions geo_radius_antimeridian_refuted.

(** * Nearest neighbours: the k nearest current points after any history. *)
Theorem geo_knn_exact : forall wild dist srt ord ops c k, sort_ok nearer_hit srt -> (forall l, Permutation (ord l) l) ->
  match search_knn dist srt ord (geo_run wild ops) c k with
  | Ok r => on_earth c /\ (0 < k)%Z /\ exists all, NoDup (map (fun h => gp_id (gh_point h)) all) /\
      (forall h, In h all <-> current ops (gh_point h) /\ gh_dist h = dist c (gp_at (gh_point h))) /\
      ((forall p, current ops p -> not_nan (dist c (gp_at p))) -> is_topk nearer_hit (Z.to_nat k) all r)
  | Err _ => ~ on_earth c \/ (k <= 0)%Z
  | Panic => False
  end.
Proof.
  intros wild dist srt ord ops c k Hs Ho. unfold search_knn. destruct (valid_coord c) eqn:V; cbn [negb]; [|left; rewrite <- valid_coord_iff; congruence].
  destruct (Z.leb_spec k 0) as [H|H]; [right; auto|]. split; [apply valid_coord_iff; auto|]. split; auto.
  destruct (points_inv wild ops) as [N I]. set (all := map _ _). exists all. split; [|split].
  - unfold all. rewrite map_map. cbn [gh_point]. apply (Permutation_NoDup (Permutation_map gp_id (Permutation_sym (Ho _)))). exact N.
  - intros h. unfold all. rewrite in_map_iff. split.
    + intros [p [<- Hp]]. cbn [gh_point gh_dist]. split; auto. apply I, (Permutation_in _ (Ho _)); auto.
    + intros [C D]. exists (gh_point h). split; [destruct h; cbn in *; congruence|]. apply (Permutation_in _ (Permutation_sym (Ho _))), I; auto.
  - intros Nn. assert (W : weak_order_on nearer_hit all).
    { apply weak_order_asc. intros h Hh. unfold all in Hh. apply in_map_iff in Hh as [p [<- Hp]]. cbn [gh_dist]. apply Nn, I, (Permutation_in _ (Ho _)); auto. }
    assert (E : (if Z.ltb (Z.of_nat (length (srt all))) k then srt all else firstn (Z.to_nat k) (srt all)) = firstn (Z.to_nat k) (srt all)).
    { destruct (Z.ltb_spec (Z.of_nat (length (srt all))) k); auto. rewrite firstn_all2; auto. lia. }
    rewrite E. apply topk_of_sort; auto.
Qed.
Print Assumptions geo_knn_exact.
Example geo_knn_ex : match search_knn flat_dist geo_sort (fun l => l) (geo_run no_wild geo_history) (at_ 2 3) 2 with Ok r => map (fun h => gp_id (gh_point h)) r = ["b"; "a"] | _ => False end.
Proof. vm_compute. reflexivity. Qed.

(** * Polygons *)
Lemma flt_fle x y : flt x y = true -> fle x y = true.
Proof. unfold flt, fle, SFltb, SFleb. destruct (SFcompare x y) as [[]|]; auto. Qed.
Lemma compare_swap x y : SFcompare y x = option_map CompOpp (SFcompare x y).
Proof.
  destruct x as [[]|[]| |[] mx ex], y as [[]|[]| |[] my ey]; try reflexivity; cbn; rewrite (Z.compare_antisym ex ey); destruct (Z.compare ex ey); cbn; try reflexivity;
    change (Pos.compare_cont Eq my mx) with (Pos.compare my mx); change (Pos.compare_cont Eq mx my) with (Pos.compare mx my); rewrite (Pos.compare_antisym mx my); destruct (Pos.compare mx my); reflexivity.
Qed.
Lemma compare_some x y : not_nan x -> not_nan y -> SFcompare x y <> None.
Proof.
  intros Hx Hy. destruct x as [[]|[]| |[] mx ex], y as [[]|[]| |[] my ey]; try (destruct (Hx eq_refl)); try (destruct (Hy eq_refl)); cbn; try discriminate; destruct (Z.compare ex ey); discriminate.
Qed.
Lemma not_flt_fle x y : not_nan x -> not_nan y -> flt x y = false -> fle y x = true.
Proof.
  intros Hx Hy. unfold flt, fle, SFltb, SFleb. rewrite (compare_swap x y). pose proof (compare_some x y Hx Hy). destruct (SFcompare x y) as [[]|]; cbn; auto; congruence.
Qed.
Lemma fle_not_flt x y : fle y x = true -> flt x y = false.
Proof. unfold flt, fle, SFltb, SFleb. rewrite (compare_swap x y). destruct (SFcompare x y) as [[]|]; cbn; auto. Qed.
Lemma fle_iff x y : not_nan x -> not_nan y -> (fle y x = true <-> flt x y = false).
Proof. intros Hx Hy. split; [apply fle_not_flt|apply not_flt_fle; auto]. Qed.

Lemma fle_refl_num x : not_nan x -> fle x x = true.
Proof. intros H. apply fle_iff; auto. apply flt_irrefl. Qed.
Lemma fle_trans_num x y z : not_nan x -> not_nan y -> not_nan z -> fle x y = true -> fle y z = true -> fle x z = true.
Proof. intros Hx Hy Hz A B. apply fle_iff in A, B; auto. apply fle_iff; auto. eapply flt_ntrans with y; auto. Qed.
Lemma not_nan_b x : not_nan x -> is_nanb x = false.
Proof. intros H. destruct x; auto. destruct (H eq_refl). Qed.
Lemma min_cases x y : not_nan x -> not_nan y -> (math_min x y = x /\ fle x y = true) \/ (math_min x y = y /\ fle y x = true).
Proof.
  intros Hx Hy.
  assert (G : forall m, m = (if flt x y then x else y) -> (m = x /\ fle x y = true) \/ (m = y /\ fle y x = true)).
  { intros m ->. destruct (flt x y) eqn:E; [left; split; auto; apply flt_fle; auto|right; split; auto; apply not_flt_fle; auto]. }
  unfold math_min. destruct x as [sx|[]| |sx mx ex], y as [sy|[]| |sy my ey]; try (destruct (Hx eq_refl)); try (destruct (Hy eq_refl)); try (apply G; reflexivity); try (left; split; reflexivity); try (right; split; reflexivity).
  destruct sx; [left|right]; split; reflexivity.
Qed.
Lemma max_cases x y : not_nan x -> not_nan y -> (math_max x y = x /\ fle y x = true) \/ (math_max x y = y /\ fle x y = true).
Proof.
  intros Hx Hy.
  assert (G : forall m, m = (if flt y x then x else y) -> (m = x /\ fle y x = true) \/ (m = y /\ fle x y = true)).
  { intros m ->. destruct (flt y x) eqn:E; [left; split; auto; apply flt_fle; auto|right; split; auto; apply not_flt_fle; auto]. }
  unfold math_max. destruct x as [sx|[]| |sx mx ex], y as [sy|[]| |sy my ey]; try (destruct (Hx eq_refl)); try (destruct (Hy eq_refl)); try (apply G; reflexivity); try (left; split; reflexivity); try (right; split; reflexivity).
  destruct sx; [right|left]; split; reflexivity.
Qed.
Lemma flt_fle_trans x y z : not_nan x -> not_nan y -> not_nan z -> flt x y = true -> fle y z = true -> flt x z = true.
Proof.
  intros Hx Hy Hz A B. destruct (flt x z) eqn:E; auto. apply not_flt_fle in E; auto. pose proof (fle_trans_num y z x Hy Hz Hx B E) as C. apply fle_not_flt in C. congruence.
Qed.
Lemma feq_fle x y : not_nan x -> not_nan y -> (feq x y = true <-> fle x y = true /\ fle y x = true).
Proof.
  intros Hx Hy. rewrite (fle_iff y x), (fle_iff x y) by auto. unfold feq, SFeqb, flt, SFltb.
  pose proof (compare_swap x y) as A. pose proof (compare_some x y Hx Hy) as N.
  rewrite A. destruct (SFcompare x y) as [[]|]; cbn; split; auto; try discriminate; try (intros [? ?]; discriminate); congruence.
Qed.
Definition number_coord (c : coord) : Prop := not_nan (c_lat c) /\ not_nan (c_lng c).
Lemma crosses_iff p a b : number_coord p -> number_coord a -> number_coord b -> (crosses p a b = true <-> ray_meets p (a, b)).
Proof.
  intros [P1 P2] [A1 A2] [B1 B2]. unfold crosses, ray_meets. rewrite !andb_true_iff, orb_true_iff.
  assert (X : (flt (math_min (c_lng a) (c_lng b)) (c_lng p) = true /\ fle (c_lng p) (math_max (c_lng a) (c_lng b)) = true) /\ negb (feq (c_lng a) (c_lng b)) = true <->
    (flt (c_lng a) (c_lng p) = true /\ fle (c_lng p) (c_lng b) = true) \/ (flt (c_lng b) (c_lng p) = true /\ fle (c_lng p) (c_lng a) = true)).
  { set (x := c_lng p) in *. set (u := c_lng a) in *. set (v := c_lng b) in *. clearbody x u v. clear P1 A1 B1. rewrite negb_true_iff.
    assert (Q : feq u v = false <-> ~ (fle u v = true /\ fle v u = true)) by (rewrite <- feq_fle by auto; destruct (feq u v); intuition congruence). rewrite Q. clear Q.
    destruct (min_cases u v A2 B2) as [[-> Lm]|[-> Lm]], (max_cases u v A2 B2) as [[-> LM]|[-> LM]]; split.
    - intros [[H1 H2] N]. destruct N. auto.
    - intros [[H1 H2]|[H1 H2]].
      + exfalso. assert (flt u v = true) by (apply flt_fle_trans with x; auto). apply fle_not_flt in LM. congruence.
      + exfalso. pose proof (flt_fle_trans v x u B2 P2 A2 H1 H2). apply fle_not_flt in Lm. congruence.
    - intros [[H1 H2] N]. auto.
    - intros [[H1 H2]|[H1 H2]].
      + split; auto. intros [_ C]. pose proof (flt_fle_trans u x v A2 P2 B2 H1 H2) as D. apply fle_not_flt in C. congruence.
      + exfalso. pose proof (flt_fle_trans v x u B2 P2 A2 H1 H2). apply fle_not_flt in Lm. congruence.
    - intros [[H1 H2] N]. auto.
    - intros [[H1 H2]|[H1 H2]].
      + exfalso. pose proof (flt_fle_trans u x v A2 P2 B2 H1 H2). apply fle_not_flt in Lm. congruence.
      + split; auto. intros [C _]. pose proof (flt_fle_trans v x u B2 P2 A2 H1 H2) as D. apply fle_not_flt in C. congruence.
    - intros [[H1 H2] N]. destruct N. auto.
    - intros [[H1 H2]|[H1 H2]].
      + exfalso. pose proof (flt_fle_trans u x v A2 P2 B2 H1 H2). apply fle_not_flt in Lm. congruence.
      + exfalso. pose proof (flt_fle_trans v x u B2 P2 A2 H1 H2). apply fle_not_flt in LM. congruence. }
  assert (Y : fle (c_lat p) (math_max (c_lat a) (c_lat b)) = true <-> fle (c_lat p) (c_lat a) = true \/ fle (c_lat p) (c_lat b) = true).
  { destruct (max_cases (c_lat a) (c_lat b) A1 B1) as [[-> L]|[-> L]]; split; auto; intros [H|H]; auto; [apply fle_trans_num with (c_lat b)|apply fle_trans_num with (c_lat a)]; auto. }
  tauto.
Qed.
Lemma in_polygon_loop_spec p first : number_coord p -> number_coord first -> forall rest p1 flag, number_coord p1 -> (forall a, In a rest -> number_coord a) ->
  exists n, how_many (ray_meets p) (List.combine (p1 :: rest) (rest ++ [first])) n /\ in_polygon_loop p p1 first flag rest = xorb flag (Nat.odd n).
Proof.
  intros Np Nf. induction rest as [|p2 rest IH]; intros p1 flag N1 Nr; cbn [in_polygon_loop app List.combine].
  - destruct (crosses p p1 first) eqn:E.
    + exists 1. split; [constructor; [apply crosses_iff; auto|constructor]|reflexivity].
    + exists 0. split; [apply hm_no; [rewrite <- crosses_iff by auto; congruence|constructor]|reflexivity].
  - destruct (IH p2 (xorb flag (crosses p p1 p2)) (Nr p2 (or_introl eq_refl)) (fun a Ha => Nr a (or_intror Ha))) as [n [H E]]. rewrite E.
    assert (N2 : number_coord p2) by (apply Nr; left; auto).
    destruct (crosses p p1 p2) eqn:C.
    + exists (S n). split; [constructor; [apply crosses_iff; auto|exact H]|]. rewrite Nat.odd_succ, <- Nat.negb_odd. destruct flag, (Nat.odd n); reflexivity.
    + exists n. split; [apply hm_no; [rewrite <- crosses_iff by auto; congruence|exact H]|]. destruct flag; reflexivity.
Qed.
Lemma how_many_unique {A} (P : A -> Prop) l n : how_many P l n -> forall m, how_many P l m -> n = m.
Proof. induction 1; intros m H'; inversion H'; subst; auto; contradiction. Qed.
Lemma in_polygon_iff p poly : number_coord p -> corners_are_numbers poly -> (in_polygon p poly = true <-> inside_polygon poly p).
Proof.
  intros Np Nc. unfold in_polygon, inside_polygon, sides. destruct poly as [|a poly]; cbn [tl firstn].
  - split; [discriminate|]. intros [n [H O]]. inversion H; subst. discriminate.
  - destruct (in_polygon_loop_spec p a Np (Nc a (or_introl eq_refl)) poly a false (Nc a (or_introl eq_refl)) (fun x Hx => Nc x (or_intror Hx))) as [n [H E]]. rewrite E, xorb_false_l. split.
    + intros O. exists n. split; [exact H|exact O].
    + intros [m [Hm O]]. rewrite (how_many_unique _ _ _ H m Hm). exact O.
Qed.
Definition extent (b : bbox) (l : list coord) : Prop :=
  (exists a, In a l /\ bb_min_lat b = c_lat a) /\ (exists a, In a l /\ bb_max_lat b = c_lat a) /\ (exists a, In a l /\ bb_min_lng b = c_lng a) /\ (exists a, In a l /\ bb_max_lng b = c_lng a) /\
  (forall a, In a l -> fle (bb_min_lat b) (c_lat a) = true /\ fle (c_lat a) (bb_max_lat b) = true /\ fle (bb_min_lng b) (c_lng a) = true /\ fle (c_lng a) (bb_max_lng b) = true).
Lemma lower_step x y : not_nan x -> not_nan y -> fle (if flt y x then y else x) x = true /\ fle (if flt y x then y else x) y = true.
Proof. intros Hx Hy. destruct (flt y x) eqn:E; split; try (apply fle_refl_num; auto); [apply flt_fle; auto|apply not_flt_fle; auto]. Qed.
Lemma upper_step x y : not_nan x -> not_nan y -> fle x (if flt x y then y else x) = true /\ fle y (if flt x y then y else x) = true.
Proof. intros Hx Hy. destruct (flt x y) eqn:E; split; try (apply fle_refl_num; auto); [apply flt_fle; auto|apply not_flt_fle; auto]. Qed.
Lemma widen_extent b l c : corners_are_numbers (l ++ [c]) -> extent b l -> extent (widen b c) (l ++ [c]).
Proof.
  intros Nc [[a1 [I1 E1]] [[a2 [I2 E2]] [[a3 [I3 E3]] [[a4 [I4 E4]] H]]]].
  assert (Nl : forall a, In a l -> number_coord a) by (intros a Ha; apply Nc, in_app_iff; auto). assert (Ncc : number_coord c) by (apply Nc, in_app_iff; right; left; auto). destruct Ncc as [Nc1 Nc2].
  assert (N1 : not_nan (bb_min_lat b)) by (rewrite E1; apply Nl; auto). assert (N2 : not_nan (bb_max_lat b)) by (rewrite E2; apply Nl; auto).
  assert (N3 : not_nan (bb_min_lng b)) by (rewrite E3; apply Nl; auto). assert (N4 : not_nan (bb_max_lng b)) by (rewrite E4; apply Nl; auto).
  assert (Ic : In c (l ++ [c])) by (apply in_app_iff; right; left; auto). assert (Il : forall a, In a l -> In a (l ++ [c])) by (intros; apply in_app_iff; auto).
  unfold extent, widen. cbn [bb_min_lat bb_max_lat bb_min_lng bb_max_lng].
  split; [destruct (flt (c_lat c) (bb_min_lat b)); eauto|]. split; [destruct (flt (bb_max_lat b) (c_lat c)); eauto|]. split; [destruct (flt (c_lng c) (bb_min_lng b)); eauto|]. split; [destruct (flt (bb_max_lng b) (c_lng c)); eauto|].
  destruct (lower_step _ _ N1 Nc1) as [L1 L1']. destruct (upper_step _ _ N2 Nc1) as [L2 L2']. destruct (lower_step _ _ N3 Nc2) as [L3 L3']. destruct (upper_step _ _ N4 Nc2) as [L4 L4'].
  intros a Ha. apply in_app_iff in Ha as [Ha|[<-|[]]]; [|auto]. destruct (Nl a Ha) as [Na1 Na2]. destruct (H a Ha) as [H1 [H2 [H3 H4]]].
  split; [apply fle_trans_num with (bb_min_lat b); auto; destruct (flt (c_lat c) (bb_min_lat b)); auto|].
  split; [apply fle_trans_num with (bb_max_lat b); auto; destruct (flt (bb_max_lat b) (c_lat c)); auto|].
  split; [apply fle_trans_num with (bb_min_lng b); auto; destruct (flt (c_lng c) (bb_min_lng b)); auto|].
  apply fle_trans_num with (bb_max_lng b); auto; destruct (flt (bb_max_lng b) (c_lng c)); auto.
Qed.
Lemma polygon_box_extent poly : poly <> [] -> corners_are_numbers poly -> extent (polygon_box poly) poly.
Proof.
  intros Ne Nc. destruct poly as [|a poly]; [congruence|]. cbn [polygon_box].
  assert (G : forall r l b, corners_are_numbers (l ++ r) -> extent b l -> extent (fold_left widen r b) (l ++ r)).
  { induction r as [|c r IH]; intros l b Nn E; cbn [fold_left]; [rewrite app_nil_r; auto|]. replace (l ++ c :: r) with ((l ++ [c]) ++ r) in * by (rewrite <- app_assoc; reflexivity).
    apply IH; auto. apply widen_extent; auto. intros x Hx. apply Nn, in_app_iff. auto. }
  change (a :: poly) with ([a] ++ poly). apply G; auto. destruct (Nc a (or_introl eq_refl)) as [N1 N2].
  split; [exists a; split; [left|]; auto|]. split; [exists a; split; [left|]; auto|]. split; [exists a; split; [left|]; auto|]. split; [exists a; split; [left|]; auto|].
  intros x [<-|[]]. cbn. rewrite !fle_refl_num by auto. auto.
Qed.
Lemma outside_box_iff poly p : poly <> [] -> corners_are_numbers poly -> number_coord p -> (outside_box (polygon_box poly) p = false <-> within_extent poly p).
Proof.
  intros Ne Nc [P1 P2]. destruct (polygon_box_extent poly Ne Nc) as [[a1 [I1 E1]] [[a2 [I2 E2]] [[a3 [I3 E3]] [[a4 [I4 E4]] H]]]]. unfold outside_box, within_extent. rewrite !orb_false_iff, E1, E2, E3, E4.
  destruct (Nc a1 I1), (Nc a2 I2), (Nc a3 I3), (Nc a4 I4). rewrite <- !fle_iff by auto. rewrite E1, E2, E3, E4 in H. split.
  - intros [[[A B] C] D]. split; [eauto|]. split; [eauto|]. split; eauto.
  - intros [[b1 [J1 A]] [[b2 [J2 B]] [[b3 [J3 C]] [b4 [J4 D]]]]].
    destruct (Nc b1 J1), (Nc b2 J2), (Nc b3 J3), (Nc b4 J4). destruct (H b1 J1) as [K1 _], (H b2 J2) as [_ [K2 _]], (H b3 J3) as [_ [_ [K3 _]]], (H b4 J4) as [_ [_ [_ K4]]].
    split; [split; [split|]|]; [apply fle_trans_num with (c_lat b1)|apply fle_trans_num with (c_lat b2)|apply fle_trans_num with (c_lng b3)|apply fle_trans_num with (c_lng b4)]; auto.
Qed.
(** SearchPolygon returns exactly the current points between the extreme corners from which a
    ray meets an odd number of sides, each once, after any history. *)
Theorem geo_polygon_exact : forall wild ord ops poly, (forall l, Permutation (ord l) l) -> float64_ops ops -> corners_are_numbers poly ->
  match search_polygon ord (geo_run wild ops) poly with
  | Ok r => 3 <= length poly /\ NoDup (map gp_id r) /\ forall p, In p r <-> current ops p /\ within_extent poly (gp_at p) /\ inside_polygon poly (gp_at p)
  | Err _ => length poly < 3
  | Panic => False
  end.
Proof.
  intros wild ord ops poly Ho Fo Nc. unfold search_polygon. destruct (Nat.ltb_spec (length poly) 3) as [H|H]; auto. split; auto. destruct (points_inv wild ops) as [N I].
  assert (Ne : poly <> []) by (intros ->; cbn in H; lia). split.
  - apply NoDup_map_filter. apply (Permutation_NoDup (Permutation_map gp_id (Permutation_sym (Ho _)))). exact N.
  - intros p. rewrite filter_In. assert (Q : In p (ord (geo_points (geo_run wild ops))) <-> current ops p).
    { rewrite <- I. split; apply Permutation_in; [apply Ho|apply Permutation_sym, Ho]. }
    rewrite Q, andb_true_iff, negb_true_iff. split.
    + intros [C [A B]]. assert (Np : number_coord (gp_at p)).
      { destruct (earth_fin _ (Fo p (current_inserted _ _ C)) (proj2 (current_acceptable _ _ C))) as [x [y [X [Y _]]]]. split; eapply fin_not_nan; eauto. }
      split; auto. split; [apply outside_box_iff|apply in_polygon_iff]; auto.
    + intros [C [A B]]. assert (Np : number_coord (gp_at p)).
      { destruct (earth_fin _ (Fo p (current_inserted _ _ C)) (proj2 (current_acceptable _ _ C))) as [x [y [X [Y _]]]]. split; eapply fin_not_nan; eauto. }
      split; auto. split; [apply outside_box_iff|apply in_polygon_iff]; auto.
Qed.
Print Assumptions geo_polygon_exact.
Example geo_polygon_ex : match search_polygon (fun l => l) (geo_run no_wild geo_history) [at_ 0 0; at_ 0 4; at_ 4 2] with Ok r => map gp_id r = ["b"] | _ => False end /\
  corners_are_numbers [at_ 0 0; at_ 0 4; at_ 4 2].
Proof. split; [vm_compute; reflexivity|]. intros a H. repeat (destruct H as [<-|H]; [split; vm_compute; discriminate|]). destruct H. Qed.
