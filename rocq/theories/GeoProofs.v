From Coq Require Import String List NArith ZArith Bool Lia Permutation.
From Coq Require Import Floats.SpecFloat.
From Verif Require Import Base Floats64 GeoModel GeoSpec.
Import ListNotations.
Open Scope string_scope.
Open Scope list_scope.
From Coq Require Import ZifyBool ZifyNat ZifyN.

Lemma valid_coord_iff c : valid_coord c = true <-> on_earth c.
Proof.
  unfold valid_coord, on_earth, between. change (SFopp f90) with (f64_of_Z (-90)). change (SFopp f180) with (f64_of_Z (-180)). fold f90 f180.
  rewrite !andb_true_iff. tauto.
Qed.
Lemma in_box_iff b c : in_box b c = true <-> in_the_box b c.
Proof. unfold in_box, in_the_box, between. rewrite !andb_true_iff. tauto. Qed.
Definition accepts (p : gpoint) : bool := negb (String.eqb (gp_id p) "") && valid_coord (gp_at p).
Lemma accepts_iff p : accepts p = true <-> acceptable_point p.
Proof. unfold accepts, acceptable_point. rewrite andb_true_iff, valid_coord_iff, negb_true_iff, String.eqb_neq. reflexivity. Qed.

Lemma NoDup_map_inj_in {A B} (f : A -> B) l x y : NoDup (map f l) -> In x l -> In y l -> f x = f y -> x = y.
Proof.
  induction l as [|a l IH]; intros N Hx Hy E; [destruct Hx|]. inversion N as [|? ? Na Nl]; subst. destruct Hx as [->|Hx], Hy as [->|Hy]; auto.
  - destruct Na. rewrite E. apply in_map; auto.
  - destruct Na. rewrite <- E. apply in_map; auto.
Qed.

(** * Histories *)
Lemma current_nil p : ~ current [] p.
Proof. intros [l1 [l2 [E _]]]. destruct l1; discriminate. Qed.
Lemma current_snoc ops o p : current (ops ++ [o]) p <->
  match o with
  | GInsert q => (p = q /\ acceptable_point q) \/ (current ops p /\ (acceptable_point q -> gp_id q <> gp_id p))
  | GDelete id => current ops p /\ gp_id p <> id
  | GClear => False
  end.
Proof.
  assert (Old : forall l1 l2, ops ++ [o] = l1 ++ GInsert p :: l2 -> l2 = [] /\ o = GInsert p \/ exists l2', l2 = l2' ++ [o] /\ ops = l1 ++ GInsert p :: l2').
  { intros l1 l2 E. destruct l2 as [|x l2'] using rev_ind.
    - apply app_inj_tail in E as [_ E]. auto.
    - right. clear IHl2'. change (GInsert p :: l2' ++ [x]) with ((GInsert p :: l2') ++ [x]) in E. rewrite app_assoc in E. apply app_inj_tail in E as [E1 E2]. subst. eauto. }
  assert (Keep : forall l1 l2, ops = l1 ++ GInsert p :: l2 -> ops ++ [o] = l1 ++ GInsert p :: (l2 ++ [o])) by (intros l1 l2 ->; rewrite <- app_assoc; reflexivity).
  split.
  - intros [l1 [l2 [E [A H]]]]. destruct (Old l1 l2 E) as [[-> ->]|[l2' [-> E']]]; [left; auto|].
    assert (C : current ops p). { exists l1, l2'. split; auto. split; auto. intros x Hx. apply H, in_app_iff. auto. }
    specialize (H o ltac:(apply in_app_iff; right; left; auto)). destruct H as [H1 [H2 H3]]. destruct o as [q|id|].
    + right. split; auto.
    + split; auto. congruence.
    + congruence.
  - destruct o as [q|id|].
    + intros [[<- A]|[[l1 [l2 [E [A H]]]] D]].
      * exists ops, []. split; [reflexivity|]. split; [exact A|]. intros x [].
      * exists l1, (l2 ++ [GInsert q]). split; auto. split; auto. intros x Hx. apply in_app_iff in Hx as [Hx|[<-|[]]]; auto.
        split; [discriminate|]. split; [discriminate|]. intros q' Eq Aq. injection Eq as <-. auto.
    + intros [[l1 [l2 [E [A H]]]] D]. exists l1, (l2 ++ [GDelete id]). split; auto. split; auto. intros x Hx. apply in_app_iff in Hx as [Hx|[<-|[]]]; auto.
      split; [discriminate|]. split; [congruence|]. discriminate.
    + intros [].
Qed.
Lemma current_acceptable ops p : current ops p -> acceptable_point p.
Proof. intros [l1 [l2 [_ [A _]]]]. exact A. Qed.
Lemma current_inserted ops p : current ops p -> In (GInsert p) ops.
Proof. intros [l1 [l2 [-> _]]]. apply in_app_iff. right. left. auto. Qed.
Lemma careful_prefix ops o : careful (ops ++ [o]) -> careful ops.
Proof. intros H l1 p l2 E. apply (H l1 p (l2 ++ [o])). rewrite E, <- app_assoc. reflexivity. Qed.
Lemma careful_last ops p q : careful (ops ++ [GInsert p]) -> acceptable_point p -> current ops q -> gp_id q <> gp_id p.
Proof. intros H A C. exact (H ops p [] eq_refl A q C). Qed.

(** * The grid as a map *)
Lemma cells_drop g k k' : cells (drop_cells g k) k' = if Z.eqb k k' then [] else cells g k'.
Proof.
  induction g as [|[x l] g IH]; cbn [drop_cells filter cells fst]; [destruct (Z.eqb k k'); auto|]. unfold drop_cells in IH.
  destruct (Z.eqb_spec x k) as [->|D]; cbn [negb cells].
  - rewrite IH. destruct (Z.eqb k k'); auto.
  - rewrite IH. destruct (Z.eqb_spec x k') as [->|D']; auto. destruct (Z.eqb_spec k k'); congruence.
Qed.
Lemma cells_set g k l k' : cells (set_cells g k l) k' = if Z.eqb k k' then l else cells g k'.
Proof.
  unfold set_cells. cbn [cells]. destruct (Z.eqb_spec k k'); auto. fold (drop_cells g k). rewrite cells_drop. destruct (Z.eqb_spec k k'); congruence.
Qed.

Lemma index_in_some id l i : index_in id l = Some i -> exists l1 p l2, l = l1 ++ p :: l2 /\ length l1 = i /\ gp_id p = id.
Proof.
  revert i. induction l as [|p l IH]; intros i; cbn; [discriminate|]. unfold point_is. destruct (String.eqb_spec (gp_id p) id) as [E|D].
  - intros H. injection H as <-. exists [], p, l. auto.
  - destruct (index_in id l) as [j|]; [|discriminate]. cbn. intros H. injection H as <-. destruct (IH j eq_refl) as [l1 [q [l2 [-> [L E]]]]].
    exists (p :: l1), q, l2. cbn. auto.
Qed.
Lemma index_in_none id l : index_in id l = None -> forall p, In p l -> gp_id p <> id.
Proof.
  induction l as [|p l IH]; cbn; [intros _ q []|]. unfold point_is. destruct (String.eqb_spec (gp_id p) id) as [E|D]; [discriminate|].
  destruct (index_in id l); [discriminate|]. intros _ q [<-|Hq]; auto.
Qed.
(** Removing one entry with the id; the others stay. *)
Lemma swap_out_spec id l : (forall p, In p l -> gp_id p <> id) /\ swap_out id l = l \/ exists p, gp_id p = id /\ Permutation l (p :: swap_out id l).
Proof.
  unfold swap_out. destruct (index_in id l) as [i|] eqn:E; [|left; split; auto; apply index_in_none; auto].
  right. destruct (index_in_some _ _ _ E) as [l1 [p [l2 [-> [L Ep]]]]]. exists p. split; auto.
  rewrite rev_app_distr. cbn [rev]. subst i. rewrite firstn_app, firstn_all, Nat.sub_diag. cbn [firstn]. rewrite app_nil_r.
  replace (skipn (S (length l1)) (l1 ++ p :: l2)) with l2.
  2:{ rewrite skipn_app, skipn_all2 by lia. replace (S (length l1) - length l1)%nat with 1%nat by lia. reflexivity. }
  destruct l2 as [|z l2 _] using rev_ind.
  - cbn [rev app]. rewrite removelast_last. apply Permutation_sym, Permutation_cons_append.
  - rewrite rev_app_distr. cbn [rev app]. change (z :: l2 ++ [z]) with ((z :: l2) ++ [z]). rewrite app_assoc, removelast_last.
    apply Permutation_sym. apply Permutation_trans with (p :: z :: l1 ++ l2); [apply perm_skip, Permutation_sym, Permutation_middle|].
    apply Permutation_trans with (z :: p :: l1 ++ l2); [constructor|]. apply Permutation_trans with (z :: l1 ++ p :: l2); [apply perm_skip, Permutation_middle|].
    apply Permutation_trans with ((l1 ++ p :: l2) ++ [z]); [apply Permutation_cons_append|]. rewrite <- app_assoc. apply Permutation_refl.
Qed.

Section Inv.
Variable wild : float -> Z.
Notation run := (geo_run wild).
Lemma run_snoc ops o : run (ops ++ [o]) = geo_step wild (run ops) o.
Proof. unfold geo_run. rewrite fold_left_app. reflexivity. Qed.
Lemma set_point_in p l q : In q (set_point p l) <-> q = p \/ (In q l /\ gp_id q <> gp_id p).
Proof.
  unfold set_point. cbn [In]. rewrite filter_In. unfold point_is. rewrite negb_true_iff, String.eqb_neq. split; intros [H|H]; auto.
Qed.
Lemma step_insert g p : geo_step wild g (GInsert p) = if accepts p
  then {| geo_points := set_point p (geo_points g); geo_grid := set_cells (geo_grid g) (key_of wild (gp_at p)) (cells (geo_grid g) (key_of wild (gp_at p)) ++ [p]) |} else g.
Proof. cbn [geo_step]. unfold geo_insert, accepts. destruct (String.eqb (gp_id p) ""); cbn; auto. destruct (valid_coord (gp_at p)); auto. Qed.

(** The points. *)
Lemma points_inv ops : NoDup (map gp_id (geo_points (run ops))) /\ forall p, In p (geo_points (run ops)) <-> current ops p.
Proof.
  induction ops as [|o ops [N I]] using rev_ind.
  { split; [constructor|]. intros p. split; [intros []|]. intros H. destruct (current_nil p H). }
  rewrite run_snoc. destruct o as [q|id|].
  - rewrite step_insert. destruct (accepts q) eqn:A.
    + apply accepts_iff in A. cbn [geo_points]. split.
      * unfold set_point. cbn [map]. constructor; [|apply NoDup_map_filter; auto].
        intros H. apply in_map_iff in H as [x [Ex Hx]]. apply filter_In in Hx as [_ Hx]. unfold point_is in Hx. rewrite Ex, String.eqb_refl in Hx. discriminate.
      * intros p. rewrite set_point_in, current_snoc, I. split.
        -- intros [->|[H D]]; auto.
        -- intros [[-> _]|[H D]]; auto. right. split; auto. intros E. exact (D A (eq_sym E)).
    + assert (A' : ~ acceptable_point q) by (rewrite <- accepts_iff; congruence). split; auto. intros p. rewrite current_snoc, I. split; [intros H; right; split; auto; intros; contradiction|].
      intros [[_ H]|[H _]]; [contradiction|auto].
  - cbn [geo_step]. unfold geo_delete. destruct (find (point_is id) (geo_points (run ops))) as [x|] eqn:F; cbn [fst geo_points].
    + split; [apply NoDup_map_filter; auto|]. intros p. rewrite filter_In, current_snoc, I. unfold point_is. rewrite negb_true_iff, String.eqb_neq. reflexivity.
    + split; auto. intros p. rewrite current_snoc, <- I. split; [|tauto]. intros H. split; auto. pose proof (find_none _ _ F p H) as Q. unfold point_is in Q. apply String.eqb_neq in Q. auto.
  - cbn. split; [constructor|]. intros p. rewrite current_snoc. split; intros [].
Qed.
(** Every current point is in its cell; every entry is in the cell of its coordinates. *)
Lemma grid_inv ops : (forall p, current ops p -> In p (cells (geo_grid (run ops)) (key_of wild (gp_at p)))) /\
  (forall k p, In p (cells (geo_grid (run ops)) k) -> k = key_of wild (gp_at p) /\ acceptable_point p /\ In (GInsert p) ops).
Proof.
  induction ops as [|o ops [C S]] using rev_ind.
  { split; [intros p H; destruct (current_nil p H)|intros k p []]. }
  assert (S' : forall k p, In p (cells (geo_grid (run ops)) k) -> k = key_of wild (gp_at p) /\ acceptable_point p /\ In (GInsert p) (ops ++ [o])).
  { intros k p H. destruct (S k p H) as [A [B D]]. split; auto. split; auto. apply in_app_iff. auto. }
  rewrite run_snoc. destruct o as [q|id|].
  - rewrite step_insert. destruct (accepts q) eqn:A.
    + apply accepts_iff in A. cbn [geo_grid]. split.
      * intros p. rewrite current_snoc, cells_set. intros [[-> _]|[H D]].
        -- rewrite Z.eqb_refl. apply in_app_iff. right; left; auto.
        -- destruct (Z.eqb_spec (key_of wild (gp_at q)) (key_of wild (gp_at p))) as [->|_]; auto. apply in_app_iff; auto.
      * intros k p. rewrite cells_set. destruct (Z.eqb_spec (key_of wild (gp_at q)) k) as [<-|D]; auto. intros H. apply in_app_iff in H as [H|[<-|[]]]; auto.
        split; auto. split; auto. apply in_app_iff. right; left; auto.
    + split; auto. assert (A' : ~ acceptable_point q) by (rewrite <- accepts_iff; congruence). intros p. rewrite current_snoc. intros [[_ H]|[H _]]; [contradiction|auto].
  - cbn [geo_step]. unfold geo_delete. destruct (find (point_is id) (geo_points (run ops))) as [x|] eqn:F; cbn [fst geo_grid].
    + set (kx := key_of wild (gp_at x)). set (l := swap_out id (cells (geo_grid (run ops)) kx)).
      assert (G : forall k, cells (match l with [] => drop_cells (geo_grid (run ops)) kx | _ :: _ => set_cells (geo_grid (run ops)) kx l end) k = if Z.eqb kx k then l else cells (geo_grid (run ops)) k).
      { intros k. destruct l as [|y l0]; [apply cells_drop|apply cells_set]. }
      split.
      * intros p. rewrite current_snoc, G. intros [H D]. destruct (Z.eqb_spec kx (key_of wild (gp_at p))) as [E|_]; auto. unfold l. specialize (C p H).
        destruct (swap_out_spec id (cells (geo_grid (run ops)) kx)) as [[_ ->]|[y [Ey P]]]; [rewrite E; auto|].
        rewrite <- E in C. apply (Permutation_in _ P) in C as [->|C]; auto. contradiction.
      * intros k p. rewrite G. destruct (Z.eqb_spec kx k) as [<-|_]; auto. intros H. apply S'. unfold l in H.
        destruct (swap_out_spec id (cells (geo_grid (run ops)) kx)) as [[_ E]|[y [Ey P]]]; [rewrite E in H; auto|]. apply (Permutation_in _ (Permutation_sym P)). right; auto.
    + split; auto. intros p. rewrite current_snoc. intros [H _]. auto.
  - cbn. split; [|intros k p []]. intros p. rewrite current_snoc. intros [].
Qed.
(** With careful histories the grid holds nothing else. *)
Lemma grid_exact ops : careful ops -> (forall k p, In p (cells (geo_grid (run ops)) k) -> current ops p) /\ forall k, NoDup (map gp_id (cells (geo_grid (run ops)) k)).
Proof.
  induction ops as [|o ops IH] using rev_ind; intros Ca.
  { split; [intros k p []|intros k; constructor]. }
  destruct (IH (careful_prefix _ _ Ca)) as [S N]. rewrite run_snoc. destruct o as [q|id|].
  - rewrite step_insert. destruct (accepts q) eqn:A.
    + apply accepts_iff in A. assert (New : forall p, current ops p -> gp_id p <> gp_id q) by (intros p Hp; eapply careful_last; eauto). cbn [geo_grid]. split.
      * intros k p. rewrite cells_set, current_snoc. intros H.
        assert (K : p = q \/ In p (cells (geo_grid (run ops)) k)).
        { destruct (Z.eqb_spec (key_of wild (gp_at q)) k) as [<-|_]; auto. apply in_app_iff in H as [H|[<-|[]]]; auto. }
        destruct K as [->|K]; auto. right. pose proof (S _ _ K) as Cp. split; auto. intros _ E. exact (New p Cp (eq_sym E)).
      * intros k. rewrite cells_set. destruct (Z.eqb_spec (key_of wild (gp_at q)) k) as [<-|_]; auto. rewrite map_app. apply NoDup_app_intro; auto.
        -- constructor; [intros []|constructor].
        -- intros y Hy [<-|[]]. apply in_map_iff in Hy as [p [Ep Hp]]. exact (New p (S _ _ Hp) Ep).
    + assert (A' : ~ acceptable_point q) by (rewrite <- accepts_iff; congruence). split; auto. intros k p H. apply current_snoc. right. split; [exact (S _ _ H)|]. intros; contradiction.
  - cbn [geo_step]. unfold geo_delete. destruct (points_inv ops) as [Np Ip]. destruct (grid_inv ops) as [Gc Gs].
    destruct (find (point_is id) (geo_points (run ops))) as [x|] eqn:F; cbn [fst geo_grid].
    + apply find_some in F as [Hx Ex]. unfold point_is in Ex. apply String.eqb_eq in Ex. apply Ip in Hx.
      set (kx := key_of wild (gp_at x)). set (l := swap_out id (cells (geo_grid (run ops)) kx)).
      assert (G : forall k, cells (match l with [] => drop_cells (geo_grid (run ops)) kx | _ :: _ => set_cells (geo_grid (run ops)) kx l end) k = if Z.eqb kx k then l else cells (geo_grid (run ops)) k).
      { intros k. destruct l as [|y l0]; [apply cells_drop|apply cells_set]. }
      destruct (swap_out_spec id (cells (geo_grid (run ops)) kx)) as [[No _]|[y [Ey P]]]; [destruct (No x (Gc x Hx) Ex)|]. fold l in P.
      assert (Nl : NoDup (map gp_id (y :: l))) by (apply (Permutation_NoDup (Permutation_map gp_id P)); auto). inversion Nl as [|? ? Ny Nl']; subst.
      split.
      * intros k p. rewrite G. intros H. apply current_snoc. destruct (Z.eqb_spec kx k) as [<-|D].
        -- split; [apply (S kx), (Permutation_in _ (Permutation_sym P)); right; auto|]. intros E. apply Ny. rewrite Ey, <- E. apply in_map; auto.
        -- split; [exact (S _ _ H)|]. intros E. pose proof (S _ _ H) as Cp. apply Ip in Hx, Cp. assert (p = x) by (apply (NoDup_map_inj_in gp_id (geo_points (run ops))); auto; congruence). subst p.
           apply D. destruct (Gs _ _ H) as [-> _]. reflexivity.
      * intros k. rewrite G. destruct (Z.eqb kx k); auto.
    + split; auto. intros k p H. apply current_snoc. pose proof (S _ _ H) as Cp. split; auto. apply Ip in Cp. pose proof (find_none _ _ F p Cp) as Q. unfold point_is in Q. apply String.eqb_neq in Q. auto.
  - cbn. split; [intros k p []|intros k; constructor].
Qed.
End Inv.

Lemma zrange_in a b x : In x (zrange a b) <-> (a <= x <= b)%Z.
Proof.
  unfold zrange. rewrite in_map_iff. split.
  - intros [i [<- H]]. apply in_seq in H. lia.
  - intros H. exists (Z.to_nat (x - a)). split; [lia|]. apply in_seq. lia.
Qed.
Lemma zrange_nodup a b : NoDup (zrange a b).
Proof. unfold zrange. apply FinFun.Injective_map_NoDup; [intros x y H; lia|apply seq_NoDup]. Qed.
Lemma NoDup_flat {A B} (f : A -> list B) l : NoDup l -> (forall x, In x l -> NoDup (f x)) -> (forall x y z, In x l -> In y l -> In z (f x) -> In z (f y) -> x = y) -> NoDup (flat_map f l).
Proof.
  induction l as [|a l IH]; intros N Hf D; cbn [flat_map]; [constructor|]. inversion N as [|? ? Na Nl]; subst. apply NoDup_app_intro.
  - apply Hf. left; auto.
  - apply IH; auto; [intros x Hx; apply Hf; right; auto|]. intros x y z Hx Hy. apply D; right; auto.
  - intros z Hz Hl. apply in_flat_map in Hl as [y [Hy Hz']]. apply Na. rewrite (D a y z); auto; [left|right]; auto.
Qed.
