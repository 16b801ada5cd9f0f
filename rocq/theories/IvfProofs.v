(** Proofs for C40 and C41. *)
From Coq Require Import String List NArith ZArith Bool Lia Permutation Sorted.
From Coq Require Import Floats.SpecFloat.
From Verif Require Import Base Floats64 TopK IvfModel IvfSpec.
Import ListNotations.

Section P.
Variable dist : list N -> list N -> float.
Notation vecN := (list N).
Notation pair := (string * list N)%type.
Variable cents : list vecN.
Variable dim : nat.
Notation nc := (length cents).
Notation list_of := (nearest_centroid dist cents).

Fixpoint members (k : nat) (l : list pair) (c : nat) : list nat :=
  match l with
  | [] => []
  | p :: l' => (if Nat.eqb (list_of (snd p)) c then [k] else []) ++ members (S k) l' c
  end.
Lemma members_app l : forall k m c, members k (l ++ m) c = members k l c ++ members (k + length l) m c.
Proof.
  induction l as [|p l IH]; intros k m c; cbn [members app length]; [rewrite Nat.add_0_r; auto|].
  rewrite IH, <- app_assoc. do 3 f_equal. lia.
Qed.
Lemma members_range l : forall k c i, In i (members k l c) -> k <= i < k + length l.
Proof.
  induction l as [|p l IH]; intros k c i; cbn [members length]; [intros []|]. rewrite in_app_iff. intros [H|H].
  - destruct (Nat.eqb _ _); [destruct H as [<-|[]]; lia|destruct H].
  - apply IH in H. lia.
Qed.
Lemma renumber_low i xs ys : (forall j, In j xs -> j < i) -> renumber i (xs ++ ys) = xs ++ renumber i ys.
Proof.
  induction xs as [|x xs IH]; intros H; cbn [renumber app]; auto. assert (x < i) by (apply H; left; auto).
  destruct (Nat.eqb_spec x i); [lia|]. destruct (Nat.ltb_spec i x); [lia|]. f_equal. apply IH. intros j Hj. apply H; right; auto.
Qed.
Lemma renumber_high i l c : forall k, i <= k -> renumber i (members (S k) l c) = members k l c.
Proof.
  induction l as [|p l IH]; intros k Hk; cbn [members]; auto. destruct (Nat.eqb _ c); cbn [app renumber]; [|apply IH; lia].
  destruct (Nat.eqb_spec (S k) i); [lia|]. destruct (Nat.ltb_spec i (S k)); [|lia]. rewrite IH by lia. f_equal. lia.
Qed.
Lemma members_none l c : (forall p, In p l -> list_of (snd p) <> c) -> forall k, members k l c = [].
Proof.
  induction l as [|p l IH]; intros H k; cbn [members]; auto. destruct (Nat.eqb_spec (list_of (snd p)) c); [exfalso; apply (H p); auto; left; auto|].
  apply IH. intros q Hq. apply H; right; auto.
Qed.

(** the representation *)
Definition Rep (x : ivf) (l : list pair) : Prop :=
  i_trained x = true /\ i_nc x = nc /\ i_dim x = dim /\ i_cents x = cents /\ i_vecs x = map snd l /\ i_ids x = map fst l /\
  i_inv x = map (members 0 l) (seq 0 nc).

Lemma push_map f c i n : push_list c i (map f (seq 0 n)) = map (fun j => if Nat.eqb j c then f j ++ [i] else f j) (seq 0 n).
Proof.
  unfold push_list. rewrite map_length, seq_length.
  assert (K : forall (l : list nat), combine l (map f l) = map (fun j => (j, f j)) l) by (induction l; cbn; congruence).
  rewrite K, map_map. reflexivity.
Qed.
Lemma rep_add x l id v y : Rep x l -> ivf_add dist x id v = Ok y -> length v = dim /\ Rep y (l ++ [(id, v)]) /\ i_nprobe y = i_nprobe x.
Proof.
  intros (T & Nc & D & C & V & Is & In_) E. unfold ivf_add in E. rewrite T, D in E. cbn [negb] in E.
  destruct (Nat.eqb_spec (length v) dim); [|discriminate]. cbn [negb] in E. injection E as <-. split; auto. split; auto.
  unfold Rep. cbn. rewrite V, Is, In_, C, !map_app, map_length. repeat (split; auto). rewrite push_map. apply map_ext. intros j.
  rewrite members_app. cbn [members snd]. rewrite app_nil_r, Nat.add_0_l. destruct (Nat.eqb_spec j (list_of v)) as [->|N].
  - rewrite Nat.eqb_refl. auto.
  - destruct (Nat.eqb_spec (list_of v) j); [congruence|]. rewrite app_nil_r. auto.
Qed.
Lemma add_refused x l id v : Rep x l -> length v <> dim -> ivf_add dist x id v = Err EInvalidDim.
Proof. intros (T & Nc & D & _) H. unfold ivf_add. rewrite T, D. cbn. destruct (Nat.eqb_spec (length v) dim); [contradiction|]. auto. Qed.
Lemma add_accepted x l id v : Rep x l -> length v = dim -> exists y, ivf_add dist x id v = Ok y.
Proof. intros (T & Nc & D & _) H. unfold ivf_add. rewrite T, D. cbn. destruct (Nat.eqb_spec (length v) dim); [|contradiction]. eexists; reflexivity. Qed.

Lemma index_split id l : match index_of id (map fst l), split_first id l with
  | None, None => without_first id l = l
  | Some i, Some (v, later) => exists a p, l = a ++ p :: later /\ snd p = v /\ length a = i /\ without_first id l = a ++ later
  | _, _ => False end.
Proof.
  induction l as [|p l IH]; cbn; auto. destruct (String.eqb (fst p) id); [exists [], p; auto|].
  destruct (index_of id (map fst l)) as [i|], (split_first id l) as [[v later]|]; cbn; try contradiction.
  - destruct IH as (a & p' & -> & <- & <- & E). exists (p :: a), p'. cbn. repeat split; auto. f_equal. auto.
  - f_equal; auto.
Qed.
Lemma remove_at_app {A} (a : list A) x b : remove_at (length a) (a ++ x :: b) = a ++ b.
Proof.
  unfold remove_at. f_equal.
  - rewrite firstn_app, Nat.sub_diag, firstn_all. cbn. apply app_nil_r.
  - rewrite skipn_app. replace (S (length a) - length a) with 1 by lia. rewrite skipn_all2 by lia. reflexivity.
Qed.
Lemma rep_delete x l id : Rep x l -> (forall v later, split_first id l = Some (v, later) -> forall p, In p later -> list_of (snd p) <> list_of v) ->
  Rep (istep dist x (IDelete id)) (without_first id l) /\ i_nprobe (istep dist x (IDelete id)) = i_nprobe x.
Proof.
  intros R H. pose proof R as (T & Nc & D & C & V & Is & Iv). cbn [istep]. unfold ivf_delete. rewrite T, Is. cbn [negb].
  pose proof (index_split id l) as S. destruct (index_of id (map fst l)) as [i|], (split_first id l) as [[v later]|]; try contradiction.
  - destruct S as (a & p & -> & <- & <- & ->). specialize (H _ _ eq_refl). cbn [i_nprobe]. split; auto. unfold Rep. cbn. rewrite V, Iv, !map_app. cbn [map].
    rewrite <- (map_length snd a) at 1. rewrite remove_at_app. rewrite <- (map_length fst a) at 1. rewrite remove_at_app.
    repeat (split; auto). rewrite map_map. apply map_ext. intros c. rewrite !members_app, !Nat.add_0_l. rewrite renumber_low; [|intros j Hj; apply members_range in Hj; lia].
    f_equal. cbn [members]. destruct (Nat.eqb_spec (list_of (snd p)) c) as [<-|N]; cbn [app renumber].
    + rewrite Nat.eqb_refl. rewrite !members_none; auto.
    + apply renumber_high. lia.
  - rewrite S. auto.
Qed.
Lemma members_nil k c : members k [] c = [].
Proof. reflexivity. Qed.
Lemma rep_step x l o : Rep x l -> match o with IDelete id => match split_first id l with Some (v, later) => forall p, In p later -> list_of (snd p) <> list_of v | None => True end | _ => True end ->
  Rep (istep dist x o) (stored_step dim l o) /\
  i_nprobe (istep dist x o) = match o with ISetProbe m => Z.min m (Z.of_nat nc) | _ => i_nprobe x end.
Proof.
  intros R H. destruct o as [id v|id| |n]; cbn [stored_step].
  - cbn [istep]. destruct (Nat.eqb_spec (length v) dim) as [E|E].
    + destruct (add_accepted x l id v R E) as [y Ey]. rewrite Ey. destruct (rep_add x l id v y R Ey) as (_ & A & B). auto.
    + rewrite (add_refused x l id v R E). auto.
  - apply rep_delete; auto. intros v later E. rewrite E in H. exact H.
  - destruct R as (T & Nc & D & C & V & Is & Iv). cbn. split; auto. unfold Rep. cbn. repeat (split; auto). rewrite Iv, map_map. apply map_ext. reflexivity.
  - destruct R as (T & Nc & D & C & V & Is & Iv). cbn. rewrite Nc. split; auto. unfold Rep. cbn. repeat (split; auto).
Qed.
Lemma rep_run ops : forall x l, Rep x l -> deletes_last dim list_of l ops ->
  Rep (irun dist x ops) (fold_left (stored_step dim) ops l) /\
  i_nprobe (irun dist x ops) = fold_left (fun n o => match o with ISetProbe m => Z.min m (Z.of_nat nc) | _ => n end) ops (i_nprobe x).
Proof.
  induction ops as [|o ops IH]; intros x l R H; cbn [deletes_last] in H; cbn [irun fold_left]; auto.
  destruct H as [H1 H2]. destruct (rep_step x l o R) as [R' Np]; [destruct o; auto|].
  destruct (IH _ _ R' H2) as [A B]. split; auto. unfold irun in B. rewrite B. f_equal. exact Np.
Qed.
Lemma no_del_last ops : no_deletions ops -> forall l, deletes_last dim list_of l ops.
Proof.
  induction ops as [|o ops IH]; intros H l; cbn; auto. split.
  - destruct o; auto. exfalso. apply (H id). left; auto.
  - apply IH. intros id Hid. apply (H id). right; auto.
Qed.
Lemma rep_trained vectors x : ivf_train (new_ivf dim nc) vectors cents = Ok x -> Rep x [] /\ i_nprobe x = Z.min (Z.of_nat nc) 10.
Proof.
  unfold ivf_train. cbn [i_nc new_ivf]. destruct (Nat.ltb _ _); [discriminate|]. destruct (Nat.eqb nc 0); [discriminate|]. intros [= <-]. cbn. split; auto.
  unfold Rep. cbn. repeat (split; auto). clear. generalize 0. generalize (length cents) as m. induction m; intros n; cbn; f_equal. auto.
Qed.

(** search *)
Fixpoint selected (k : nat) (l : list pair) (cs : list nat) : list nat :=
  match l with
  | [] => []
  | p :: l' => (if existsb (Nat.eqb (list_of (snd p))) cs then [k] else []) ++ selected (S k) l' cs
  end.
Lemma flat_map_split (a k : nat) (g : nat -> list nat) cs : NoDup cs ->
  Permutation (flat_map (fun c => (if Nat.eqb a c then [k] else []) ++ g c) cs) ((if existsb (Nat.eqb a) cs then [k] else []) ++ flat_map g cs).
Proof.
  induction 1 as [|c cs Hc N IH]; cbn; auto. destruct (Nat.eqb_spec a c) as [->|Ne]; cbn [orb app].
  - assert (E : existsb (Nat.eqb c) cs = false).
    { destruct (existsb (Nat.eqb c) cs) eqn:E; auto. apply existsb_exists in E as (y & Hy & Ey). apply Nat.eqb_eq in Ey. subst. contradiction. }
    rewrite E in IH. apply perm_skip. apply Permutation_app_head. exact IH.
  - eapply perm_trans; [apply Permutation_app_head; exact IH|]. rewrite !app_assoc. apply Permutation_app_tail. apply Permutation_app_comm.
Qed.
Lemma selected_perm l : forall k cs, NoDup cs -> Permutation (flat_map (members k l) cs) (selected k l cs).
Proof.
  induction l as [|p l IH]; intros k cs N; cbn [selected].
  - replace (flat_map (members k []) cs) with (@nil nat); auto. clear N. induction cs; cbn; auto.
  - change (flat_map (members k (p :: l)) cs) with (flat_map (fun c => (if Nat.eqb (list_of (snd p)) c then [k] else []) ++ members (S k) l c) cs).
    eapply perm_trans; [apply flat_map_split; auto|]. apply Permutation_app_head. auto.
Qed.
Lemma gather_ok vecs q is_ : (forall i, In i is_ -> i < length vecs) -> gather dist vecs q is_ = Ok (map (fun i => (dist q (nth i vecs []), i)) is_).
Proof.
  induction is_ as [|i is_ IH]; intros H; cbn [gather map]; auto. rewrite (nth_error_nth' vecs []) by (apply H; left; auto).
  rewrite IH by (intros j Hj; apply H; right; auto). reflexivity.
Qed.
Lemma name_ok ids l : (forall d i, In (d, i) l -> i < length ids) -> name_results ids l = Ok (map (fun p => (fst p, nth (snd p) ids EmptyString)) l).
Proof.
  induction l as [|[d i] l IH]; intros H; cbn [name_results map fst snd]; auto. rewrite (nth_error_nth' ids EmptyString) by (eapply H; left; auto).
  rewrite IH by (intros; eapply H; right; eauto). reflexivity.
Qed.
Lemma selected_named q cs b : forall a,
  map (fun i => (dist q (nth i (map snd (a ++ b)) []), nth i (map fst (a ++ b)) EmptyString)) (selected (length a) b cs) =
  with_distance dist q (filter (fun p => existsb (Nat.eqb (list_of (snd p))) cs) b).
Proof.
  induction b as [|p b IH]; intros a; cbn [selected filter]; auto. rewrite map_app.
  assert (E : a ++ p :: b = (a ++ [p]) ++ b) by (rewrite <- app_assoc; auto). specialize (IH (a ++ [p])). rewrite app_length, Nat.add_comm in IH. cbn [length Nat.add] in IH.
  rewrite E, IH. destruct (existsb _ cs); cbn [map app]; auto. unfold with_distance at 2. cbn [map]. f_equal.
  rewrite <- E, !map_app. cbn [map].
  replace (length a) with (length (map snd a)) at 1 by apply map_length. rewrite nth_middle.
  replace (length a) with (length (map fst a)) by apply map_length. rewrite nth_middle. reflexivity.
Qed.
Lemma selected_range l : forall k cs i, In i (selected k l cs) -> k <= i < k + length l.
Proof.
  induction l as [|p l IH]; intros k cs i; cbn [selected length]; [intros []|]. rewrite in_app_iff. intros [H|H].
  - destruct (existsb _ _); [destruct H as [<-|[]]; lia|destruct H].
  - apply IH in H. lia.
Qed.
Lemma centroid_dists_snd q : map snd (centroid_dists dist cents q) = seq 0 nc.
Proof.
  unfold centroid_dists. assert (K : forall (a : list float) (b : list nat), length a = length b -> map snd (combine a b) = b).
  { induction a; intros [|y b] H; cbn in *; auto; try discriminate. f_equal. auto. }
  apply K. rewrite map_length, seq_length. auto.
Qed.
Lemma nearest_ok v : in_reach dist cents v -> is_nearest dist cents v (list_of v).
Proof.
  intros (x & Hx & F). unfold nearest_centroid. destruct (argmin_loop _ _ _ _) as [m i] eqn:E. cbn [snd].
  apply In_nth_error in Hx as [j Hj].
  destruct (argmin_loop_found (map (dist v) cents) max_float32 m i) as [A B]; auto.
  - discriminate.
  - exists j, (dist v x). split; auto. rewrite nth_error_map, Hj. auto.
  - rewrite nth_error_map in A. destruct (nth_error cents i) as [c|] eqn:Ec; [|discriminate]. injection A as <-. exists c. split; auto.
    intros y Hy. apply In_nth_error in Hy as [n Hn]. apply (B n). rewrite nth_error_map, Hn. auto.
Qed.
Lemma nearest_lt v : 1 <= nc -> list_of v < nc.
Proof.
  intros H. unfold nearest_centroid. destruct (argmin_loop _ _ _ _) as [m i] eqn:E. cbn [snd].
  apply argmin_loop_spec in E as (_ & _ & _ & [[_ ->]|(_ & A & _)]); [lia| |discriminate].
  rewrite Nat.sub_0_r in A. assert (i < length (map (dist v) cents)) by (apply nth_error_Some; congruence). rewrite map_length in *. auto.
Qed.
Definition probed_lists (srt : list (float * nat) -> list (float * nat)) (x : ivf) (q : vecN) : list nat :=
  map snd (firstn (Z.to_nat (Z.min (i_nprobe x) (Z.of_nat nc))) (srt (centroid_dists dist cents q))).
Lemma search_form srt x l q k : sort_ok closer srt -> Rep x l -> length q = dim -> (0 <= k)%Z ->
  let cs := probed_lists srt x q in
  exists cands h, ivf_search dist srt x q k = Ok (map h (firstn (Z.to_nat k) (srt cands))) /\
    (forall p, fst (h p) = fst p) /\
    Permutation (map h cands) (with_distance dist q (filter (fun p => existsb (Nat.eqb (list_of (snd p))) cs) l)).
Proof.
  intros Hs R Lq Hk cs. pose proof R as (T & Nc & D & C & V & Is & Iv).
  unfold ivf_search. rewrite T, D, Lq, Nat.eqb_refl. cbn [negb]. rewrite Nc, C. unfold probed_lists in cs.
  set (probed := firstn (Z.to_nat (Z.min (i_nprobe x) (Z.of_nat nc))) (srt (centroid_dists dist cents q))) in *.
  assert (Pc : Permutation (centroid_dists dist cents q) (srt (centroid_dists dist cents q))) by apply Hs.
  assert (Hall : Permutation (seq 0 nc) (map snd (srt (centroid_dists dist cents q)))) by (rewrite <- (centroid_dists_snd q); apply Permutation_map; auto).
  assert (Ncs : NoDup cs).
  { unfold cs, probed. rewrite <- firstn_map. apply NoDup_firstn. eapply Permutation_NoDup; [exact Hall|apply seq_NoDup]. }
  assert (Rcs : forall c, In c cs -> c < nc).
  { intros c Hc. unfold cs, probed in Hc. rewrite <- firstn_map in Hc. apply in_firstn in Hc. apply (Permutation_in _ (Permutation_sym Hall)) in Hc. apply in_seq in Hc. lia. }
  assert (Hl : flat_map (fun p => nth (snd p) (i_inv x) []) probed = flat_map (members 0 l) cs).
  { unfold cs. clear - Iv Rcs. unfold cs in Rcs. induction probed as [|p pr IH]; cbn; auto. f_equal; [|apply IH; intros c Hc; apply Rcs; right; auto].
    rewrite Iv. assert (Hp : snd p < nc) by (apply Rcs; left; auto). rewrite (nth_indep _ [] (members 0 l 0)) by (rewrite map_length, seq_length; auto).
    rewrite map_nth. rewrite seq_nth by auto. auto. }
  rewrite Hl. pose proof (selected_perm l 0 cs Ncs) as Ps.
  assert (Rg : forall i, In i (flat_map (members 0 l) cs) -> i < length l).
  { intros i Hi. apply (Permutation_in _ Ps) in Hi. apply selected_range in Hi. lia. }
  rewrite gather_ok by (intros i Hi; rewrite V, map_length; auto). cbn [bind]. destruct (Z.ltb_spec k 0); [lia|].
  set (cands := map (fun i => (dist q (nth i (i_vecs x) []), i)) (flat_map (members 0 l) cs)).
  assert (Pcands : Permutation cands (srt cands)) by apply Hs.
  rewrite name_ok.
  2:{ intros d i Hi. apply in_firstn in Hi. apply (Permutation_in _ (Permutation_sym Pcands)) in Hi. unfold cands in Hi. apply in_map_iff in Hi as (j & [= _ ->] & Hj).
      rewrite Is, map_length. auto. }
  exists cands, (fun p => (fst p, nth (snd p) (i_ids x) EmptyString)). split; [reflexivity|]. split; [reflexivity|].
  unfold cands. rewrite map_map. cbn [fst snd]. rewrite <- (selected_named q cs l []). cbn [app length].
  rewrite V, Is. apply Permutation_map. exact Ps.
Qed.
Lemma search_ok srt x l q k : sort_ok closer srt -> Rep x l -> length q = dim -> (0 <= k)%Z ->
  distances_are_numbers dist q (map snd l) ->
  exists out, ivf_search dist srt x q k = Ok out /\
    is_topk nearer (Z.to_nat k) (with_distance dist q (filter (fun p => existsb (Nat.eqb (list_of (snd p))) (probed_lists srt x q)) l)) out.
Proof.
  intros Hs R Lq Hk Nn. destruct (search_form srt x l q k Hs R Lq Hk) as (cands & h & E & Hh & P). eexists. split; [exact E|].
  assert (Hcl : forall p, In p cands -> not_nan (fst p)).
  { intros p Hp. rewrite <- Hh. apply (in_map h) in Hp. apply (Permutation_in _ P) in Hp. unfold with_distance in Hp. apply in_map_iff in Hp as (y & <- & Hy). cbn.
    apply filter_In in Hy as [Hy _]. apply Nn. apply in_map. auto. }
  eapply is_topk_perm; [exact P|]. eapply is_topk_map with (ba := closer); [intros a b; unfold nearer, closer; rewrite !Hh; auto|].
  apply topk_of_sort; auto. apply weak_order_asc. auto.
Qed.
Lemma search_sound srt x l q k out : sort_ok closer srt -> Rep x l -> ivf_search dist srt x q k = Ok out ->
  incl out (with_distance dist q l).
Proof.
  intros Hs R E. assert (Lq : length q = dim). { destruct R as (T & _ & D & _). unfold ivf_search in E. rewrite T, D in E. destruct (Nat.eqb_spec (length q) dim); auto. discriminate. }
  assert (Hk : (0 <= k)%Z). { unfold ivf_search in E. destruct (negb (i_trained x)); [discriminate|]. destruct (negb _); [discriminate|]. destruct (gather _ _ _ _); cbn in E; try discriminate. destruct (Z.ltb_spec k 0); [discriminate|lia]. }
  destruct (search_form srt x l q k Hs R Lq Hk) as (cands & h & E' & _ & P). rewrite E in E'. injection E' as ->.
  intros y Hy. apply in_map_iff in Hy as (p & <- & Hp). apply in_firstn in Hp. apply (Permutation_in _ (Permutation_sym (proj1 (Hs cands)))) in Hp.
  apply (in_map h) in Hp. apply (Permutation_in _ P) in Hp. unfold with_distance in *. apply in_map_iff in Hp as (z & <- & Hz). apply filter_In in Hz as [Hz _].
  apply in_map_iff. exists z. auto.
Qed.
Lemma all_probed srt x (l : list pair) q : sort_ok closer srt -> 1 <= nc -> (Z.of_nat nc <= i_nprobe x)%Z ->
  filter (fun p => existsb (Nat.eqb (list_of (snd p))) (probed_lists srt x q)) l = l.
Proof.
  intros Hs Hn Hp. apply filter_all. intros p _. apply existsb_exists. exists (list_of (snd p)). split; [|apply Nat.eqb_refl].
  unfold probed_lists. rewrite Z.min_r, Nat2Z.id by auto.
  assert (P : Permutation (centroid_dists dist cents q) (srt (centroid_dists dist cents q))) by apply Hs.
  rewrite firstn_all2.
  - eapply Permutation_in; [apply Permutation_map; exact P|]. rewrite centroid_dists_snd. apply in_seq. pose proof (nearest_lt (snd p) Hn). lia.
  - rewrite <- (Permutation_length P). unfold centroid_dists. rewrite combine_length, seq_length, map_length. lia.
Qed.
Lemma probe_topk srt x q : sort_ok closer srt -> distances_are_numbers dist q cents ->
  is_topk closer (Z.to_nat (Z.min (i_nprobe x) (Z.of_nat nc))) (centroid_dists dist cents q)
    (firstn (Z.to_nat (Z.min (i_nprobe x) (Z.of_nat nc))) (srt (centroid_dists dist cents q))).
Proof.
  intros Hs Nn. apply topk_of_sort; auto. apply weak_order_asc. intros [d i] H. unfold centroid_dists in H. apply in_combine_l in H.
  apply in_map_iff in H as (c & <- & Hc). apply Nn; auto.
Qed.

Lemma train_pos vectors x : ivf_train (new_ivf dim nc) vectors cents = Ok x -> 1 <= nc.
Proof. unfold ivf_train. cbn [i_nc new_ivf]. destruct (Nat.ltb _ _); [discriminate|]. destruct (Nat.eqb_spec nc 0); [discriminate|]. lia. Qed.
Lemma run_rep vectors x ops : ivf_train (new_ivf dim nc) vectors cents = Ok x -> deletes_last dim list_of [] ops ->
  Rep (irun dist x ops) (stored dim ops) /\ i_nprobe (irun dist x ops) = probes nc ops.
Proof. intros T H. destruct (rep_trained vectors x T) as [R N]. destruct (rep_run ops x [] R H) as [A B]. split; auto. unfold probes. rewrite <- N. auto. Qed.
End P.
