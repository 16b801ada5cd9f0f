(** Proofs about the training of the store's IVF index. *)
From Coq Require Import String List NArith ZArith Bool Lia Permutation Sorted.
From Coq Require Import ZifyBool ZifyNat.
From Coq Require Import Floats.SpecFloat.
From Verif Require Import Base Floats64 TopK EncodingModel DimensionModel StoreModel StoreSpec StoreProofs StoreInv StoreProofs2 StoreProofs3
  SearchModel SearchSpec SearchProofs IvfModel IvfSpec IvfProofs TrainModel TrainSpec.
Import ListNotations.

(** *** An index that never changes, to separate the data from the index *)
Section Frozen.
Variable I : index_ops.
Definition frozen : index_ops := {| ix := ix I; ix_insert := fun i _ _ => i; ix_delete := fun i _ => i; ix_search := ix_search I |}.
Definition fz (s : store I) (i : ix I) : store frozen :=
  Build_store frozen (st_db I s) (st_dim I s) (st_policy I s) (st_closed I s) i.
Lemma fold_same {A B} (f : A -> B -> A) l (a : A) : (forall x y, f x y = x) -> fold_left f l a = a.
Proof. intros H. revert a. induction l as [|b l IH]; intros a; cbn [fold_left]; auto. rewrite H. auto. Qed.
Ltac crush := repeat match goal with
  | |- context [if ?b then _ else _] => destruct b eqn:?; cbn [fst snd]
  | |- context [match ?x with _ => _ end] => destruct x eqn:?; cbn [fst snd]
  end; try reflexivity.
Lemma fz_upsert ev s e i : fst (upsert frozen ev (fz s i) e) = fz (fst (upsert I ev s e)) i.
Proof.
  destruct s as [d dm p c j]. unfold fz, upsert. cbn [st_db st_dim st_policy st_closed st_ix]. destruct c; [reflexivity|].
  destruct (Z.eqb dm 0); unfold with_dim; cbn [st_db st_dim st_policy st_closed st_ix]; crush.
Qed.
Lemma fz_step ev s o i : fst (step frozen ev (fz s i) o) = fz (fst (step I ev s o)) i.
Proof.
  destruct o; cbn [step]; [apply fz_upsert|..]; destruct s as [sd dm sp sc j]; unfold fz.
  - unfold upsert_batch. cbn [st_db st_dim st_policy st_closed st_ix]. destruct sc; [reflexivity|]. destruct es as [|e es]; [reflexivity|].
    destruct (negb _); [reflexivity|]. destruct (batch_rows _ _ _ _); [|reflexivity..]. destruct (ev_ok _ _); [|reflexivity].
    unfold with_ix, with_db. cbn [fst st_db st_dim st_policy st_closed st_ix]. f_equal. apply fold_same. reflexivity.
  - unfold delete. cbn [st_db st_dim st_policy st_closed st_ix]. crush.
  - unfold delete_by_doc. cbn [st_db st_dim st_policy st_closed st_ix]. crush.
  - unfold delete_batch. cbn [st_db st_dim st_policy st_closed st_ix]. crush; unfold with_ix, with_db; cbn; f_equal; apply fold_same; reflexivity.
  - unfold delete_where. cbn [st_db st_dim st_policy st_closed st_ix]. crush; unfold with_ix, with_db; cbn; f_equal; apply fold_same; reflexivity.
  - unfold clear. cbn [st_db st_dim st_policy st_closed st_ix]. crush.
  - unfold clear_by_docs. cbn [st_db st_dim st_policy st_closed st_ix]. crush.
  - unfold create_collection. cbn [st_db st_dim st_policy st_closed st_ix]. crush.
  - unfold delete_collection. cbn [st_db st_dim st_policy st_closed st_ix]. crush.
  - unfold create_document. cbn [st_db st_dim st_policy st_closed st_ix]. crush.
  - unfold update_document. cbn [st_db st_dim st_policy st_closed st_ix]. crush.
  - unfold delete_document. cbn [st_db st_dim st_policy st_closed st_ix]. crush; unfold with_ix, with_db; cbn; f_equal; apply fold_same; reflexivity.
  - reflexivity.
Qed.
End Frozen.

(** *** Facts about the index kept by the store *)
Section T.
Variable dist : list N -> list N -> float.
Variable csrt : list (float * nat) -> list (float * nat).
Notation I := (ivf_ix dist csrt).
Notation store := (StoreModel.store I).

Lemma with_same (s : store) : with_ix I s (st_ix I s) = s.
Proof. destruct s; reflexivity. Qed.
Lemma train_parts cf ev scan kmeans s n : exists i r, train_index dist csrt cf ev scan kmeans s n = (with_ix I s i, r).
Proof.
  assert (K : forall r, exists i r', (s, r) = (with_ix I s i, r') :> store * outcome unit) by (intros r; exists (st_ix I s), r; rewrite with_same; reflexivity).
  unfold train_index. destruct (st_closed I s); [apply K|]. destruct (negb (cf_ivf cf)); [apply K|]. cbv zeta.
  match goal with |- context [match ?o with Some x0 => _ | None => (s, Err EOther) end] => destruct o as [x|] end; [|apply K].
  destruct (negb _); [eauto|]. destruct (oks _) as [|a l]; [eauto|]. destruct (Nat.ltb _ _); [eauto|]. destruct (kmeans _ _); [|eauto..].
  destruct (ivf_train _ _ _); eauto.
Qed.

Lemma frozen_reachable cf envs s : ivf_store dist csrt cf envs s -> forall i, reachable (frozen I) envs (fz I s i).
Proof.
  induction 1 as [dim p s H|s ev o H IH He|s ev scan kmeans n H IH Hs Hk|s dim p s' H IH Ho]; intros i.
  - unfold open_store in H. destruct (Z.ltb dim 0) eqn:E; [discriminate|]. injection H as <-.
    apply (reach_new (frozen I) envs dim p i). unfold open_store. rewrite E. reflexivity.
  - rewrite <- fz_step. apply reach_step; auto.
  - replace (fz I (fst (train_index dist csrt cf ev scan kmeans s n)) i) with (fz I s i); [apply IH|].
    destruct (train_parts cf ev scan kmeans s n) as (j & r & ->). reflexivity.
  - unfold open_store in Ho. destruct (Z.ltb dim 0) eqn:E; [discriminate|]. injection Ho as <-.
    apply (reach_reopen (frozen I) envs (fz I s i) dim p i); auto. unfold open_store. rewrite E. reflexivity.
Qed.

Definition shape (cf : iconf) (dim : Z) (x : ivf) : Prop :=
  i_dim x = Z.to_nat dim /\ (0 < dim)%Z /\ 0 < i_nc x /\ length (i_inv x) = i_nc x /\
  (Z.min (Z.of_nat (i_nc x)) (Z.min 10 (if Z.ltb 0 (cf_nprobe cf) then cf_nprobe cf else 10)) <= i_nprobe x)%Z.
Lemma istep_shape cf dim x o : match o with IAdd _ _ | IDelete _ | IClear => True | ISetProbe _ => False end ->
  shape cf dim x -> shape cf dim (istep dist x o).
Proof.
  intros Ho (A & B & C & D & E). destruct o as [id v|id| |]; cbn [istep]; [..|contradiction].
  - unfold ivf_add. destruct (negb _); [repeat (split; auto)|]. destruct (negb _); [repeat (split; auto)|]. unfold shape. cbn.
    repeat (split; auto). unfold push_list. rewrite map_length, combine_length, seq_length. lia.
  - unfold ivf_delete. destruct (negb _); [repeat (split; auto)|]. destruct (index_of _ _); [|repeat (split; auto)]. unfold shape. cbn.
    rewrite map_length. repeat (split; auto).
  - unfold shape. cbn. rewrite map_length. repeat (split; auto).
Qed.
Lemma new_shape cf dim n : (0 < dim)%Z -> (0 < n)%Z -> shape cf dim (new_ivf (Z.to_nat dim) (Z.to_nat n)).
Proof. intros A B. unfold shape. cbn. rewrite repeat_length. destruct (Z.ltb_spec 0 (cf_nprobe cf)); repeat (split; auto); lia. Qed.
Lemma conf_pos cf : (0 < conf_centroids cf)%Z.
Proof. unfold conf_centroids. destruct (Z.leb_spec (cf_nc cf) 0); lia. Qed.
Lemma init_shape cf dim x : init_ivf cf dim = Some x -> shape cf dim x /\ i_trained x = false.
Proof.
  unfold init_ivf. destruct (negb _); [discriminate|]. destruct (Z.leb_spec dim 0); [discriminate|]. intros [= <-].
  pose proof (conf_pos cf). pose proof (new_shape cf dim _ ltac:(lia) H0) as (A & B & C & D & E).
  destruct (Z.ltb_spec 0 (cf_nprobe cf)); [|split; [|reflexivity]; unfold shape; destruct (Z.ltb_spec 0 (cf_nprobe cf)); [lia|]; repeat (split; auto)].
  split; [|reflexivity]. unfold shape. destruct (Z.ltb_spec 0 (cf_nprobe cf)); [|lia]. unfold ivf_set_nprobe. cbn. rewrite repeat_length. repeat (split; auto); lia.
Qed.

(** Every call of the store leaves the index alone or adds or removes entries. *)
Inductive touched : option ivf -> option ivf -> Prop :=
| to_same i : touched i i
| to_more i j o : touched i j -> match o with IAdd _ _ | IDelete _ => True | _ => False end -> touched i (option_map (fun x => istep dist x o) j).
Lemma touched_trans i j k : touched i j -> touched j k -> touched i k.
Proof. intros A B. revert A. induction B; intros A; auto. apply to_more; auto. Qed.
Lemma fold_touched {A} (f : A -> iop) (l : list A) : (forall a, match f a with IAdd _ _ | IDelete _ => True | _ => False end) ->
  forall i j, touched i j -> touched i (fold_left (fun z a => option_map (fun x => istep dist x (f a)) z) l j).
Proof. intros H. induction l as [|a l IH]; intros i j T; cbn [fold_left]; auto. apply IH. apply (to_more _ _ (f a)); [exact T|exact (H a)]. Qed.
Lemma step_ix ev (s : store) o : touched (st_ix I s) (st_ix I (fst (step I ev s o))) /\
  (st_dim I (fst (step I ev s o)) = st_dim I s \/ st_dim I s = 0%Z).
Proof.
  destruct o; cbn [step].
  - destruct (upsert I ev s e) as [s' r] eqn:E. cbn [fst]. destruct r as [[]|x|].
    + apply upsert_inv in E as (v & cid & blob & H & _ & Ee & _ & D & Ix & _ & _ & Dm & _ & Hfk). rewrite Ix. split; [apply (to_more _ _ (IAdd (e_id e) v)); [constructor|auto]|].
      rewrite Dm. destruct (Z.eqb_spec (st_dim I s) 0); auto.
    + unfold upsert in E. destruct (st_closed I s); [injection E as <- _; split; [constructor|auto]|]. split.
      * revert E. destruct (Z.eqb (st_dim I s) 0); repeat match goal with |- context [match ?x with _ => _ end] => destruct x end; intros [= <-]; try discriminate; constructor.
      * destruct (Z.eqb_spec (st_dim I s) 0); auto. left. revert E. repeat match goal with |- context [match ?x with _ => _ end] => destruct x end; intros [= <-]; try discriminate; reflexivity.
    + unfold upsert in E. destruct (st_closed I s); [injection E as <- _; split; [constructor|auto]|]. split.
      * revert E. destruct (Z.eqb (st_dim I s) 0); repeat match goal with |- context [match ?x with _ => _ end] => destruct x end; intros [= <-]; try discriminate; constructor.
      * destruct (Z.eqb_spec (st_dim I s) 0); auto. left. revert E. repeat match goal with |- context [match ?x with _ => _ end] => destruct x end; intros [= <-]; try discriminate; reflexivity.
  - unfold upsert_batch. repeat match goal with |- context [match ?x with _ => _ end] => destruct x; cbn [fst]; try (split; [apply to_same|solve [auto]]) end.
    unfold with_ix, with_db. cbn [st_ix st_dim]. split; auto. apply (fold_touched (fun e => IAdd (e_id e) (vec_of e))); [auto|constructor].
  - unfold delete. repeat match goal with |- context [if ?x then _ else _] => destruct x; cbn [fst]; try (split; [apply to_same|solve [auto]]) end.
    unfold with_ix, with_db. cbn [st_ix st_dim]. split; auto. apply (to_more _ _ (IDelete id)); [constructor|auto].
  - unfold delete_by_doc. repeat match goal with |- context [if ?x then _ else _] => destruct x; cbn [fst]; try (split; [apply to_same|solve [auto]]) end.
  - unfold delete_batch. repeat match goal with |- context [match ?x with _ => _ end] => destruct x; cbn [fst]; try (split; [apply to_same|solve [auto]]) end.
    all: unfold with_ix, with_db; cbn [st_ix st_dim]; split; auto; try apply to_same; apply (fold_touched IDelete); [intros; exact Logic.I|apply to_same].
  - unfold delete_where. repeat match goal with |- context [match ?x with _ => _ end] => destruct x; cbn [fst]; try (split; [apply to_same|solve [auto]]) end.
    all: unfold with_ix, with_db; cbn [st_ix st_dim]; split; auto; try apply to_same; apply (fold_touched IDelete); [intros; exact Logic.I|apply to_same].
  - unfold clear. repeat match goal with |- context [match ?x with _ => _ end] => destruct x; cbn [fst]; try (split; [apply to_same|solve [auto]]) end.
  - unfold clear_by_docs. repeat match goal with |- context [match ?x with _ => _ end] => destruct x; cbn [fst]; try (split; [apply to_same|solve [auto]]) end.
  - unfold create_collection. destruct (st_closed I s); [cbn [fst]; split; [apply to_same|auto]|]. destruct (find_coll _ _); [cbn [fst]; split; [apply to_same|auto]|].
    destruct (Z.ltb dims 0); [cbn [fst]; split; [apply to_same|auto]|]. destruct (negb _); cbn [fst]; (split; [apply to_same|auto]).
  - unfold delete_collection. repeat match goal with |- context [match ?x with _ => _ end] => destruct x; cbn [fst]; try (split; [apply to_same|solve [auto]]) end.
  - unfold create_document. repeat match goal with |- context [match ?x with _ => _ end] => destruct x; cbn [fst]; try (split; [apply to_same|solve [auto]]) end.
  - unfold update_document. repeat match goal with |- context [match ?x with _ => _ end] => destruct x; cbn [fst]; try (split; [apply to_same|solve [auto]]) end.
  - unfold delete_document. repeat match goal with |- context [match ?x with _ => _ end] => destruct x; cbn [fst]; try (split; [apply to_same|solve [auto]]) end.
    all: unfold with_ix, with_db; cbn [st_ix st_dim]; split; auto; try apply to_same; apply (fold_touched IDelete); [intros; exact Logic.I|apply to_same].
  - split; [constructor|auto].
Qed.

Lemma touched_shape cf dim i j : touched i j -> (forall x, i = Some x -> shape cf dim x) -> forall y, j = Some y -> shape cf dim y.
Proof.
  induction 1 as [i|i j o T IH Ho]; intros H y E; auto. destruct j as [x|]; [|discriminate]. injection E as <-. apply istep_shape; [destruct o; auto|]. apply IH; auto.
Qed.
Lemma touched_none j : touched None j -> j = None.
Proof. remember None as i. induction 1; auto. rewrite (IHtouched Heqi), Heqi. reflexivity. Qed.
Lemma touched_untrained i j : touched i j -> (forall x, i = Some x -> i_trained x = false) -> forall y, j = Some y -> i_trained y = false.
Proof.
  induction 1 as [i|i j o T IH Ho]; intros H y E; auto. destruct j as [x|]; [|discriminate]. injection E as <-. specialize (IH H x eq_refl).
  destruct o; try contradiction; cbn [istep]; [unfold ivf_add|unfold ivf_delete]; rewrite IH; cbn; auto.
Qed.

(** What a call of TrainIndex did. *)
Definition n_wanted (cf : iconf) (n : Z) : Z := if Z.leb n 0 then conf_centroids cf else n.
Definition read_pairs (scan : list row -> list row) (s : store) : list (string * list N) :=
  oks (map (fun r => bind (decode_vector (r_blob r)) (fun v => Ok (r_id r, v))) (scan (t_rows (st_db I s)))).
Definition blank (cf : iconf) (s : store) (n : Z) (x : ivf) : Prop :=
  i_nc x = Z.to_nat (n_wanted cf n) /\ i_vecs x = [] /\ i_ids x = [] /\
  (shape cf (st_dim I s) x) /\
  (i_trained x = false \/ exists x0, st_ix I s = Some x0 /\ i_trained x0 = true).
Lemma wanted_pos cf n : (0 < n_wanted cf n)%Z.
Proof. unfold n_wanted. pose proof (conf_pos cf). destruct (Z.leb_spec n 0); lia. Qed.
Lemma train_inv cf ev scan kmeans s n s' r :
  (forall x, st_ix I s = Some x -> shape cf (st_dim I s) x) -> train_index dist csrt cf ev scan kmeans s n = (s', r) ->
  (s' = s /\ r <> Ok tt /\ (st_closed I s = true \/ cf_ivf cf = false \/ (st_ix I s = None /\ (st_dim I s <= 0)%Z))) \/
  (st_closed I s = false /\ cf_ivf cf = true /\ (st_ix I s <> None \/ (0 < st_dim I s)%Z) /\ exists x, blank cf s n x /\
    ((s' = with_ix I s (Some x) /\ r <> Ok tt /\
       (ev_ok ev 0 = false \/ length (read_pairs scan s) < Z.to_nat (n_wanted cf n) \/
        (forall cs, kmeans (map snd (read_pairs scan s)) (i_nc x) <> Ok cs))) \/
     (exists cents y, r = Ok tt /\ ev_ok ev 0 = true /\ Z.to_nat (n_wanted cf n) <= length (read_pairs scan s) /\
        kmeans (map snd (read_pairs scan s)) (i_nc x) = Ok cents /\ ivf_train x (map snd (read_pairs scan s)) cents = Ok y /\
        s' = with_ix I s (Some (fold_left (fun z p => istep dist z (IAdd (fst p) (snd p))) (read_pairs scan s) y))))).
Proof.
  intros Hsh. unfold train_index. destruct (st_closed I s) eqn:Ec; [intros [= <- <-]; left; split; auto; split; [discriminate|auto]|].
  destruct (cf_ivf cf) eqn:Ei; cbn [negb]; [|intros [= <- <-]; left; split; auto; split; [discriminate|auto]]. cbv zeta. fold (n_wanted cf n). fold (read_pairs scan s).
  pose proof (wanted_pos cf n) as Wp.
  match goal with |- context [match ?o with Some x0 => _ | None => (s, Err EOther) end] => destruct o as [x|] eqn:Eo end.
  2:{ intros [= <- <-]. left. split; auto. split; [discriminate|]. destruct (st_ix I s); [discriminate|]. destruct (Z.leb_spec (st_dim I s) 0); [auto|discriminate]. }
  intros E. right. split; auto. split; auto.
  assert (B : blank cf s n x /\ (st_ix I s <> None \/ (0 < st_dim I s)%Z)).
  { unfold blank. destruct (st_ix I s) as [x0|] eqn:Ex; [|destruct (Z.leb_spec (st_dim I s) 0); [discriminate|]]; injection Eo as <-.
    - specialize (Hsh x0 eq_refl). split; [|left; discriminate]. destruct (Nat.eqb_spec (i_nc x0) (Z.to_nat (n_wanted cf n))) as [e|e].
      + split; [exact e|]. split; [reflexivity|]. split; [reflexivity|]. split; [apply (istep_shape cf _ x0 IClear); auto|].
        cbn [ivf_clear i_trained]. destruct (i_trained x0) eqn:Et; auto. right. exists x0. auto.
      + split; [reflexivity|]. split; [reflexivity|]. split; [reflexivity|]. split; [|left; reflexivity]. apply new_shape; auto. apply Hsh.
    - split; [|auto]. split; [reflexivity|]. split; [reflexivity|]. split; [reflexivity|]. split; [|left; reflexivity]. apply new_shape; auto. }
  destruct B as [B B2]. split; auto. exists x. split; auto. destruct (ev_ok ev 0) eqn:Eok; cbn [negb] in E; [|injection E as <- <-; left; split; auto; split; [discriminate|auto]].
  destruct B as (Nc & _). destruct (read_pairs scan s) as [|a l] eqn:Ep.
  { injection E as <- <-. left. split; auto. split; [discriminate|]. right. left. cbn. lia. }
  destruct (Nat.ltb_spec (length (a :: l)) (i_nc x)); [injection E as <- <-; left; split; auto; split; [discriminate|]; right; left; lia|].
  destruct (kmeans (map snd (a :: l)) (i_nc x)) as [cents|e|] eqn:Ek.
  2,3: injection E as <- <-; left; split; auto; split; [discriminate|]; right; right; intros cs; discriminate.
  destruct (ivf_train x (map snd (a :: l)) cents) as [y|e|] eqn:Et.
  - injection E as <- <-. right. exists cents, y. split; auto. split; auto. split; [lia|]. auto.
  - exfalso. unfold ivf_train in Et. rewrite map_length in Et. destruct (Nat.ltb_spec (length (a :: l)) (i_nc x)); [lia|]. destruct (Nat.eqb_spec (i_nc x) 0); [lia|]. discriminate.
  - exfalso. unfold ivf_train in Et. rewrite map_length in Et. destruct (Nat.ltb_spec (length (a :: l)) (i_nc x)); [lia|]. destruct (Nat.eqb_spec (i_nc x) 0); [lia|]. discriminate.
Qed.
Lemma train_shape cf dim x vs cents y : ivf_train x vs cents = Ok y -> shape cf dim x -> shape cf dim y.
Proof.
  unfold ivf_train. destruct (Nat.ltb _ _); [discriminate|]. destruct (Nat.eqb _ 0); [discriminate|]. intros [= <-] (A & B & C & D & E).
  unfold shape. cbn. rewrite map_length. repeat (split; auto).
Qed.
Lemma adds_shape cf dim l : forall x, shape cf dim x -> shape cf dim (fold_left (fun z p => istep dist z (IAdd (fst p) (snd p))) l x).
Proof. induction l as [|p l IH]; intros x H; cbn [fold_left]; auto. apply IH. apply istep_shape; auto. Qed.
Lemma ivf_store_shape cf envs s : ivf_store dist csrt cf envs s -> forall x, st_ix I s = Some x -> shape cf (st_dim I s) x.
Proof.
  induction 1 as [dim p s H|s ev o H IH He|s ev scan kmeans n H IH Hs Hk|s dim p s' H IH Ho].
  - unfold open_store in H. destruct (Z.ltb dim 0) eqn:E; [discriminate|]. injection H as <-. cbn [st_ix st_dim]. intros x Hx. apply init_shape; auto.
  - destruct (step_ix ev s o) as [T [D|D]].
    + rewrite D. exact (touched_shape cf (st_dim I s) _ _ T IH).
    + destruct (st_ix I s) as [x0|]; [destruct (IH x0 eq_refl) as (_ & P & _); lia|]. apply touched_none in T. rewrite T. discriminate.
  - destruct (train_index dist csrt cf ev scan kmeans s n) as [s' r] eqn:E. cbn [fst]. apply train_inv in E; auto.
    destruct E as [(-> & _)|(_ & _ & _ & x & (_ & _ & _ & Sx & _) & [(-> & _)|(cents & y & _ & _ & _ & _ & Et & ->)])]; auto; cbn [with_ix st_ix st_dim]; intros z [= <-]; auto.
    apply adds_shape. eapply train_shape; eauto.
  - unfold open_store in Ho. destruct (Z.ltb dim 0) eqn:E; [discriminate|]. injection Ho as <-. cbn [st_ix st_dim]. intros x Hx. apply init_shape; auto.
Qed.
End T.
