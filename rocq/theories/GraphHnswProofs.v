(** Proofs about the vector index of the graph. *)
From Coq Require Import String List NArith ZArith Bool Lia Permutation Sorted.
From Coq Require Import Floats.SpecFloat.
From Verif Require Import Base Floats64 TopK StoreModel StoreProofs GraphModel GraphSpec GraphProofs GraphHnswModel GraphHnswSpec.
Import ListNotations.
Open Scope string_scope.
Open Scope list_scope.
Open Scope nat_scope.
From Coq Require Import ZifyBool ZifyNat ZifyN.

(** *** association lists *)
Lemma assoc_drop {A} k k' (l : list (string * A)) : assoc k (drop_key k' l) = if String.eqb k k' then None else assoc k l.
Proof.
  induction l as [|[a v] l IH]; cbn [drop_key filter assoc]; [destruct (String.eqb k k'); reflexivity|]. cbn [fst]. destruct (String.eqb_spec a k') as [->|N]; cbn [negb].
  - change (assoc k (drop_key k' l) = if String.eqb k k' then None else if String.eqb k k' then Some v else assoc k l). rewrite IH. destruct (String.eqb k k'); reflexivity.
  - cbn [assoc]. change (filter _ l) with (drop_key k' l). rewrite IH. destruct (String.eqb_spec k a) as [->|N2]; [|reflexivity]. apply String.eqb_neq in N. rewrite N. reflexivity.
Qed.
Lemma assoc_put {A} k k' (v : A) l : assoc k (put_key k' v l) = if String.eqb k k' then Some v else assoc k l.
Proof. unfold put_key. cbn [assoc]. rewrite assoc_drop. destruct (String.eqb k k'); reflexivity. Qed.
Lemma in_drop {A} k k' (l : list (string * A)) : In k (map fst (drop_key k' l)) <-> In k (map fst l) /\ k <> k'.
Proof.
  unfold drop_key. rewrite !in_map_iff. split.
  - intros ([a v] & <- & H). apply filter_In in H as [H1 H2]. cbn in *. apply negb_true_iff, String.eqb_neq in H2. split; auto. exists (a, v). auto.
  - intros (([a v] & <- & H) & N). exists (a, v). split; auto. apply filter_In. split; auto. cbn in *. apply negb_true_iff, String.eqb_neq. auto.
Qed.
Lemma in_put {A} k k' (v : A) l : In k (map fst (put_key k' v l)) <-> k = k' \/ In k (map fst l).
Proof. unfold put_key. cbn [map fst]. split; [intros [<-|H]; auto; apply in_drop in H as [H _]; auto|]. intros [->|H]; [left; auto|]. destruct (string_dec k k') as [->|N]; [left; auto|right; apply in_drop; auto]. Qed.
Lemma nodup_drop {A} k (l : list (string * A)) : NoDup (map fst l) -> NoDup (map fst (drop_key k l)).
Proof. apply NoDup_map_filter. Qed.
Lemma nodup_put {A} k (v : A) l : NoDup (map fst l) -> NoDup (map fst (put_key k v l)).
Proof. intros H. unfold put_key. cbn [map fst]. constructor; [|apply nodup_drop; auto]. intros C. apply in_drop in C as [_ C]. congruence. Qed.
Lemma assoc_in_keys {A} k (l : list (string * A)) : In k (map fst l) <-> exists v, assoc k l = Some v.
Proof.
  induction l as [|[a v] l IH]; cbn [map fst assoc].
  - split; [intros []|intros (v & H); discriminate].
  - destruct (String.eqb_spec k a) as [->|N].
    + split; [eauto|left; auto].
    + rewrite <- IH. split; [intros [->|H]; [congruence|auto]|intros H; right; exact H].
Qed.

(** *** what the operations do to vectors and entry point *)
Section Ix.
Variable sim : list N -> list N -> float.
Variable mc : nat.
Variable srt : list (string * float) -> list (string * float).

Lemma fold_same {A B} (g : gindex -> B) (f : gindex -> A -> gindex) : (forall h a, g (f h a) = g h) -> forall l h, g (fold_left f l h) = g h.
Proof. intros E l. induction l as [|a l IH]; intros h; cbn; auto. rewrite IH. apply E. Qed.
Lemma init_same {B} (g : gindex -> B) id : (forall h l f, g (at_level h l f) = g h) -> forall h l, g (init_level id h l) = g h.
Proof. intros E h l. unfold init_level, set_conns. destruct (conns h l id); auto. Qed.
Lemma connect_one_same {B} (g : gindex -> B) : (forall h l f, g (at_level h l f) = g h) -> forall h l a b, g (fst (connect_one mc h l a b)) = g h.
Proof. intros E h l a b. unfold connect_one, set_conns. destruct (conns h l a); destruct (_ <? _); try destruct (mem _ _); cbn [fst]; rewrite ?E; auto. Qed.
Lemma connection_same {B} (g : gindex -> B) : (forall h l f, g (at_level h l f) = g h) -> forall h a b l, g (add_connection mc h a b l) = g h.
Proof.
  intros E h a b l. unfold add_connection. pose proof (connect_one_same g E h l a b) as K. destruct (connect_one mc h l a b) as [h1 stop]. cbn [fst] in K.
  destruct stop; auto. rewrite (connect_one_same g E). exact K.
Qed.
Lemma link_same {B} (g : gindex -> B) id v : (forall h l f, g (at_level h l f) = g h) -> forall h l, g (link_level sim mc srt id v h l) = g h.
Proof. intros E h l. unfold link_level. apply (fold_same g (fun h c => add_connection mc h id (fst c) l)). intros. apply connection_same. exact E. Qed.
Lemma unlink_same {B} (g : gindex -> B) id : (forall h l f, g (at_level h l f) = g h) -> forall h l, g (unlink id h l) = g h.
Proof.
  intros E h l. unfold unlink. destruct (conns h l id); auto. rewrite E. apply (fold_same g (fun h c => match conns h l c with Some o => set_conns h l c (remove_first id o) | None => h end)).
  intros. unfold set_conns. destruct (conns h0 l a); auto.
Qed.
Lemma add_vecs h id v l : x_vecs (add sim mc srt h id v l) = put_key id v (x_vecs h).
Proof.
  unfold add. rewrite (fold_same x_vecs (link_level sim mc srt id v)) by (intros; apply link_same; reflexivity).
  match goal with |- context [if ?c then _ else _] => destruct c end; cbn [set_entry x_vecs]; rewrite (fold_same x_vecs (init_level id)) by (intros; apply init_same; reflexivity); reflexivity.
Qed.
Lemma add_entry h id v l : x_entry (add sim mc srt h id v l) = id \/ (x_entry h <> "" /\ x_entry (add sim mc srt h id v l) = x_entry h).
Proof.
  unfold add. rewrite (fold_same x_entry (link_level sim mc srt id v)) by (intros; apply link_same; reflexivity).
  match goal with |- context [if ?c then _ else _] => destruct c eqn:C end; cbn [set_entry x_entry]; [left; reflexivity|right].
  rewrite (fold_same x_entry (init_level id)) in * by (intros; apply init_same; reflexivity). cbn [x_entry] in *. split; auto. apply orb_false_iff in C as [C _]. apply String.eqb_neq. exact C.
Qed.
Lemma remove_vecs ord h id : x_vecs (remove ord h id) = drop_key id (x_vecs h).
Proof.
  unfold remove. generalize (seq 0 max_levels) as ls. intros ls.
  match goal with |- context [if ?c then _ else _] => destruct c end; cbn [set_entry x_vecs]; rewrite (fold_same x_vecs (unlink id)) by (intros; apply unlink_same; reflexivity); reflexivity.
Qed.

(** The entry point is a stored vector unless there is none. *)
Definition entered (h : gindex) : Prop :=
  NoDup (map fst (x_vecs h)) /\ ~ In "" (map fst (x_vecs h)) /\ (x_vecs h = [] -> x_entry h = "") /\ (x_vecs h <> [] -> In (x_entry h) (map fst (x_vecs h))).
Lemma entered_empty : entered empty_index.
Proof. split; [constructor|]. split; [intros []|]. split; auto. intros H. destruct H. reflexivity. Qed.
Lemma add_entered h id v l : id <> "" -> entered h -> entered (add sim mc srt h id v l).
Proof.
  intros Hid (E1 & E2 & E3 & E4). unfold entered. rewrite add_vecs. split; [apply nodup_put; exact E1|]. split; [intros C; apply in_put in C as [C|C]; auto|]. split; [discriminate|].
  intros _. apply in_put. destruct (add_entry h id v l) as [->|[N ->]]; auto. right. apply E4. intros C. rewrite E3 in N; auto.
Qed.
Lemma pick_in (lv : string -> nat) ids e : ~ In "" ids -> (e = "" -> ids <> []) ->
  let r := fold_left (fun e x => if String.eqb e "" || (lv e <? lv x) then x else e) ids e in r <> "" /\ (r = e \/ In r ids).
Proof.
  cbv zeta. revert e. induction ids as [|x ids IH]; intros e N H; cbn [fold_left].
  - split; auto. intros C. destruct (H C). reflexivity.
  - assert (Nx : x <> "") by (intros ->; apply N; left; auto). assert (Ni : ~ In "" ids) by (intros C; apply N; right; auto).
    destruct (String.eqb e "" || (lv e <? lv x)) eqn:C.
    + destruct (IH x Ni (fun E => False_ind _ (Nx E))) as [A [B|B]]; (split; [exact A|]); [right; left; symmetry; exact B|right; right; exact B].
    + apply orb_false_iff in C as [C _]. apply String.eqb_neq in C. destruct (IH e Ni (fun E => False_ind _ (C E))) as [A [B|B]]; (split; [exact A|]); [left; exact B|right; right; exact B].
Qed.
Lemma remove_entered ord h id : (forall l, Permutation l (ord l)) -> entered h -> entered (remove ord h id).
Proof.
  intros O (E1 & E2 & E3 & E4). unfold entered. rewrite remove_vecs. split; [apply nodup_drop; exact E1|]. split; [intros C; apply in_drop in C as [C _]; auto|].
  unfold remove. generalize (seq 0 max_levels) as ls. intros ls. set (h1 := fold_left (unlink id) ls _). assert (V : x_vecs h1 = drop_key id (x_vecs h)) by (unfold h1; rewrite (fold_same x_vecs (unlink id)) by (intros; apply unlink_same; reflexivity); reflexivity).
  assert (X : x_entry h1 = x_entry h) by (unfold h1; rewrite (fold_same x_entry (unlink id)) by (intros; apply unlink_same; reflexivity); reflexivity).
  destruct (String.eqb_spec (x_entry h1) id) as [E|E].
  - cbn [set_entry x_entry]. rewrite V. set (ids := ord _).
    assert (P : Permutation (map fst (drop_key id (x_vecs h))) ids) by apply O. split.
    + intros D. rewrite D in P. apply Permutation_nil in P. rewrite P. reflexivity.
    + intros D. destruct (pick_in (node_level h1) ids "") as [A [B|B]].
      * intros C. apply (Permutation_in _ (Permutation_sym P)) in C. apply in_drop in C as [C _]. auto.
      * intros _ C. rewrite C in P. apply Permutation_sym, Permutation_nil in P. apply map_eq_nil in P. auto.
      * congruence.
      * apply (Permutation_in _ (Permutation_sym P)). exact B.
  - rewrite X in *. split.
    + intros D. destruct (x_vecs h) as [|p l] eqn:Q; [apply E3; reflexivity|]. exfalso. assert (In (x_entry h) (map fst (drop_key id (p :: l)))) by (apply in_drop; split; auto; apply E4; discriminate).
      rewrite D in H. destruct H.
    + intros D. apply in_drop. split; auto. apply E4. intros C. apply D. rewrite C. reflexivity.
Qed.

(** *** searching *)
Hypothesis S : sort_ok closer srt.
(** The candidates are distinct stored vectors with their scores. *)
Definition sound (h : gindex) (q : list N) (c : list (string * float)) (seen : list string) : Prop :=
  NoDup (map fst c) /\ (forall x, In x c -> In (fst x) seen) /\ (forall x, In x c -> exists v, assoc (fst x) (x_vecs h) = Some v /\ snd x = sim q v).
Lemma follow_sound h q from cs c seen : sound h q c seen -> let r := follow sim h q from cs (c, seen) in sound h q (fst r) (snd r) /\ incl c (fst r) /\ incl seen (snd r).
Proof using Type.
  revert c seen. induction cs as [|y cs IH]; intros c seen H; cbn [follow]; cbv zeta; [split; [exact H|split; apply incl_refl]|].
  cbn [fst snd]. destruct (mem y seen) eqn:M; cbn [negb andb]; [apply IH; exact H|]. destruct (String.eqb y from); cbn [negb]; [apply IH; exact H|].
  destruct (assoc y (x_vecs h)) as [v|] eqn:A; [|apply IH; exact H]. destruct H as (N & I1 & I2).
  assert (G : sound h q (c ++ [(y, sim q v)]) (y :: seen)).
  { split; [|split].
    - rewrite map_app. cbn [map fst]. apply NoDup_app_intro; [exact N|constructor; [intros []|constructor]|]. intros x Hx [<-|[]].
      apply in_map_iff in Hx as (p & <- & Hx). apply I1 in Hx. assert (mem (fst p) seen = true) by (apply mem_In; auto). congruence.
    - intros x Hx. apply in_app_or in Hx as [Hx|[<-|[]]]; [right; auto|left; auto].
    - intros x Hx. apply in_app_or in Hx as [Hx|[<-|[]]]; [auto|cbn; eauto]. }
  destruct (IH _ _ G) as (A1 & A2 & A3). split; [exact A1|]. split; intros x Hx; [apply A2; apply in_or_app; auto|apply A3; right; auto].
Qed.
Lemma sound_perm h q c c' seen : Permutation c c' -> sound h q c seen -> sound h q c' seen.
Proof using Type.
  intros P (N & I1 & I2). split; [eapply Permutation_NoDup; [apply Permutation_map; exact P|exact N]|]. split; intros x Hx; [apply I1|apply I2]; eapply Permutation_in; [apply Permutation_sym; exact P|exact Hx| |];
  [apply Permutation_sym; exact P|exact Hx].
Qed.
Lemma expand_sound h q l c seen c' seen' : sound h q c seen -> expand_best sim h q l c seen = Some (c', seen') -> sound h q c' seen' /\ incl c c'.
Proof using Type.
  intros H E. unfold expand_best in E. destruct (find _ c) as [x|]; [|discriminate]. injection E as E.
  assert (G : sound h q c (expansion_mark (fst x) :: seen)) by (destruct H as (N & I1 & I2); split; [exact N|split; [intros y Hy; right; auto|exact I2]]).
  destruct (follow_sound h q (fst x) (match conns h l (fst x) with Some cs => cs | None => [] end) _ _ G) as (A1 & A2 & _). rewrite E in A1, A2. auto.
Qed.
Lemma beam_sound fuel h q ef l : forall c seen, sound h q c seen -> (exists seen', sound h q (beam sim srt fuel h q ef l c seen) seen') /\ incl c (beam sim srt fuel h q ef l c seen).
Proof using S.
  induction fuel as [|fuel IH]; intros c seen H; cbn [beam]; [split; [eauto|apply incl_refl]|]. destruct (_ <? _); [|split; [eauto|apply incl_refl]].
  destruct (S c) as [P _]. destruct (expand_best sim h q l (srt c) seen) as [[c' seen']|] eqn:E.
  - apply expand_sound in E as [E1 E2]; [|eapply sound_perm; [exact P|exact H]]. destruct (IH _ _ E1) as [I1 I2]. split; [exact I1|]. intros x Hx. apply I2, E2. eapply Permutation_in; [exact P|exact Hx].
  - split; [exists seen; eapply sound_perm; [exact P|exact H]|]. intros x Hx. eapply Permutation_in; [exact P|exact Hx].
Qed.

Lemma closer_weak (l : list (string * float)) : (forall x, In x l -> not_nan (snd x)) -> weak_order_on closer l.
Proof using Type. intros H. apply (weak_order_desc (snd (A := string)) l H). Qed.

(** A search of a level returns distinct stored vectors, at most ef, best first. *)
Lemma search_level_ok h q e ef l : let r := search_level sim srt h q e ef l in
  NoDup (map fst r) /\ (forall x, In x r -> exists v, assoc (fst x) (x_vecs h) = Some v /\ snd x = sim q v) /\ length r <= ef /\
  ((forall v, not_nan (sim q v)) -> sorted_by closer r) /\
  (e <> "" -> In e (map fst (x_vecs h)) -> 0 < ef -> r <> []).
Proof using S.
  cbv zeta. unfold search_level. destruct (String.eqb_spec e "") as [->|Ne].
  { cbn. split; [constructor|]. split; [intros x []|]. split; [lia|]. split; [intros _; constructor|]. intros C. congruence. }
  destruct (assoc e (x_vecs h)) as [v|] eqn:A.
  2:{ cbn. split; [constructor|]. split; [intros x []|]. split; [lia|]. split; [intros _; constructor|]. intros _ C. apply assoc_in_keys in C as (v & C). congruence. }
  set (c0 := [(e, sim q v)]). assert (G : sound h q c0 [e]).
  { split; [constructor; [intros []|constructor]|]. split; [intros x [<-|[]]; left; auto|]. intros x [<-|[]]. cbn. eauto. }
  destruct (beam_sound (Datatypes.S (length (x_vecs h))) h q ef l c0 [e] G) as [(seen & N & _ & I2) Inc]. set (b := beam _ _ _ _ _ _ _ _ _) in *. destruct (S b) as [P So].
  split; [|split; [|split; [|split]]].
  - rewrite <- firstn_map. apply NoDup_firstn. eapply Permutation_NoDup; [apply Permutation_map; exact P|exact N].
  - intros x Hx. apply in_firstn in Hx. apply I2. eapply Permutation_in; [apply Permutation_sym; exact P|exact Hx].
  - rewrite firstn_length. lia.
  - intros NN. apply sorted_firstn. apply So. apply closer_weak. intros x Hx. destruct (I2 x Hx) as (w & _ & ->). apply NN.
  - intros _ _ Hef C. assert (L : length (firstn ef (srt b)) = 0) by (rewrite C; reflexivity). rewrite firstn_length in L.
    assert (length (srt b) <> 0); [|lia]. rewrite <- (Permutation_length P). intros Z. apply length_zero_iff_nil in Z. specialize (Inc (e, sim q v) (or_introl eq_refl)). rewrite Z in Inc. exact Inc.
Qed.

(** The rounds of a search end by themselves: more fuel changes nothing. *)
Definition left_over (h : gindex) (seen : list string) : nat := length (filter (fun k => negb (mem (expansion_mark k) seen)) (map fst (x_vecs h))).
Lemma append_length a b : String.length (a ++ b) = String.length a + String.length b.
Proof using Type. induction a as [|c a IH]; cbn; auto. Qed.
Lemma mark_inj a b : expansion_mark a = expansion_mark b -> a = b.
Proof using Type.
  unfold expansion_mark. revert b. induction a as [|c a IH]; intros [|c' b]; cbn; intros H; auto.
  - exfalso. injection H as _ H. apply (f_equal String.length) in H. rewrite append_length in H. cbn in H. lia.
  - exfalso. injection H as _ H. apply (f_equal String.length) in H. rewrite append_length in H. cbn in H. lia.
  - injection H as -> H. f_equal. auto.
Qed.
Lemma count_strict {A} (p q : A -> bool) l x : (forall y, p y = true -> q y = true) -> In x l -> p x = false -> q x = true -> length (filter p l) < length (filter q l).
Proof using Type.
  intros I Hx Px Qx. induction l as [|y l IH]; [destruct Hx|]. assert (Le : length (filter p l) <= length (filter q l)).
  { clear - I. induction l as [|z l IH]; cbn; auto. specialize (I z). destruct (p z), (q z); cbn; lia || discriminate (I eq_refl). }
  cbn [filter]. destruct Hx as [->|Hx].
  - rewrite Px, Qx. cbn [length]. lia.
  - specialize (IH Hx). specialize (I y). destruct (p y), (q y); cbn [length]; lia || discriminate (I eq_refl).
Qed.
Lemma expand_left h q l c seen c' seen' : sound h q c seen -> expand_best sim h q l c seen = Some (c', seen') -> left_over h seen' < left_over h seen.
Proof using Type.
  intros H E. unfold expand_best in E. destruct (find _ c) as [x|] eqn:F; [|discriminate]. injection E as E. apply find_some in F as [Fx Fn].
  assert (G : sound h q c (expansion_mark (fst x) :: seen)) by (destruct H as (N & I1 & I2); split; [exact N|split; [intros y Hy; right; auto|exact I2]]).
  destruct (follow_sound h q (fst x) (match conns h l (fst x) with Some cs => cs | None => [] end) _ _ G) as (_ & _ & A3). rewrite E in A3. cbn [snd] in A3.
  unfold left_over. apply (count_strict _ _ _ (fst x)).
  - intros y Hy. apply negb_true_iff in Hy. apply negb_true_iff. destruct (mem (expansion_mark y) seen) eqn:M; auto. apply mem_In in M. assert (mem (expansion_mark y) seen' = true) by (apply mem_In, A3; right; exact M). congruence.
  - apply assoc_in_keys. destruct H as (_ & _ & I2). destruct (I2 x Fx) as (v & V & _). eauto.
  - apply negb_false_iff, mem_In, A3. left; reflexivity.
  - exact Fn.
Qed.
Lemma beam_enough h q ef l : forall fuel c seen, sound h q c seen -> left_over h seen < fuel -> beam sim srt fuel h q ef l c seen = beam sim srt (Datatypes.S fuel) h q ef l c seen.
Proof using S.
  induction fuel as [|fuel IH]; intros c seen H L; [lia|]. change (beam sim srt (Datatypes.S (Datatypes.S fuel)) h q ef l c seen) with
    (if length c <? 2 * ef then match expand_best sim h q l (srt c) seen with None => srt c | Some (c', seen') => beam sim srt (Datatypes.S fuel) h q ef l c' seen' end else c).
  cbn [beam]. destruct (length c <? 2 * ef); auto. destruct (S c) as [P _]. pose proof (sound_perm _ _ _ _ _ P H) as H'.
  destruct (expand_best sim h q l (srt c) seen) as [[c' seen']|] eqn:E; auto. pose proof (expand_left _ _ _ _ _ _ _ H' E) as LL. apply expand_sound in E as [E _]; auto. rewrite IH; [|exact E|lia]. reflexivity.
Qed.

(** Search of the whole index. *)
Lemma descend_in h q ls : entered h -> x_vecs h <> [] ->
  let e := fold_left (fun e l => match search_level sim srt h q (x_entry h) 1 l with c :: _ => fst c | [] => e end) ls (x_entry h) in e <> "" /\ In e (map fst (x_vecs h)).
Proof using S.
  intros (E1 & E2 & E3 & E4) V. cbv zeta. specialize (E4 V).
  assert (G : forall ls e, In e (map fst (x_vecs h)) -> In (fold_left (fun e l => match search_level sim srt h q (x_entry h) 1 l with c :: _ => fst c | [] => e end) ls e) (map fst (x_vecs h))).
  { clear ls E4. induction ls as [|l ls IH]; intros e He; cbn [fold_left]; auto.
    apply IH. destruct (search_level sim srt h q (x_entry h) 1 l) as [|c r] eqn:Q; auto.
    destruct (search_level_ok h q (x_entry h) 1 l) as (_ & I & _). rewrite Q in I. destruct (I c (or_introl eq_refl)) as (v & Hv & _). apply assoc_in_keys. eauto. }
  specialize (G ls _ E4). split; auto. intros C. apply E2. rewrite <- C. exact G.
Qed.
Lemma ix_find_ok h q k : (0 <= k)%Z -> exists found, ix_find sim srt h q k = Ok found /\ NoDup (map fst found) /\
  (forall x, In x found -> exists v, assoc (fst x) (x_vecs h) = Some v /\ snd x = sim q v) /\ length found <= Z.to_nat k /\
  ((forall v, not_nan (sim q v)) -> sorted_by closer found) /\
  (entered h -> x_vecs h <> [] -> (1 <= k)%Z -> found <> []).
Proof using S.
  intros K. unfold ix_find. destruct (String.eqb_spec (x_entry h) "") as [E|E].
  { exists []. split; auto. split; [constructor|]. split; [intros x []|]. split; [cbn; lia|]. split; [intros _; constructor|]. intros (E1 & E2 & E3 & E4) V. exfalso. apply E2. rewrite <- E. auto. }
  set (e := fold_left _ _ _). set (ef := Z.to_nat _).
  pose proof (search_level_ok h q e ef 0) as (N & I & L & So & Ne). set (r := search_level sim srt h q e ef 0) in *.
  assert (Ef : 0 < ef) by (unfold ef; destruct (Z.ltb_spec (k * 2) 50); lia).
  assert (Ne' : entered h -> x_vecs h <> [] -> r <> []).
  { intros H V. destruct (descend_in h q (rev (seq 1 (node_level h (x_entry h)))) H V) as [D1 D2]. apply Ne; auto. }
  destruct (Z.ltb_spec k (Z.of_nat (length r))).
  - destruct (Z.ltb_spec k 0); [lia|]. exists (firstn (Z.to_nat k) r). split; auto. split; [rewrite <- firstn_map; apply NoDup_firstn; auto|].
    split; [intros x Hx; apply I; eapply in_firstn; eauto|]. split; [rewrite firstn_length; lia|]. split; [intros NN; apply sorted_firstn; auto|].
    intros H1 V K1. destruct r as [|c r]; [exact (fun _ => Ne' H1 V eq_refl)|]. destruct (Z.to_nat k) eqn:Q; [lia|]. cbn. discriminate.
  - exists r. split; auto. split; auto. split; auto. split; [lia|]. split; auto.
Qed.
End Ix.

(** *** the index beside the tables *)
Lemma find_put_node n l id : find (node_is id) (put_node n l) = if String.eqb (n_id n) id then Some n else find (node_is id) l.
Proof.
  unfold put_node. destruct (String.eqb_spec (n_id n) id) as [E|E].
  - destruct (existsb (node_is (n_id n)) l) eqn:X.
    + induction l as [|x l IH]; cbn in *; [discriminate|]. destruct (node_is (n_id n) x) eqn:Y.
      * unfold node_is at 1. rewrite E, String.eqb_refl. reflexivity.
      * cbn in X. rewrite (IH X). unfold node_is in Y |- *. rewrite E in Y. rewrite Y. reflexivity.
    + rewrite find_app. assert (Z : find (node_is id) l = None).
      { rewrite <- E. clear - X. induction l as [|x l IH]; cbn in *; auto. apply orb_false_iff in X as [X1 X2]. rewrite X1. auto. }
      rewrite Z. cbn. unfold node_is. rewrite E, String.eqb_refl. reflexivity.
  - assert (En : node_is id n = false) by (apply String.eqb_neq; exact E). destruct (existsb _ l).
    + induction l as [|x l IH]; cbn; auto. destruct (node_is (n_id n) x) eqn:Y.
      * rewrite En. assert (Ex : node_is id x = false) by (unfold node_is in *; apply String.eqb_eq in Y; apply String.eqb_neq; congruence). rewrite Ex. exact IH.
      * destruct (node_is id x); auto.
    + rewrite find_app. destruct (find (node_is id) l); auto. cbn. rewrite En. reflexivity.
Qed.
Lemma find_dropped id id' (l : list gnode) : find (node_is id) (filter (fun b => negb (node_is id' b)) l) = if String.eqb id id' then None else find (node_is id) l.
Proof.
  induction l as [|b l IH]; cbn [filter find]; [destruct (String.eqb id id'); reflexivity|]. destruct (node_is id' b) eqn:E; cbn [negb find]; rewrite IH; destruct (String.eqb_spec id id') as [->|N]; auto.
  - assert (E' : node_is id b = false) by (unfold node_is in *; apply String.eqb_eq in E; apply String.eqb_neq; congruence). rewrite E'. reflexivity.
  - rewrite E. reflexivity.
Qed.

Definition mirrors (d : gdb) (h : gindex) : Prop := entered h /\ forall id, assoc id (x_vecs h) = option_map n_vec (find (node_is id) (g_nodes d)).
Definition named (d : gdb) : Prop := unique_ids d /\ forall n, In n (g_nodes d) -> n_id n <> "".

Section Mirror.
Variable cos : list N -> list N -> float.
Variable srt : list (string * float) -> list (string * float).

Lemma named_step ev d o : named d -> named (gstep ev d o).
Proof.
  intros H. apply (kept_step ev named); auto; clear; intros d x [U V]; intros.
  - split; [apply put_node_unique; exact U|]. intros n Hn. apply put_node_in in Hn as [->|[Hn _]]; auto. unfold node_valid in H. apply andb_true_iff in H as [H _]. apply negb_true_iff, String.eqb_neq in H. exact H.
  - split; [apply put_edge_unique; exact U|exact V].
  - split; [apply drop_nodes_unique; exact U|]. intros n Hn. apply filter_In in Hn as [Hn _]. auto.
  - split; [apply drop_edges_unique; exact U|exact V].
Qed.
Lemma xstep_db ev s o : s_db (xstep cos srt ev s o) = match o with XEnable => s_db s | XCall c => gstep (gv_env ev) (s_db s) c end.
Proof.
  destruct o as [|c]; auto. destruct c; auto; cbn [xstep gstep].
  - unfold upsert_indexed. destruct (upsert_node (gv_env ev) (s_db s) n) as [d [?|?|]], n; reflexivity.
  - unfold delete_indexed. destruct (delete_node (gv_env ev) (s_db s) id) as [d [?|?|]]; reflexivity.
Qed.
Lemma xrun_named h s : named (s_db s) -> named (s_db (xrun cos srt s h)).
Proof.
  revert s. induction h as [|[ev o] h IH]; intros s H; [exact H|]. apply IH. cbn [fst snd]. rewrite xstep_db. destruct o; auto. apply named_step. exact H.
Qed.
Lemma xrun_reach h s : greachable (fun _ => True) (s_db s) -> greachable (fun _ => True) (s_db (xrun cos srt s h)).
Proof.
  revert s. induction h as [|[ev o] h IH]; intros s H; [exact H|]. apply IH. cbn [fst snd]. rewrite xstep_db. destruct o; auto. apply gr_step; auto.
Qed.

Lemma index_rows_ok l : forall lv h, (forall n, In n l -> n_id n <> "") -> NoDup (map n_id l) -> entered h ->
  entered (index_rows cos srt lv h l) /\ forall id, assoc id (x_vecs (index_rows cos srt lv h l)) = match find (node_is id) l with Some n => Some (n_vec n) | None => assoc id (x_vecs h) end.
Proof.
  induction l as [|n l IH]; intros lv h V N E; cbn [index_rows find]; [auto|]. cbn [map] in N. apply NoDup_cons_iff in N as [N1 N2].
  destruct (IH (fun i => lv (Datatypes.S i)) (add cos 16 srt h (n_id n) (n_vec n) (lv 0))) as [A B]; auto.
  - intros m Hm. apply V. right; auto. - apply add_entered; auto. apply V. left; auto.
  - split; auto. intros id. rewrite B, add_vecs, assoc_put. unfold node_is at 2. destruct (String.eqb_spec (n_id n) id) as [<-|Ne].
    + destruct (find (node_is (n_id n)) l) as [m|] eqn:F; [|rewrite String.eqb_refl; reflexivity]. exfalso. apply find_some in F as [F1 F2]. apply String.eqb_eq in F2. apply N1. rewrite <- F2. apply in_map. exact F1.
    + destruct (find (node_is id) l); auto. destruct (String.eqb_spec id (n_id n)); [congruence|reflexivity].
Qed.
Lemma enable_mirrors ev s : fair_env ev -> named (s_db s) -> exists h, s_ix (enable cos srt ev s) = Some h /\ mirrors (s_db s) h.
Proof.
  intros [F _] [U V]. eexists. split; [reflexivity|]. pose proof (F (g_nodes (s_db s))) as P. destruct (index_rows_ok (gv_rows ev (g_nodes (s_db s))) (gv_level ev) empty_index) as [A B].
  - intros n Hn. apply V. eapply Permutation_in; [apply Permutation_sym; exact P|exact Hn].
  - eapply Permutation_NoDup; [apply Permutation_map; exact P|]. apply U.
  - apply entered_empty.
  - split; auto. intros id. rewrite B.
    assert (Q : find (node_is id) (gv_rows ev (g_nodes (s_db s))) = find (node_is id) (g_nodes (s_db s))).
    { pose (d' := {| g_nodes := gv_rows ev (g_nodes (s_db s)); g_edges := g_edges (s_db s) |}).
      assert (U' : unique_ids d') by (split; [eapply Permutation_NoDup; [apply Permutation_map; exact P|apply U]|apply U]).
      destruct (find (node_is id) (g_nodes (s_db s))) as [n|] eqn:Fn.
      - apply (find_node d' id n U'). apply (find_node (s_db s) id n U) in Fn as [H1 H2]. split; auto. eapply Permutation_in; eauto.
      - apply (find_node_none d' id). apply (find_node_none (s_db s) id) in Fn. intros (n & H1 & H2). apply Fn. exists n. split; auto. eapply Permutation_in; [apply Permutation_sym; exact P|exact H1]. }
    rewrite Q. destruct (find (node_is id) (g_nodes (s_db s))); reflexivity.
Qed.
Lemma xstep_mirrors ev s o h : fair_env ev -> ~ node_batch o -> named (s_db s) -> s_ix s = Some h -> mirrors (s_db s) h ->
  exists h', s_ix (xstep cos srt ev s o) = Some h' /\ mirrors (s_db (xstep cos srt ev s o)) h'.
Proof.
  intros F B Nm Hx [E A]. destruct o as [|c]; [exact (enable_mirrors ev s F Nm)|]. destruct F as [_ F].
  destruct c as [n|id|e|id|l|ids|l|ids|ns nd es ed]; cbn [node_batch] in B; try (destruct (B Logic.I)); cbn [xstep].
  - unfold upsert_indexed, upsert_node. destruct n as [x|]; [|exists h; split; auto; split; auto]. destruct (negb (node_valid x)) eqn:V; [exists h; split; auto; split; auto|]. destruct (ev_ok (gv_env ev) 0); [|exists h; split; auto; split; auto].
    cbn [fst s_ix s_db]. rewrite Hx. eexists. split; [reflexivity|]. apply negb_false_iff in V. unfold node_valid in V. apply andb_true_iff in V as [V _]. apply negb_true_iff, String.eqb_neq in V. split.
    + apply add_entered; auto. apply remove_entered; auto.
    + intros id. rewrite add_vecs, remove_vecs, assoc_put, assoc_drop, A. cbn [set_nodes g_nodes]. rewrite find_put_node, String.eqb_sym. destruct (String.eqb id (n_id x)) eqn:Q; rewrite String.eqb_sym, Q; reflexivity.
  - unfold delete_indexed, delete_node. destruct (negb _); [exists h; split; auto; split; auto|]. destruct (node_stored (s_db s) id); [|exists h; split; auto; split; auto].
    cbn [fst s_ix s_db]. rewrite Hx. eexists. split; [reflexivity|]. split; [apply remove_entered; auto|]. intros id'. rewrite remove_vecs, assoc_drop, A. cbn [drop_nodes g_nodes]. rewrite find_dropped. destruct (String.eqb id' id); reflexivity.
  - exists h. split; auto. split; auto. cbn [s_db gstep]. unfold upsert_edge. destruct e as [e|]; auto. destruct (negb _); auto. destruct (ev_ok _ _ && _); auto.
  - exists h. split; auto. split; auto. cbn [s_db gstep]. unfold delete_edge. destruct (negb _); auto. destruct (existsb _ _); auto.
  - exists h. split; auto. split; auto. cbn [s_db gstep]. intros id. rewrite A. unfold upsert_edges_batch. destruct l as [|x l]; auto. set (L := x :: l).
    assert (G : forall l i d b, g_nodes (fst (edges_loop (gv_env ev) i d b l)) = g_nodes d).
    { clear. induction l as [|[e|] l IH]; intros; cbn [edges_loop fst]; auto. destruct (negb _); auto. destruct (ev_ok _ _ && _); auto. rewrite IH. reflexivity. }
    unfold in_transaction. destruct (negb _); auto. destruct (ev_ok _ _); auto. cbn [fst]. rewrite G. reflexivity.
  - exists h. split; auto. split; auto. cbn [s_db gstep]. intros id. rewrite A. unfold delete_edges_batch. destruct ids as [|x l]; auto. unfold in_transaction. destruct (negb _); auto. destruct (ev_ok _ _); auto.
Qed.
Lemma singly_mirrors s : singly_after_enabling cos srt s -> named (s_db s) /\ exists h, s_ix s = Some h /\ mirrors (s_db s) h.
Proof.
  intros (h1 & ev & h2 & -> & B & F). unfold xrun. rewrite fold_left_app. cbn [fold_left fst snd]. fold (xrun cos srt new_gstore h1). set (s1 := xrun cos srt new_gstore h1).
  assert (N1 : named (s_db s1)) by (apply xrun_named; split; [split; constructor|intros n []]).
  destruct (enable_mirrors ev s1) as (h & E & M); auto; [apply (F ev XEnable); apply in_or_app; right; left; auto|].
  change (xstep cos srt ev s1 XEnable) with (enable cos srt ev s1). assert (N2 : named (s_db (enable cos srt ev s1))) by exact N1. change (s_db s1) with (s_db (enable cos srt ev s1)) in M. clear N1.
  assert (F2 : forall ev' o, In (ev', o) h2 -> fair_env ev') by (intros ev' o H; apply (F ev' o); apply in_or_app; right; right; auto). clear F.
  revert N2 E M. generalize (enable cos srt ev s1) as s2. clear - B F2. intros s2. revert s2 h. induction h2 as [|[ev o] h2 IH]; intros s2 h N E M; cbn [fold_left fst snd]; [eauto|].
  destruct (xstep_mirrors ev s2 o h) as (h' & E' & M'); auto; [apply (F2 ev o); left; auto|apply (B ev o); left; auto|].
  apply (IH (fun ev' o' H => B ev' o' (or_intror H)) (fun ev' o' H => F2 ev' o' (or_intror H)) _ h'); auto. rewrite xstep_db. destruct o; auto. apply named_step. auto.
Qed.
End Mirror.
