(** Proofs about the word-count vectors. *)
From Coq Require Import String Ascii List NArith ZArith Bool Arith Lia ZifyBool ZifyNat ZifyN.
From Coq Require Import Floats.SpecFloat.
From Verif Require Import Base Floats64 StoreModel RagModel RagSpec RagTextProofs IntAdd32Proofs ToolTextModel ToolTextSpec ToolTextProofs.
Import ListNotations.
Open Scope list_scope.
Open Scope nat_scope.

Lemma nth_bump v : forall i j, nth_error (bump i v) j = if i =? j then option_map (fun x => f32_add x (f32_of_Z 1)) (nth_error v j) else nth_error v j.
Proof.
  induction v as [|x v IH]; intros i j; cbn [bump]; [destruct i, j; cbn; try reflexivity; destruct (_ =? _); reflexivity|].
  destruct i as [|i], j as [|j]; cbn [nth_error Nat.eqb]; try reflexivity. apply IH.
Qed.
Lemma bump_length i v : length (bump i v) = length v.
Proof. revert i. induction v as [|x v IH]; intros [|i]; cbn; auto. Qed.

Section Vec.
Variables (hash : list N -> N) (d : nat).
Hypothesis Hd : 0 < d.
Definition step (v : list float) (w : list N) : list float :=
  let w := normal_token w in if is_blank w then v else bump (N.to_nat (N.modulo (hash w) (N.of_nat d))) v.
Definition words (ws : list (list N)) := filter (fun u => match u with [] => false | _ => true end) (map normal_token ws).
Lemma numbered_le us i : numbered hash us d i <= length us.
Proof using Type. clear. unfold numbered. induction us as [|u us IH]; [auto|]. cbn [filter length]. match goal with |- context [if ?c then _ else _] => destruct c end; cbn [length]; lia. Qed.
Lemma fold_step ws : forall v (c : nat -> Z), length v = d -> (forall i, i < d -> nth_error v i = Some (f32_of_Z (c i)) /\ (0 <= c i)%Z /\ (c i + Z.of_nat (length (words ws)) <= 2 ^ 24)%Z) ->
  length (fold_left step ws v) = d /\ forall i, i < d -> nth_error (fold_left step ws v) i = Some (f32_of_Z (c i + Z.of_nat (numbered hash (words ws) d i))).
Proof using Hd.
  induction ws as [|w ws IH]; intros v c L H; cbn [fold_left].
  - split; [exact L|]. intros i Hi. rewrite Z.add_0_r. apply H. exact Hi.
  - unfold step at 2 4. cbv zeta. unfold words in *. cbn [map filter] in *. destruct (normal_token w) as [|r u] eqn:E; cbn [is_blank].
    + apply IH; assumption.
    + set (k := N.to_nat (N.modulo (hash (r :: u)) (N.of_nat d))). assert (Hk : k < d) by (unfold k; pose proof (N.mod_lt (hash (r :: u)) (N.of_nat d)); lia).
      destruct (IH (bump k v) (fun i => if (k =? i)%nat then (c i + 1)%Z else c i)) as [I1 I2].
      * rewrite bump_length. exact L.
      * intros i Hi. destruct (H i Hi) as (H1 & H2 & H3). cbn [length] in H3. rewrite nth_bump, H1. destruct (k =? i); cbn [option_map].
        -- rewrite f32_add_int by lia. split; [reflexivity|]. split; lia.
        -- split; [reflexivity|]. split; lia.
      * split; [exact I1|]. intros i Hi. rewrite (I2 i Hi). f_equal. f_equal. unfold numbered. cbn [filter].
        destruct (Nat.eqb_spec k i) as [Ek|Ek].
        -- replace (N.eqb _ _) with true by (symmetry; apply N.eqb_eq; unfold k in Ek; lia). cbn [length]. lia.
        -- replace (N.eqb _ _) with false by (symmetry; apply N.eqb_neq; unfold k in Ek; lia). lia.
Qed.
Lemma numbered_some us : (forall u, In u us -> u <> []) -> us <> [] -> exists i, i < d /\ 0 < numbered hash us d i.
Proof using Hd.
  intros N E. destruct us as [|u us]; [congruence|]. exists (N.to_nat (N.modulo (hash u) (N.of_nat d))). split; [pose proof (N.mod_lt (hash u) (N.of_nat d)); lia|].
  unfold numbered. cbn [filter]. specialize (N u (or_introl eq_refl)). destruct u as [|r u]; [congruence|]. rewrite N2Nat.id, N.eqb_refl. cbn [length]. lia.
Qed.
End Vec.

Lemma map_stripped ws : Forall2 stripped ws (map normal_token ws).
Proof. induction ws as [|w ws IH]; constructor; [apply normal_stripped|exact IH]. Qed.
Lemma nth_repeat {A} (x : A) n i : i < n -> nth_error (repeat x n) i = Some x.
Proof. revert i. induction n as [|n IH]; intros [|i] H; cbn; try lia; [reflexivity|]. apply IH. lia. Qed.

Lemma vector_ok lower hash t dim : let d := if (dim <=? 0)%Z then 64 else Z.to_nat dim in
  exists us, words_of lower t us /\ ((Z.of_nat (length us) <= 2 ^ 24)%Z ->
    length (lexical_vector lower hash t dim) = d /\
    forall i, i < d -> nth_error (lexical_vector lower hash t dim) i =
      Some (f32_of_Z (match us, i with [], O => 1 | _, _ => Z.of_nat (numbered hash us d i) end))).
Proof.
  intros d. assert (Hd : 0 < d) by (unfold d; destruct (Z.leb_spec dim 0); lia).
  set (ws := fields_func is_space [] (lower t)). exists (words ws). split.
  { exists ws, (map normal_token ws). split; [|split; [apply map_stripped|reflexivity]]. apply (runs_ext is_space); [intros; apply is_space_white|]. apply fields_spec. }
  intros Hn. unfold lexical_vector. fold d ws. change (fold_left _ ws (repeat f_zero d)) with (fold_left (step hash d) ws (repeat f_zero d)).
  destruct (fold_step hash d Hd ws (repeat f_zero d) (fun _ => 0%Z)) as [L F].
  { apply repeat_length. } { intros i Hi. split; [apply nth_repeat; exact Hi|]. split; [reflexivity|]. lia. }
  set (v := fold_left (step hash d) ws (repeat f_zero d)) in *. destruct (all_zero v) eqn:Z.
  - assert (E : words ws = []).
    { destruct (words ws) as [|u us] eqn:E; [reflexivity|]. exfalso. destruct (numbered_some hash d Hd (u :: us)) as (i & Hi & P).
      - rewrite <- E. intros x Hx. unfold words in Hx. apply filter_In in Hx as [_ Hx]. destruct x; [discriminate|congruence].
      - discriminate.
      - pose proof (F i Hi) as Fi. unfold all_zero in Z. rewrite forallb_forall in Z. specialize (Z _ (nth_error_In _ _ Fi)). pose proof (numbered_le hash d (u :: us) i). rewrite f32_not_zero in Z by lia. discriminate. }
    rewrite E in *. destruct v as [|x v]; [cbn in L; lia|]. split; [exact L|]. intros [|i] Hi; [reflexivity|]. exact (F (S i) Hi).
  - assert (E : words ws <> []).
    { intros E. assert (A : all_zero v = true); [|congruence]. unfold all_zero. apply forallb_forall. intros x Hx. apply In_nth_error in Hx as [i Hx]. assert (Hi : i < d) by (rewrite <- L; apply nth_error_Some; congruence).
      rewrite (F i Hi), E in Hx. cbn in Hx. injection Hx as <-. reflexivity. }
    split; [exact L|]. intros i Hi. rewrite (F i Hi). destruct (words ws); [congruence|]. reflexivity.
Qed.
