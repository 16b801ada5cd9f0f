(** Properties of MockEmbedder. *)
From Coq Require Import List ZArith QArith Lia.
From Verif Require Import MockModel.
Import ListNotations.
Open Scope Z_scope.

(** *** C239 *)
(** The number a text is hashed to: its code points as digits in base 31. *)
Fixpoint base31 (text : list Z) : Z := match text with [] => 0 | c :: r => c * 31 ^ Z.of_nat (length r) + base31 r end.
Lemma wrap64_mod z : wrap64 z mod 2 ^ 32 = z mod 2 ^ 32.
Proof.
  unfold wrap64. pose proof (Z.div_mod (z + 2 ^ 63) (2 ^ 64) ltac:(lia)) as E. set (q := (z + 2 ^ 63) / 2 ^ 64) in *.
  replace ((z + 2 ^ 63) mod 2 ^ 64 - 2 ^ 63) with (z + (- q * 2 ^ 32) * 2 ^ 32) by lia. apply Z.mod_add. lia.
Qed.
Lemma hash_base31 text : text_hash text mod 2 ^ 32 = base31 text mod 2 ^ 32.
Proof.
  unfold text_hash. assert (G : forall t h, fold_left (fun h c => wrap64 (h * 31 + c)) t h mod 2 ^ 32 = (h * 31 ^ Z.of_nat (length t) + base31 t) mod 2 ^ 32).
  { induction t as [|c t IH]; intros h; cbn [fold_left base31]; [cbn [length]; f_equal; change (31 ^ Z.of_nat 0) with 1; lia|]. rewrite IH. cbn [length]. rewrite Nat2Z.inj_succ, Z.pow_succ_r by lia.
    rewrite Z.add_mod, (Z.mul_mod (wrap64 _)), wrap64_mod, <- Z.mul_mod, <- Z.add_mod by lia. f_equal. lia. }
  rewrite G. f_equal.
Qed.
Lemma component_inj s t : 0 <= s < 2 ^ 32 -> 0 <= t < 2 ^ 32 -> (component s == component t)%Q -> s = t.
Proof.
  intros S T H. assert (E : to_int32 s = to_int32 t).
  { unfold component in H. generalize dependent (to_int32 s). generalize (to_int32 t). intros u v H. change (2 ^ 31) with 2147483648 in H. unfold Qeq in H. cbn -[Z.mul] in H. lia. }
  unfold to_int32 in E. destruct (Z.ltb_spec s (2 ^ 31)), (Z.ltb_spec t (2 ^ 31)); lia.
Qed.
Lemma step_inj s t : 0 <= s < 2 ^ 32 -> 0 <= t < 2 ^ 32 -> (s * 1664525 + 1013904223) mod 2 ^ 32 = (t * 1664525 + 1013904223) mod 2 ^ 32 -> s = t.
Proof.
  intros S T H. assert (I : forall x, 0 <= x < 2 ^ 32 -> x = (((x * 1664525 + 1013904223) mod 2 ^ 32 - 1013904223) * 4276115653) mod 2 ^ 32).
  { intros x X. rewrite Z.mul_mod, Zminus_mod_idemp_l, <- Z.mul_mod by lia. replace (x * 1664525 + 1013904223 - 1013904223) with (x * 1664525) by lia. rewrite <- Z.mul_assoc, Z.mul_mod by lia.
    change ((1664525 * 4276115653) mod 2 ^ 32) with 1. rewrite Z.mul_1_r, Z.mod_mod by lia. symmetry. apply Z.mod_small. exact X. }
  rewrite (I s S), (I t T), H. reflexivity.
Qed.
(** The mock embedder gives every text a vector of the dimension, with components between -2
    and 2, and the same vector in a batch as alone. *)
Theorem mock_shape : forall dims text, length (mock_embed dims text) = dims /\ Forall (fun x => -2 <= x /\ x <= 2)%Q (mock_embed dims text) /\
  forall before after, nth_error (mock_embed_batch dims (before ++ text :: after)) (length before) = Some (mock_embed dims text).
Proof.
  intros dims text. unfold mock_embed at 1 2. generalize (text_hash text mod 2 ^ 32). intros s. split; [revert s; induction dims as [|n IH]; intros s; cbn [mock_loop length]; [reflexivity|now rewrite IH]|]. split.
  - revert s. induction dims as [|n IH]; intros s; cbn [mock_loop]; [constructor|]. constructor; [|apply IH]. set (t := (s * 1664525 + 1013904223) mod 2 ^ 32). pose proof (Z.mod_pos_bound (s * 1664525 + 1013904223) (2 ^ 32) ltac:(lia)) as B. fold t in B.
    assert (C : - 2 ^ 31 <= to_int32 t <= 2 ^ 31) by (unfold to_int32; destruct (Z.ltb_spec t (2 ^ 31)); lia). unfold component. generalize dependent (to_int32 t). intros u [C1 C2].
    change (2 ^ 31) with 2147483648 in *. unfold Qle. cbn -[Z.mul]. split; lia.
  - intros before after. unfold mock_embed_batch. rewrite map_app, nth_error_app2 by (rewrite map_length; lia). rewrite map_length, Nat.sub_diag. reflexivity.
Qed.
(** Two texts get the same vector exactly if their numbers agree modulo 2^32. *)
Theorem mock_same : forall dims a b, (0 < dims)%nat -> (Forall2 Qeq (mock_embed dims a) (mock_embed dims b) <-> base31 a mod 2 ^ 32 = base31 b mod 2 ^ 32).
Proof.
  intros dims a b D. unfold mock_embed. rewrite !hash_base31. split.
  - destruct dims as [|n]; [lia|]. cbn [mock_loop]. intros H. inversion H; subst. apply step_inj; [apply Z.mod_pos_bound; lia..|]. apply component_inj; [apply Z.mod_pos_bound; lia..|assumption].
  - intros ->. generalize (base31 b mod 2 ^ 32). clear. induction dims as [|n IH]; intros s; cbn [mock_loop]; constructor; [reflexivity|apply IH].
Qed.
Example mock_same_ex : base31 [72; 105] = 2337 /\ mock_embed 1 [72; 105] <> mock_embed 1 [72; 106].
Proof. split; [reflexivity|]. vm_compute. discriminate. Qed.
(** The k-th component comes from k+1 steps of the generator; neighbours always differ. *)
Theorem mock_components : forall dims text k, (k < dims)%nat ->
  nth_error (mock_embed dims text) k = Some (component (Nat.iter (S k) (fun s => (s * 1664525 + 1013904223) mod 2 ^ 32) (base31 text mod 2 ^ 32))) /\
  forall x y, nth_error (mock_embed dims text) k = Some x -> nth_error (mock_embed dims text) (S k) = Some y -> ~ (x == y)%Q.
Proof.
  intros dims text k D. unfold mock_embed. rewrite hash_base31. set (f := fun s => (s * 1664525 + 1013904223) mod 2 ^ 32).
  assert (N : forall j n s, (j < n)%nat -> nth_error (mock_loop n s) j = Some (component (Nat.iter (S j) f s))).
  { induction j as [|j IH]; intros n s L; destruct n as [|n]; try lia; cbn [mock_loop nth_error]; [reflexivity|]. rewrite IH by lia. do 2 f_equal. clear. induction (S j) as [|i IHi]; [reflexivity|]. cbn [Nat.iter nat_rect]. unfold Nat.iter in IHi. rewrite IHi. reflexivity. }
  split; [apply N; exact D|]. intros x y X Y E. assert (L2 : (S k < dims)%nat).
  { assert (Q : nth_error (mock_loop dims (base31 text mod 2 ^ 32)) (S k) <> None) by congruence. apply nth_error_Some in Q. replace (length (mock_loop dims (base31 text mod 2 ^ 32))) with dims in Q; [exact Q|]. clear. generalize (base31 text mod 2 ^ 32). induction dims as [|n IH]; intros s; cbn [mock_loop length]; [reflexivity|now rewrite <- IH]. }
  rewrite N in X, Y by assumption. apply (f_equal (fun o => match o with Some q => q | None => 0%Q end)) in X, Y. subst x y. change (Nat.iter (S (S k)) f (base31 text mod 2 ^ 32)) with (f (Nat.iter (S k) f (base31 text mod 2 ^ 32))) in E.
  assert (B : forall z, 0 <= f z < 2 ^ 32) by (intros z; apply Z.mod_pos_bound; lia). assert (Bs : 0 <= Nat.iter (S k) f (base31 text mod 2 ^ 32) < 2 ^ 32) by apply B. generalize dependent (Nat.iter (S k) f (base31 text mod 2 ^ 32)). intros s E Bs.
  apply component_inj in E; [|exact Bs|apply B]. unfold f in E. pose proof (Z.div_mod (s * 1664525 + 1013904223) (2 ^ 32) ltac:(lia)) as M. rewrite <- E in M. lia.
Qed.
Example mock_components_ex : map Qred (mock_embed 2 [97]) = [293840787 # 268435456; 329991483 # 1073741824]%Q.
Proof. vm_compute. reflexivity. Qed.
Print Assumptions mock_components.
Print Assumptions mock_shape.
Print Assumptions mock_same.
(** Refuted as to components between -1 and 1 and as to telling texts apart: the first
    component for "a" is beyond 1, and "Aa" and "BB" have the same vector of any dimension. *)
Theorem mock_refuted : (exists text x, In x (mock_embed 8 text) /\ (1 < x)%Q) /\ forall dims, mock_embed dims [65; 97] = mock_embed dims [66; 66].
Proof. split; [|reflexivity]. exists [97]. eexists. split; [left; reflexivity|]. vm_compute. reflexivity. Qed.
Print Assumptions mock_refuted.
