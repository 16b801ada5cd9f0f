From Coq Require Import List NArith ZArith Bool Lia ZifyN ZifyNat ZifyBool.
From Coq Require Import Init.Byte.
From Coq Require Import Strings.Byte.
From Coq Require Import Floats.SpecFloat.
From Verif Require Import Base Floats64 EncodingSpec EncodingModel.
Import ListNotations.
Local Open Scope N_scope.
Ltac Zify.zify_post_hook ::= Z.div_mod_to_equations.

Lemma byte_of_to_N n : Byte.to_N (byte_of n) = n mod 256.
Proof.
  unfold byte_of. destruct (Byte.of_N (n mod 256)) as [b|] eqn:E.
  - apply Byte.to_of_N in E. exact E.
  - apply Byte.of_N_None_iff in E. pose proof (N.mod_lt n 256). lia.
Qed.

Lemma byte_of_of b : byte_of (Byte.to_N b) = b.
Proof.
  unfold byte_of. pose proof (Byte.to_N_bounded b).
  rewrite N.mod_small by lia. rewrite Byte.of_to_N. reflexivity.
Qed.

Lemma byte_of_mod n : byte_of n = byte_of (n mod 256).
Proof. unfold byte_of. rewrite N.mod_mod by lia. reflexivity. Qed.

Lemma le32_length n : length (le32 n) = 4%nat.
Proof. reflexivity. Qed.

Lemma rd32_le32 n tail : n < 2^32 -> rd32 (le32 n ++ tail) = Some (n, tail).
Proof.
  intros H. unfold le32, rd32. cbn [app]. rewrite !byte_of_to_N.
  f_equal. f_equal.
  change (2^8) with 256. change (2^16) with 65536. change (2^24) with 16777216.
  change (2^32) with 4294967296 in H. lia.
Qed.

Lemma le32_rd32 bs x rest : rd32 bs = Some (x, rest) -> bs = le32 x ++ rest /\ x < 2^32.
Proof.
  destruct bs as [|b0 [|b1 [|b2 [|b3 bs]]]]; try discriminate.
  unfold rd32. match goal with |- Some (?v, _) = _ -> _ => remember v as V eqn:HV end.
  intros H; injection H as <- <-. rewrite HV. clear HV.
  pose proof (Byte.to_N_bounded b0). pose proof (Byte.to_N_bounded b1).
  pose proof (Byte.to_N_bounded b2). pose proof (Byte.to_N_bounded b3).
  set (n0 := Byte.to_N b0) in *. set (n1 := Byte.to_N b1) in *.
  set (n2 := Byte.to_N b2) in *. set (n3 := Byte.to_N b3) in *.
  split.
  - unfold le32. cbn [app].
    change (2^8) with 256. change (2^16) with 65536. change (2^24) with 16777216.
    rewrite (byte_of_mod (n0 + _ + _ + _)).
    rewrite (byte_of_mod (_ / 256)). rewrite (byte_of_mod (_ / 65536)). rewrite (byte_of_mod (_ / 16777216)).
    replace ((n0 + 256 * n1 + 65536 * n2 + 16777216 * n3) mod 256) with n0 by lia.
    replace ((n0 + 256 * n1 + 65536 * n2 + 16777216 * n3) / 256 mod 256) with n1 by lia.
    replace ((n0 + 256 * n1 + 65536 * n2 + 16777216 * n3) / 65536 mod 256) with n2 by lia.
    replace ((n0 + 256 * n1 + 65536 * n2 + 16777216 * n3) / 16777216 mod 256) with n3 by lia.
    unfold n0, n1, n2, n3. rewrite !byte_of_of. reflexivity.
  - change (2^8) with 256. change (2^16) with 65536. change (2^24) with 16777216.
    change (2^32) with 4294967296. lia.
Qed.

Lemma rd32_none bs : rd32 bs = None <-> (length bs < 4)%nat.
Proof. destruct bs as [|b0 [|b1 [|b2 [|b3 bs]]]]; cbn; split; try discriminate; try lia; auto. Qed.

Lemma flat_le32_length xs : length (flat_map le32 xs) = (4 * length xs)%nat.
Proof. induction xs; cbn [flat_map length]; auto. rewrite app_length, le32_length, IHxs. lia. Qed.

Lemma read_values_ok xs tail : Forall (fun x => x < 2^32) xs ->
  read_values (length xs) (flat_map le32 xs ++ tail) = Ok xs.
Proof.
  induction 1 as [|x xs Hx HF IH]; cbn [length flat_map read_values]; auto.
  rewrite <- app_assoc, rd32_le32 by exact Hx. rewrite IH. reflexivity.
Qed.

Lemma read_values_inv n : forall bs xs, read_values n bs = Ok xs ->
  length xs = n /\ Forall (fun x => x < 2^32) xs /\ exists rest, bs = flat_map le32 xs ++ rest.
Proof.
  induction n as [|n IH]; cbn [read_values]; intros bs xs H.
  - injection H as <-. repeat split; auto. exists bs; reflexivity.
  - destruct (rd32 bs) as [[x r]|] eqn:E; [|discriminate].
    destruct (read_values n r) as [ys|e|] eqn:E2; cbn in H; try discriminate.
    injection H as <-. apply IH in E2 as (H1 & H2 & rest & ->).
    apply le32_rd32 in E as [-> Hx]. repeat split; cbn [length]; auto.
    exists rest. cbn [flat_map]; rewrite <- app_assoc. reflexivity.
Qed.

Lemma read_values_enough n : forall bs, (4 * n <= length bs)%nat -> exists xs, read_values n bs = Ok xs.
Proof.
  induction n as [|n IH]; intros bs H; cbn [read_values]; [eauto|].
  destruct (rd32 bs) as [[x r]|] eqn:E.
  - pose proof (le32_rd32 _ _ _ E) as [Hb _].
    destruct (IH r) as [xs Hxs]. { subst bs. rewrite app_length, le32_length in H. lia. }
    rewrite Hxs. cbn. eauto.
  - apply rd32_none in E. lia.
Qed.

Lemma encode_decode xs tail : N.of_nat (length xs) <= max_int32 -> Forall (fun x => x < 2^32) xs ->
  exists bs, encode_vector (Some xs) = Ok bs /\ length bs = (4 + 4 * length xs)%nat /\
             decode_vector (bs ++ tail) = Ok xs.
Proof.
  intros Hn HF. unfold encode_vector.
  destruct (max_int32 <? N.of_nat (length xs)) eqn:E; [apply N.ltb_lt in E; lia|].
  eexists; split; [reflexivity|]. split.
  { rewrite app_length, le32_length, flat_le32_length. lia. }
  unfold max_int32 in *.
  unfold decode_vector. rewrite <- app_assoc.
  rewrite rd32_le32 by (change (2^32) with 4294967296; lia).
  rewrite !app_length, le32_length, flat_le32_length.
  destruct (N.ltb_spec (N.of_nat (4 + (4 * length xs + length tail))) 4); [lia|].
  change (2^31) with 2147483648.
  destruct (N.leb_spec 2147483648 (N.of_nat (length xs))); [lia|].
  destruct (N.eqb_spec (N.of_nat (length xs)) 0).
  { destruct xs; [reflexivity|cbn in e; lia]. }
  destruct (N.ltb_spec (N.of_nat (4 * length xs + length tail)) (N.of_nat (length xs) * 4)); [lia|].
  rewrite Nnat.Nat2N.id. apply read_values_ok; auto.
Qed.

Lemma decode_total bs :
  decode_vector bs = Err EInvalidVector \/
  exists xs rest enc, decode_vector bs = Ok xs /\ Forall (fun x => x < 2^32) xs /\
     encode_vector (Some xs) = Ok enc /\ bs = enc ++ rest.
Proof.
  unfold decode_vector.
  destruct (N.ltb_spec (N.of_nat (length bs)) 4); [auto|].
  destruct (rd32 bs) as [[len rest]|] eqn:E; [|apply rd32_none in E; lia].
  apply le32_rd32 in E as [-> Hlen].
  change (2^31) with 2147483648.
  destruct (N.leb_spec 2147483648 len); [auto|].
  destruct (N.eqb_spec len 0).
  { subst. right. exists [], rest, (le32 0). repeat split; auto. }
  destruct (N.ltb_spec (N.of_nat (length rest)) (len * 4)); [auto|].
  destruct (read_values_enough (N.to_nat len) rest) as [xs Hxs]; [lia|].
  right. pose proof (read_values_inv _ _ _ Hxs) as (H3 & H4 & r & ->).
  exists xs, r, (le32 len ++ flat_map le32 xs). repeat split; auto.
  - unfold encode_vector, max_int32. rewrite H3, Nnat.N2Nat.id.
    destruct (N.ltb_spec 2147483647 len); [lia|reflexivity].
Qed.

Lemma encode_inj xs ys bs : Forall (fun x => x < 2^32) xs -> Forall (fun x => x < 2^32) ys ->
  encode_vector (Some xs) = Ok bs -> encode_vector (Some ys) = Ok bs -> xs = ys.
Proof.
  intros Hx Hy Ex Ey.
  assert (Nx : N.of_nat (length xs) <= max_int32).
  { unfold encode_vector in Ex. destruct (N.ltb_spec max_int32 (N.of_nat (length xs))); [discriminate|auto]. }
  assert (Ny : N.of_nat (length ys) <= max_int32).
  { unfold encode_vector in Ey. destruct (N.ltb_spec max_int32 (N.of_nat (length ys))); [discriminate|auto]. }
  destruct (encode_decode xs [] Nx Hx) as (b & E1 & _ & D1).
  destruct (encode_decode ys [] Ny Hy) as (b' & E2 & _ & D2).
  congruence.
Qed.

Lemma decode_err_iff bs :
  decode_vector bs = Err EInvalidVector <->
  ((length bs < 4)%nat \/
   exists len rest, bs = le32 len ++ rest /\ len < 2^32 /\
     (2^31 <= len \/ N.of_nat (length rest) < 4 * len)).
Proof.
  unfold decode_vector.
  destruct (N.ltb_spec (N.of_nat (length bs)) 4) as [H|H].
  { split; auto. intros _. left. lia. }
  destruct (rd32 bs) as [[len rest]|] eqn:E; [|apply rd32_none in E; lia].
  pose proof (le32_rd32 _ _ _ E) as [-> Hlen].
  assert (Huniq : forall len' rest', le32 len ++ rest = le32 len' ++ rest' -> len' < 2^32 -> len' = len /\ rest' = rest).
  { intros len' rest' Heq Hl. rewrite Heq, rd32_le32 in E by auto. injection E as -> ->; auto. }
  change (2^31) with 2147483648.
  destruct (N.leb_spec 2147483648 len).
  { split; auto. intros _. right. exists len, rest. auto. }
  destruct (N.eqb_spec len 0).
  { split; [discriminate|]. intros [?|(len' & rest' & Heq & Hl & Hc)]; [lia|].
    destruct (Huniq _ _ Heq Hl); subst. lia. }
  destruct (N.ltb_spec (N.of_nat (length rest)) (len * 4)).
  { split; auto. intros _. right. exists len, rest. repeat split; auto. right; lia. }
  destruct (read_values_enough (N.to_nat len) rest) as [xs Hxs]; [lia|]. rewrite Hxs.
  split; [discriminate|]. intros [?|(len' & rest' & Heq & Hl & Hc)]; [lia|].
  destruct (Huniq _ _ Heq Hl); subst. lia.
Qed.

Lemma validate_iff v :
  validate_vector v = Ok tt <->
  exists xs, v = Some xs /\ xs <> [] /\ Forall (fun b => f32_of_bits b <> S754_nan /\ forall s, f32_of_bits b <> S754_infinity s) xs.
Proof.
  destruct v as [[|x xs]|]; cbn [validate_vector].
  - split; [discriminate|]. intros (? & [= <-] & H & _). congruence.
  - match goal with |- context [forallb ?f ?l] => destruct (forallb f l) eqn:E end.
    + split; auto. intros _. exists (x :: xs). repeat split; try discriminate.
      rewrite forallb_forall in E. apply Forall_forall. intros b Hb. specialize (E b Hb).
      split; [intros Hn|intros s Hn]; rewrite Hn in E; discriminate.
    + split; [discriminate|]. intros (? & [= <-] & _ & HF). exfalso.
      rewrite <- not_true_iff_false in E. apply E. apply forallb_forall. intros b Hb.
      rewrite Forall_forall in HF. destruct (HF b Hb) as [H1 H2].
      destruct (f32_of_bits b) eqn:Eb; auto; try congruence.
  - split; [discriminate|]. intros (? & [=] & _).
Qed.

Lemma f32_nonfinite b : b < 2^32 ->
  ((f32_of_bits b = S754_nan \/ exists s, f32_of_bits b = S754_infinity s) <->
   (b / 2^23) mod 2^8 = 255).
Proof.
  intros H. unfold f32_of_bits.
  assert (E : (Z.of_N b / 2^23 mod 2^8 = Z.of_N ((b / 2^23) mod 2^8))%Z).
  { rewrite N2Z.inj_mod, N2Z.inj_div, !N2Z.inj_pow. reflexivity. }
  rewrite E. set (q := (b / 2^23) mod 2^8).
  destruct (Z.eqb_spec (Z.of_N q) 255).
  - split; [lia|]. intros _. destruct (Z.eqb _ 0); eauto.
  - assert (q <> 255) by lia. split; [|tauto]. intros Hc; exfalso.
    destruct (Z.eqb (Z.of_N q) 0) eqn:E0.
    + destruct (Z.of_N b mod 2^23)%Z; destruct Hc as [|[? ?]]; discriminate.
    + assert (0 < Z.of_N b mod 2^23 + 2^23)%Z.
      { pose proof (Z.mod_pos_bound (Z.of_N b) (2^23) eq_refl). lia. }
      destruct (Z.of_N b mod 2^23 + 2^23)%Z; try lia. destruct Hc as [|[? ?]]; discriminate.
Qed.

Lemma rd32_four b0 b1 b2 b3 rest :
  rd32 ([b0;b1;b2;b3] ++ rest) = Some (le_value [b0;b1;b2;b3], rest).
Proof.
  cbn [rd32 app le_value]. f_equal. f_equal.
  change (2^8) with 256. change (2^16) with 65536. change (2^24) with 16777216. lia.
Qed.

Lemma decode_rejects bs :
  decode_vector bs = Err EInvalidVector <->
  ((length bs < 4)%nat \/
   exists hdr rest, bs = hdr ++ rest /\ length hdr = 4%nat /\
     (2^31 <= le_value hdr \/ N.of_nat (length rest) < 4 * le_value hdr)).
Proof.
  rewrite decode_err_iff. split; (intros [H|H]; [left; exact H|right]).
  - destruct H as (len & rest & -> & Hl & Hc). exists (le32 len), rest.
    split; [reflexivity|]. split; [reflexivity|].
    replace (le_value (le32 len)) with len; [exact Hc|].
    pose proof (rd32_le32 len [] Hl) as E. unfold le32 in E. rewrite rd32_four in E.
    unfold le32. congruence.
  - destruct H as (hdr & rest & -> & Hl & Hc).
    destruct hdr as [|b0 [|b1 [|b2 [|b3 [|]]]]]; try discriminate.
    exists (le_value [b0;b1;b2;b3]), rest.
    pose proof (rd32_four b0 b1 b2 b3 rest) as E.
    apply le32_rd32 in E. tauto.
Qed.

Lemma encode_refusals :
  encode_vector None = Err EInvalidVector /\
  forall xs, 2^31 - 1 < N.of_nat (length xs) -> encode_vector (Some xs) = Err EOther.
Proof.
  split; [reflexivity|]. intros xs H. unfold encode_vector.
  apply N.ltb_lt in H. change max_int32 with (2^31 - 1). rewrite H. reflexivity.
Qed.
