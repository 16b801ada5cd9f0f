(** IEEE-754 comparison on [spec_float], the axiom-free specification floats of
    the Coq standard library, used to model Go's float32/float64 comparisons.
    Go's [<] on floats is [SFltb]: false whenever an operand is NaN. *)
From Coq Require Import ZArith List Bool Lia.
From Coq Require Import Floats.SpecFloat.
From Verif Require Import Base.
Import ListNotations.

Notation float := spec_float.

Definition is_nanb (f : spec_float) : bool := match f with S754_nan => true | _ => false end.
Definition not_nan (f : spec_float) : Prop := f <> S754_nan.

(** Go's [a < b], [a <= b], [a > b], [a >= b], [a == b] on floats. *)
Definition flt (a b : float) : bool := SFltb a b.
Definition fle (a b : float) : bool := SFleb a b.
Definition fgt (a b : float) : bool := SFltb b a.
Definition fge (a b : float) : bool := SFleb b a.
Definition feq (a b : float) : bool := SFeqb a b.

(** Order key of a non-NaN float: sign class, signed exponent, signed mantissa. *)
Definition fkey (f : float) : Z * Z * Z :=
  match f with
  | S754_nan => (0, 0, 0)
  | S754_zero _ => (0, 0, 0)
  | S754_infinity true => (-2, 0, 0)
  | S754_infinity false => (2, 0, 0)
  | S754_finite true m e => (-1, - e, - Zpos m)
  | S754_finite false m e => (1, e, Zpos m)
  end%Z.

Definition klt (a b : Z * Z * Z) : Prop :=
  let '(a1, a2, a3) := a in let '(b1, b2, b3) := b in
  (a1 < b1 \/ (a1 = b1 /\ (a2 < b2 \/ (a2 = b2 /\ a3 < b3))))%Z.

Lemma flt_key a b : not_nan a -> not_nan b -> flt a b = true <-> klt (fkey a) (fkey b).
Proof.
  unfold flt, SFltb, not_nan.
  destruct a as [sa|sa| |sa ma ea], b as [sb|sb| |sb mb eb]; intros Ha Hb;
    try congruence; try destruct sa; try destruct sb; simpl;
    try (split; [discriminate|]; lia); try (split; [lia|reflexivity]).
  - destruct (Z.compare_spec ea eb) as [E|E|E]; simpl.
    + change (Pos.compare_cont Eq ma mb) with (Pos.compare ma mb).
      destruct (Pos.compare_spec ma mb) as [F|F|F]; simpl; split; try discriminate; try lia; auto.
    + split; [discriminate|lia].
    + split; [lia|reflexivity].
  - destruct (Z.compare_spec ea eb) as [E|E|E]; simpl.
    + change (Pos.compare_cont Eq ma mb) with (Pos.compare ma mb).
      destruct (Pos.compare_spec ma mb) as [F|F|F]; simpl; split; try discriminate; try lia; auto.
    + split; [lia|reflexivity].
    + split; [discriminate|lia].
Qed.

Lemma klt_irrefl a : ~ klt a a.
Proof. destruct a as [[? ?] ?]; simpl; lia. Qed.
Lemma klt_asym a b : klt a b -> ~ klt b a.
Proof. destruct a as [[? ?] ?], b as [[? ?] ?]; simpl; lia. Qed.
Lemma klt_ntrans a b c : ~ klt b a -> ~ klt c b -> ~ klt c a.
Proof. destruct a as [[? ?] ?], b as [[? ?] ?], c as [[? ?] ?]; simpl; lia. Qed.
Lemma klt_trans a b c : klt a b -> klt b c -> klt a c.
Proof. destruct a as [[? ?] ?], b as [[? ?] ?], c as [[? ?] ?]; simpl; lia. Qed.

Lemma flt_false_key a b : not_nan a -> not_nan b -> flt a b = false <-> ~ klt (fkey a) (fkey b).
Proof.
  intros Ha Hb. rewrite <- (flt_key a b Ha Hb). destruct (flt a b); split; congruence.
Qed.

Lemma flt_asym a b : flt a b = true -> flt b a = false.
Proof.
  destruct (is_nanb a) eqn:Na, (is_nanb b) eqn:Nb;
    try (destruct a; try discriminate; destruct b; try discriminate; simpl; auto; fail).
  assert (not_nan a) by (intros ->; discriminate).
  assert (not_nan b) by (intros ->; discriminate).
  rewrite flt_key, flt_false_key by auto. apply klt_asym.
Qed.

Lemma flt_irrefl a : flt a a = false.
Proof. destruct (flt a a) eqn:E; auto. apply flt_asym in E as E'. congruence. Qed.

Lemma flt_ntrans a b c : not_nan a -> not_nan b -> not_nan c ->
  flt b a = false -> flt c b = false -> flt c a = false.
Proof. intros Ha Hb Hc; rewrite !flt_false_key by auto; apply klt_ntrans. Qed.

Lemma flt_trans a b c : flt a b = true -> flt b c = true -> flt a c = true.
Proof.
  destruct (is_nanb a) eqn:Na; [destruct a; discriminate|].
  destruct (is_nanb b) eqn:Nb; [destruct b; try discriminate; destruct a as [|[]| |[]]; discriminate|].
  destruct (is_nanb c) eqn:Nc; [destruct c; try discriminate; destruct b as [|[]| |[]]; discriminate|].
  assert (not_nan a) by (intros ->; discriminate).
  assert (not_nan b) by (intros ->; discriminate).
  assert (not_nan c) by (intros ->; discriminate).
  rewrite !flt_key by auto. apply klt_trans.
Qed.

(** On non-NaN operands, [<=] is the negation of the reversed [<]. *)
Lemma fle_flt a b : not_nan a -> not_nan b -> fle a b = negb (flt b a).
Proof.
  unfold fle, flt, SFleb, SFltb, not_nan.
  destruct a as [sa|sa| |sa ma ea], b as [sb|sb| |sb mb eb]; intros Ha Hb;
    try congruence; try destruct sa; try destruct sb; simpl; auto;
    rewrite (Z.compare_antisym eb ea); destruct (Z.compare_spec eb ea); simpl; auto;
    change (Pos.compare_cont Eq) with Pos.compare;
    rewrite (Pos.compare_antisym mb ma); destruct (Pos.compare_spec mb ma); simpl; auto.
Qed.

Lemma fle_nan_l b : fle S754_nan b = false.
Proof. reflexivity. Qed.
Lemma fle_nan_r a : fle a S754_nan = false.
Proof. destruct a as [[]|[]| |[] ? ?]; reflexivity. Qed.

Lemma fle_not_nan a b : fle a b = true -> not_nan a /\ not_nan b.
Proof.
  intros H; split; intros ->; [rewrite fle_nan_l in H|rewrite fle_nan_r in H]; discriminate.
Qed.
Lemma flt_not_nan a b : flt a b = true -> not_nan a /\ not_nan b.
Proof.
  intros H; split; intros ->; [discriminate H|destruct a as [[]|[]| |[] ? ?]; discriminate H].
Qed.

(** Sorting by a non-NaN float key, ascending or descending, is a weak order. *)
Lemma weak_order_asc {A} (f : A -> float) l :
  (forall x, In x l -> not_nan (f x)) -> weak_order_on (fun a b => flt (f a) (f b)) l.
Proof.
  intros H; split; intros.
  - apply flt_asym; auto.
  - eapply flt_ntrans with (b := f y); auto.
Qed.
Lemma weak_order_desc {A} (f : A -> float) l :
  (forall x, In x l -> not_nan (f x)) -> weak_order_on (fun a b => fgt (f a) (f b)) l.
Proof.
  intros H; split; unfold fgt; intros.
  - apply flt_asym; auto.
  - eapply flt_ntrans with (b := f y); auto.
Qed.

(** ** Constants and conversions *)

(** float64 / float32 parameters of IEEE-754. *)
Definition prec64 : Z := 53.  Definition emax64 : Z := 1024.
Definition prec32 : Z := 24.  Definition emax32 : Z := 128.

Definition f64_add := SFadd prec64 emax64.
Definition f64_sub := SFsub prec64 emax64.
Definition f64_mul := SFmul prec64 emax64.
Definition f64_div := SFdiv prec64 emax64.
Definition f64_sqrt := SFsqrt prec64 emax64.
Definition f64_of_Z (z : Z) : float := binary_normalize prec64 emax64 z 0 false.
Definition f32_add := SFadd prec32 emax32.
Definition f32_sub := SFsub prec32 emax32.
Definition f32_mul := SFmul prec32 emax32.
Definition f32_div := SFdiv prec32 emax32.
Definition f32_sqrt := SFsqrt prec32 emax32.
Definition f32_of_Z (z : Z) : float := binary_normalize prec32 emax32 z 0 false.

(** Go's conversion between float widths: re-rounding to the target format. *)
Definition f_round (prec emax : Z) (f : float) : float :=
  match f with
  | S754_finite s m e => binary_normalize prec emax (if s then Zneg m else Zpos m) e s
  | _ => f
  end.
Definition f64_of_f32 := f_round prec64 emax64.
Definition f32_of_f64 := f_round prec32 emax32.

Definition f_zero : float := S754_zero false.
Definition f_pinf : float := S754_infinity false.
Definition f_ninf : float := S754_infinity true.

(** Decoding of a 32-bit pattern (math.Float32frombits). *)
Definition f32_of_bits (n : N) : float :=
  let z := Z.of_N n in
  let s := Z.testbit z 31 in
  let e := ((z / 2^23) mod 2^8)%Z in
  let m := (z mod 2^23)%Z in
  if Z.eqb e 255 then (if Z.eqb m 0 then S754_infinity s else S754_nan)
  else if Z.eqb e 0 then
    match m with Zpos p => S754_finite s p (-149) | _ => S754_zero s end
  else match (m + 2^23)%Z with Zpos p => S754_finite s p (e - 150) | _ => S754_nan end.
