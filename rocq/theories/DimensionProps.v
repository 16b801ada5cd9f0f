(** C03, C04, C66: adapting vectors to the store's dimension. *)
From Coq Require Import List ZArith Bool Permutation Sorted.
From Coq Require Import Floats.SpecFloat.
From Verif Require Import Base Floats64 DimensionModel DimensionProofs.
Import ListNotations.
Local Open Scope Z_scope.

(** C03: a declared dimension that is not the vector's length is refused,
    whatever the policy. *)
Theorem adapt_rejects_wrong_length :
  forall noise p v s t, Z.of_nat (length v) <> s -> adapt_vector noise p v s t = Err EOther.
Proof. exact adapt_mismatch. Qed.

(** C03: nothing changes when the dimension is already right. *)
Theorem adapt_identity :
  forall noise p v, adapt_vector noise p v (Z.of_nat (length v)) (Z.of_nat (length v)) = Ok v.
Proof. intros; apply adapt_same; reflexivity. Qed.

(** C03: strict, warn-only and unknown policies refuse every mismatch. *)
Theorem adapt_strict_refuses :
  forall noise p v t, p = StrictMode \/ p = WarnOnly \/ p = UnknownPolicy ->
  Z.of_nat (length v) <> t -> adapt_vector noise p v (Z.of_nat (length v)) t = Err EOther.
Proof. intros; apply adapt_refuse; auto. Qed.

(** C03: the adapting policies always deliver exactly the requested dimension. *)
Theorem adapt_exact_dimension :
  forall noise p v t, p = SmartAdapt \/ p = AutoTruncate \/ p = AutoPad -> 0 <= t ->
  exists r, adapt_vector noise p v (Z.of_nat (length v)) t = Ok r /\ Z.of_nat (length r) = t.
Proof. exact adapt_dim. Qed.

(** C03: and what they deliver is the L2-normalised truncation / zero padding
    (AutoTruncate, AutoPad) or the normalised original followed by noise
    (SmartAdapt growing). *)
Theorem adapt_auto_contents :
  forall noise p v t, p = AutoTruncate \/ p = AutoPad -> 0 <= t -> Z.of_nat (length v) <> t ->
  adapt_vector noise p v (Z.of_nat (length v)) t
  = Ok (normalize_vector (firstn (Z.to_nat t) v ++ repeat f_zero (Z.to_nat t - length v))).
Proof. intros noise p v t [->| ->]; [apply adapt_trunc|apply adapt_pad]. Qed.

Theorem adapt_smart_grow_contents :
  forall noise v t, Z.of_nat (length v) < t ->
  exists extra, length extra = (Z.to_nat t - length v)%nat /\
  adapt_vector noise SmartAdapt v (Z.of_nat (length v)) t = Ok (normalize_vector (v ++ extra)).
Proof. exact adapt_smart_grow. Qed.

Example adapt_exact_dimension_ex :
  adapt_vector (fun _ => f_zero) AutoPad [f32_of_Z 3; f32_of_Z 4] 2 3
  = Ok [f32_div (f32_of_Z 3) (f32_of_Z 5); f32_div (f32_of_Z 4) (f32_of_Z 5); f_zero].
Proof. vm_compute. reflexivity. Qed.

(** C04: smart truncation of a NaN-free vector keeps, in their original order, t
    components such that no dropped component is larger in absolute value than
    a kept one, and normalises the result. *)
Theorem smart_truncation_keeps_largest :
  forall noise v t, 0 <= t < Z.of_nat (length v) -> Forall not_nan v ->
  exists kept idxs,
    adapt_vector noise SmartAdapt v (Z.of_nat (length v)) t = Ok (normalize_vector kept) /\
    Z.of_nat (length idxs) = t /\ StronglySorted lt idxs /\
    map Some kept = map (nth_error v) idxs /\
    forall i j x y, In i idxs -> ~ In j idxs -> nth_error v i = Some x -> nth_error v j = Some y ->
      SFltb (SFabs x) (SFabs y) = false.
Proof.
  intros noise v t H Hn.
  destruct (importance_spec v (Z.to_nat t)) as (idxs & H1 & H2 & H3 & H4); [Lia.lia|exact Hn|].
  exists (importance_kept v (Z.to_nat t)), idxs.
  split; [apply adapt_smart_shrink; exact H|]. split; [Lia.lia|]. auto.
Qed.

Example smart_truncation_ex :
  adapt_vector (fun _ => f_zero) SmartAdapt [f32_of_Z (-3); f32_of_Z 1; f32_of_Z 4] 3 2
  = Ok [f32_div (f32_of_Z (-3)) (f32_of_Z 5); f32_div (f32_of_Z 4) (f32_of_Z 5)].
Proof. vm_compute. reflexivity. Qed.

(** C66: the dimension analysis counts every vector length correctly and names
    a most frequent one, for every map iteration order. *)
Theorem analyze_dimensions_exact :
  forall order vs, (forall m, Permutation m (order m)) -> vs <> [] ->
  let a := analyze_dimensions order vs in
  let n d := Z.of_nat (length (filter (fun v => Z.of_nat (length v) =? d) vs)) in
  da_total a = Z.of_nat (length vs) /\
  NoDup (map fst (da_dims a)) /\
  (forall k c, In (k, c) (da_dims a) <-> 0 < c /\ c = n k) /\
  0 < da_count a /\ da_count a = n (da_primary a) /\
  (forall d, n d <= da_count a).
Proof. exact analyze_spec. Qed.

Example analyze_dimensions_ex :
  let v2 := [f_zero; f_zero] in let v1 := [f_zero] in
  let a := analyze_dimensions (@rev _) [v2; v1; v2] in
  (da_primary a, da_count a, da_total a, da_migrate a) = (2, 2, 3, true).
Proof. vm_compute. reflexivity. Qed.

Print Assumptions adapt_rejects_wrong_length.
Print Assumptions adapt_identity.
Print Assumptions adapt_strict_refuses.
Print Assumptions adapt_exact_dimension.
Print Assumptions adapt_auto_contents.
Print Assumptions adapt_smart_grow_contents.
Print Assumptions smart_truncation_keeps_largest.
Print Assumptions analyze_dimensions_exact.
