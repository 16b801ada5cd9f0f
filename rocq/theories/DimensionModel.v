(** Model of /repo/pkg/core/dimension.go (adaptation of vectors to the
    collection dimension).  float32/float64 values are [spec_float];
    arithmetic is IEEE-754 round-to-nearest-even without fused operations. *)
From Coq Require Import List ZArith Bool.
From Coq Require Import Floats.SpecFloat.
From Verif Require Import Base Floats64.
Import ListNotations.
Local Open Scope Z_scope.

(** AdaptPolicy, /repo/pkg/core/embedding.go:119-128.  [UnknownPolicy] is any
    other integer. *)
Inductive policy := StrictMode | SmartAdapt | AutoTruncate | AutoPad | WarnOnly | UnknownPolicy.

(** make([]float32, n): panics for a negative length. *)
Definition make_zeros (n : Z) : outcome (list float) :=
  if n <? 0 then Panic else Ok (repeat f_zero (Z.to_nat n)).

(** copy(dst, src) with dst := make([]float32, n). *)
Definition copy_into (n : nat) (src : list float) : list float :=
  firstn n src ++ repeat f_zero (n - length src).

(** sumSquares loop, /repo/pkg/core/dimension.go:163-166. *)
Definition sum_squares (v : list float) : float :=
  fold_left (fun acc x => f64_add acc (f64_mul (f64_of_f32 x) (f64_of_f32 x))) v f_zero.

(** normalizeVector, /repo/pkg/core/dimension.go:162-179. *)
Definition normalize_vector (v : list float) : list float :=
  let ss := sum_squares v in
  if feq ss f_zero then v
  else let norm := f64_sqrt ss in
       map (fun x => f32_of_f64 (f64_div (f64_of_f32 x) norm)) v.

(** calculateVectorStddev, /repo/pkg/core/dimension.go:182-203. *)
Definition vector_stddev (v : list float) : float :=
  if Z.of_nat (length v) <=? 1 then f_zero
  else
    let sum := fold_left (fun acc x => f64_add acc (f64_of_f32 x)) v f_zero in
    let mean := f64_div sum (f64_of_Z (Z.of_nat (length v))) in
    let variance := fold_left (fun acc x => let d := f64_sub (f64_of_f32 x) mean in
                                            f64_add acc (f64_mul d d)) v f_zero in
    let variance := f64_div variance (f64_of_Z (Z.of_nat (length v) - 1)) in
    f32_of_f64 (f64_sqrt variance).

(** truncateVector, /repo/pkg/core/dimension.go:67-78. *)
Definition truncate_vector (v : list float) (t : Z) : outcome (list float) :=
  if Z.of_nat (length v) <=? t
  then bind (make_zeros t) (fun _ => Ok (normalize_vector (copy_into (Z.to_nat t) v)))
  else bind (make_zeros t) (fun _ => Ok (normalize_vector (copy_into (Z.to_nat t) (firstn (Z.to_nat t) v)))).

(** dimValue, /repo/pkg/core/dimension.go:88-92.  [abs] is
    float32(math.Abs(float64(v))), which is exact, modelled as [SFabs]. *)
Record dim_value := { dv_index : nat; dv_value : float; dv_abs : float }.

Definition mk_dims (v : list float) : list dim_value :=
  map (fun '(i, x) => {| dv_index := i; dv_value := x; dv_abs := SFabs x |})
      (combine (seq 0 (length v)) v).

(** truncateWithImportance, /repo/pkg/core/dimension.go:81-126; [importance_kept]
    is the vector before the final normalizeVector call. *)
Definition importance_kept (v : list float) (t : nat) : list float :=
  let dims := ex_sort (fun y x => flt (dv_abs x) (dv_abs y)) (mk_dims v) in
  let selected := ex_sort (fun y x => Nat.ltb (dv_index y) (dv_index x)) (firstn t dims) in
  map dv_value selected.

Definition truncate_with_importance (v : list float) (t : Z) : outcome (list float) :=
  if Z.of_nat (length v) <=? t then Ok v
  else if t <? 0 then Panic
  else Ok (normalize_vector (importance_kept v (Z.to_nat t))).

(** padVector, /repo/pkg/core/dimension.go:129-138 (slice bounds panic for a
    negative target). *)
Definition pad_vector (v : list float) (t : Z) : outcome (list float) :=
  if t <=? Z.of_nat (length v)
  then (if t <? 0 then Panic else Ok (normalize_vector (firstn (Z.to_nat t) v)))
  else Ok (normalize_vector (copy_into (Z.to_nat t) v)).

(** The float32 constant 0.01 of /repo/pkg/core/dimension.go:151. *)
Definition f32_0_01 : float := f32_div (f32_of_Z 1) (f32_of_Z 100).

(** padWithNoise, /repo/pkg/core/dimension.go:141-159; [noise i] is the i-th
    rand.NormFloat64() draw. *)
Definition pad_with_noise (noise : nat -> float) (v : list float) (t : Z) : outcome (list float) :=
  if t <=? Z.of_nat (length v)
  then (if t <? 0 then Panic else Ok (firstn (Z.to_nat t) v))
  else
    let level := f32_mul (vector_stddev v) f32_0_01 in
    let extra := map (fun i => f32_mul (f32_of_f64 (noise i)) level)
                     (seq 0 (Z.to_nat t - length v)) in
    Ok (normalize_vector (v ++ extra)).

(** smartAdapt, /repo/pkg/core/dimension.go:56-64. *)
Definition smart_adapt (noise : nat -> float) (v : list float) (s t : Z) : outcome (list float) :=
  if t <? s then truncate_with_importance v t else pad_with_noise noise v t.

(** AdaptVector, /repo/pkg/core/dimension.go:30-53.  (In the error cases Go
    also returns the vector; callers ignore it.) *)
Definition adapt_vector (noise : nat -> float) (p : policy) (v : list float) (s t : Z)
  : outcome (list float) :=
  if negb (Z.of_nat (length v) =? s) then Err EOther
  else if s =? t then Ok v
  else match p with
       | StrictMode => Err EOther
       | SmartAdapt => smart_adapt noise v s t
       | AutoTruncate => truncate_vector v t
       | AutoPad => pad_vector v t
       | WarnOnly => Err EOther
       | UnknownPolicy => Err EOther
       end.

(** AnalyzeDimensions, /repo/pkg/core/dimension.go:234-271.  The Go map
    dimension -> count is an association list without repeated keys; [order]
    is the (arbitrary) iteration order of the second loop.  NeedsMigration is
    the float64 comparison of line 262. *)
Record dim_analysis := { da_primary : Z; da_count : Z; da_dims : list (Z * Z);
                         da_total : Z; da_migrate : bool }.

Fixpoint bump (d : Z) (m : list (Z * Z)) : list (Z * Z) :=
  match m with
  | [] => [(d, 1)]
  | (d', c) :: m' => if d =? d' then (d', c + 1) :: m' else (d', c) :: bump d m'
  end.

Definition count_dims (vs : list (list float)) : list (Z * Z) :=
  fold_left (fun m v => bump (Z.of_nat (length v)) m) vs [].

Definition f64_0_8 : float := f64_div (f64_of_Z 4) (f64_of_Z 5).

(** Loop body of /repo/pkg/core/dimension.go:254-259. *)
Definition primary_step (best entry : Z * Z) : Z * Z :=
  if snd best <? snd entry then entry else best.

Definition analyze_dimensions (order : list (Z * Z) -> list (Z * Z)) (vs : list (list float)) : dim_analysis :=
  match vs with
  | [] => {| da_primary := 0; da_count := 0; da_dims := []; da_total := 0; da_migrate := false |}
  | _ =>
      let dims := count_dims vs in
      let '(pd, pc) := fold_left primary_step (order dims) (0, 0) in
      let total := Z.of_nat (length vs) in
      {| da_primary := pd; da_count := pc; da_dims := dims; da_total := total;
         da_migrate := flt (f64_div (f64_of_Z pc) (f64_of_Z total)) f64_0_8
                       && (1 <? Z.of_nat (length dims)) |}
  end.
