(** Model of /repo/pkg/quantization/scalar_quantization.go.
    The scalar quantiser is written over an arbitrary arithmetic [arith], so that
    the same code is read with IEEE floats or with exact rationals.
    Bytes are [N] below 256, a []byte is [list N]. *)
From Coq Require Import List NArith ZArith QArith Qround Bool.
From Coq Require Import Floats.SpecFloat.
From Verif Require Import Base Floats64.
Import ListNotations.

Record arith := {
  num : Type;
  a_add : num -> num -> num;
  a_sub : num -> num -> num;
  a_mul : num -> num -> num;
  a_div : num -> num -> num;
  a_lt : num -> num -> bool;
  a_eq : num -> num -> bool;
  a_ofN : N -> num;          (* conversion float32(n) *)
  a_trunc : num -> N;        (* conversion uint32(x) *)
  a_eps : num                (* the constant 1e-6 *)
}.

(** ** Exact rationals *)
Definition Qarith : arith := {|
  num := Q; a_add := Qplus; a_sub := Qminus; a_mul := Qmult; a_div := Qdiv;
  a_lt := fun x y => negb (Qle_bool y x);
  a_eq := Qeq_bool;
  a_ofN := fun n => inject_Z (Z.of_N n);
  a_trunc := fun x => Z.to_N (Qfloor x);
  a_eps := 1 # 1000000
|}.

(** ** IEEE single precision; [unspec] is the value of the conversion uint32(x)
    that Go leaves implementation-specific (NaN, infinities, negative values). *)
Definition f_trunc (unspec : float -> N) (f : float) : N :=
  match f with
  | S754_zero _ => 0%N
  | S754_finite false m e =>
      Z.to_N (if Z.leb 0 e then Z.shiftl (Zpos m) e else Z.shiftr (Zpos m) (- e))
  | _ => unspec f
  end.
Definition F32arith (unspec : float -> N) : arith := {|
  num := float; a_add := f32_add; a_sub := f32_sub; a_mul := f32_mul; a_div := f32_div;
  a_lt := flt; a_eq := feq;
  a_ofN := fun n => f32_of_Z (Z.of_N n);
  a_trunc := f_trunc unspec;
  a_eps := f32_div (f32_of_Z 1) (f32_of_Z 1000000)
|}.

(** ** Bit packing *)

(** encoded[off/8] |= 1 << (off%8); out-of-range index panics. *)
Fixpoint or_at (i : nat) (m : N) (bs : list N) : outcome (list N) :=
  match bs, i with
  | [], _ => Panic
  | b :: bs', O => Ok (N.lor b m :: bs')
  | b :: bs', S i' => bind (or_at i' m bs') (fun r => Ok (b :: r))
  end.

(** Inner loop "Pack bits", scalar_quantization.go:118-127: bits [b..n) of [q]. *)
Fixpoint pack_bits (k : nat) (b : N) (q : N) (off : nat) (bs : list N) : outcome (list N * nat) :=
  match k with
  | O => Ok (bs, off)
  | S k' =>
      bind (if N.testbit q b
            then or_at (Nat.div off 8) (N.shiftl 1 (N.of_nat (Nat.modulo off 8))) bs
            else Ok bs)
           (fun bs' => pack_bits k' (b + 1) q (S off) bs')
  end.

(** Outer loop of Encode over the quantised levels, scalar_quantization.go:104-128. *)
Fixpoint pack_levels (n : nat) (qs : list N) (off : nat) (bs : list N) : outcome (list N) :=
  match qs with
  | [] => Ok bs
  | q :: qs' => bind (pack_bits n 0 q off bs) (fun '(bs', off') => pack_levels n qs' off' bs')
  end.

(** Inner loop "Unpack bits", scalar_quantization.go:146-159. *)
Fixpoint unpack_bits (k : nat) (b : N) (acc : N) (off : nat) (bs : list N) : outcome (N * nat) :=
  match k with
  | O => Ok (acc, off)
  | S k' =>
      match nth_error bs (Nat.div off 8) with
      | None => Err EOther
      | Some x =>
          let acc' := if N.testbit x (N.of_nat (Nat.modulo off 8)) then N.lor acc (N.shiftl 1 b) else acc in
          unpack_bits k' (b + 1) acc' (S off) bs
      end
  end.

(** Outer loop of Decode, scalar_quantization.go:142-164, collecting levels. *)
Fixpoint unpack_levels (n : nat) (dim : nat) (off : nat) (bs : list N) : outcome (list N) :=
  match dim with
  | O => Ok []
  | S d => bind (unpack_bits n 0 0 off bs) (fun '(q, off') =>
             bind (unpack_levels n d off' bs) (fun qs => Ok (q :: qs)))
  end.

(** ** ScalarQuantizer, scalar_quantization.go:14-20.  The dimension is
    non-negative (a negative one panics in make). *)
Section SQ.
Variable A : arith.

Record squant := { sq_dim : nat; sq_min : list (num A); sq_max : list (num A);
                   sq_bits : nat; sq_trained : bool }.

(** NewScalarQuantizer, scalar_quantization.go:23-34. *)
Definition sq_new (dim : nat) (nbits : Z) : outcome squant :=
  if (nbits <? 1)%Z || (8 <? nbits)%Z then Err EOther
  else Ok {| sq_dim := dim; sq_bits := Z.to_nat nbits;
             sq_min := repeat (a_ofN A 0) dim; sq_max := repeat (a_ofN A 0) dim;
             sq_trained := false |}.

(** Train loops, scalar_quantization.go:61-74 (one vector). *)
Definition min_step (m v : num A) := if a_lt A v m then v else m.
Definition max_step (m v : num A) := if a_lt A m v then v else m.
Fixpoint zip_with (f : num A -> num A -> num A) (xs ys : list (num A)) : list (num A) :=
  match xs, ys with x :: xs', y :: ys' => f x y :: zip_with f xs' ys' | _, _ => [] end.

Fixpoint train_loop (dim : nat) (vs : list (list (num A))) (mn mx : list (num A))
  : outcome (list (num A) * list (num A)) :=
  match vs with
  | [] => Ok (mn, mx)
  | v :: vs' =>
      if negb (Nat.eqb (length v) dim) then Err EOther
      else train_loop dim vs' (zip_with min_step mn v) (zip_with max_step mx v)
  end.

(** Train, scalar_quantization.go:49-85 (on error the partially updated ranges
    of the Go object are not modelled: it stays untrained or keeps its flag). *)
Definition sq_train (s : squant) (vs : list (list (num A))) : outcome squant :=
  match vs with
  | [] => Err EOther
  | v0 :: _ =>
      if Nat.ltb (length v0) (sq_dim s) then Panic
      else
        let init := firstn (sq_dim s) v0 in
        bind (train_loop (sq_dim s) vs init init) (fun '(mn, mx) =>
          Ok {| sq_dim := sq_dim s; sq_bits := sq_bits s; sq_min := mn;
                sq_max := zip_with (fun hi lo => if a_eq A hi lo then a_add A hi (a_eps A) else hi) mx mn;
                sq_trained := true |})
  end.

(** maxVal, scalar_quantization.go:97. *)
Definition max_val (s : squant) : num A := a_ofN A (2 ^ N.of_nat (sq_bits s) - 1).

(** Level of one component, scalar_quantization.go:106-115. *)
Definition level (mv lo hi v : num A) : N :=
  let normalized := a_div A (a_sub A v lo) (a_sub A hi lo) in
  let normalized := if a_lt A normalized (a_ofN A 0) then a_ofN A 0
                    else if a_lt A (a_ofN A 1) normalized then a_ofN A 1 else normalized in
  a_trunc A (a_mul A normalized mv).

Fixpoint levels (mv : num A) (los his vs : list (num A)) : list N :=
  match los, his, vs with
  | lo :: los', hi :: his', v :: vs' => level mv lo hi v :: levels mv los' his' vs'
  | _, _, _ => []
  end.

(** Encode, scalar_quantization.go:88-131. *)
Definition sq_encode (s : squant) (v : list (num A)) : outcome (list N) :=
  if negb (sq_trained s) then Err EOther
  else if negb (Nat.eqb (length v) (sq_dim s)) then Err EOther
  else
    let bytes_needed := Nat.div (sq_dim s * sq_bits s + 7) 8 in
    pack_levels (sq_bits s) (levels (max_val s) (sq_min s) (sq_max s) v) 0 (repeat 0%N bytes_needed).

(** Dequantisation of one level, scalar_quantization.go:162-163. *)
Definition dequant (mv lo hi : num A) (q : N) : num A :=
  let normalized := a_div A (a_ofN A q) mv in
  a_add A (a_mul A normalized (a_sub A hi lo)) lo.

Fixpoint dequants (mv : num A) (los his : list (num A)) (qs : list N) : list (num A) :=
  match los, his, qs with
  | lo :: los', hi :: his', q :: qs' => dequant mv lo hi q :: dequants mv los' his' qs'
  | _, _, _ => []
  end.

(** Decode, scalar_quantization.go:134-167. *)
Definition sq_decode (s : squant) (bs : list N) : outcome (list (num A)) :=
  if negb (sq_trained s) then Err EOther
  else bind (unpack_levels (sq_bits s) (sq_dim s) 0 bs) (fun qs =>
         Ok (dequants (max_val s) (sq_min s) (sq_max s) qs)).
End SQ.

(** ** BinaryQuantizer, scalar_quantization.go:177-181. *)
Record bquant := { bq_dim : nat; bq_thr : list float; bq_trained : bool }.

(** Train, scalar_quantization.go:204-223: mean per dimension. *)
Definition bq_train (s : bquant) (vs : list (list float)) : outcome bquant :=
  match vs with
  | [] => Err EOther
  | _ =>
      if negb (Nat.eqb (bq_dim s) 0) && existsb (fun v => negb (Nat.eqb (length v) (bq_dim s))) vs
      then Err EOther
      else Ok {| bq_dim := bq_dim s;
                 bq_thr := map (fun d => f32_div (fold_left (fun acc v => f32_add acc (nth d v f_zero)) vs f_zero)
                                                 (f32_of_Z (Z.of_nat (length vs))))
                               (seq 0 (bq_dim s));
                 bq_trained := true |}
  end.

(** The loop of Encode, scalar_quantization.go:239-245. *)
Fixpoint bq_loop (thr v : list float) (d : nat) (bs : list N) : outcome (list N) :=
  match thr, v with
  | t :: thr', x :: v' =>
      bind (if fgt x t then or_at (Nat.div d 8) (N.shiftl 1 (N.of_nat (Nat.modulo d 8))) bs else Ok bs)
           (fun bs' => bq_loop thr' v' (S d) bs')
  | _, _ => Ok bs
  end.

(** Encode, scalar_quantization.go:226-248. *)
Definition bq_encode (s : bquant) (v : list float) : outcome (list N) :=
  if negb (bq_trained s) then Err EOther
  else if negb (Nat.eqb (length v) (bq_dim s)) then Err EOther
  else bq_loop (bq_thr s) v 0 (repeat 0%N (Nat.div (bq_dim s + 7) 8)).

(** Decode, scalar_quantization.go:251-277. *)
Definition f32_half : float := f32_div (f32_of_Z 1) (f32_of_Z 2).
Definition bq_decode (s : bquant) (bs : list N) : outcome (list float) :=
  if negb (bq_trained s) then Err EOther
  else if negb (Nat.eqb (length bs) (Nat.div (bq_dim s + 7) 8)) then Err EOther
  else Ok (map (fun '(d, t) =>
                  match nth_error bs (Nat.div d 8) with
                  | Some x => if N.testbit x (N.of_nat (Nat.modulo d 8)) then f32_add t f32_half else f32_sub t f32_half
                  | None => S754_nan (* unreachable: see bq_decode_in_range *)
                  end)
               (combine (seq 0 (bq_dim s)) (bq_thr s))).

(** Kernighan loop, scalar_quantization.go:289-292, on a byte.  The loop clears
    one set bit per iteration; [fuel] 8 suffices (kern_popcount). *)
Fixpoint kern (fuel : nat) (x : N) : option Z :=
  if (x =? 0)%N then Some 0%Z
  else match fuel with
       | O => None
       | S f => option_map (fun d => (d + 1)%Z) (kern f (N.land x (x - 1)))
       end.

Fixpoint ham_loop (a b : list N) : option Z :=
  match a, b with
  | x :: a', y :: b' =>
      match kern 8 (N.lxor x y), ham_loop a' b' with
      | Some d, Some r => Some (d + r)%Z
      | _, _ => None
      end
  | _, _ => Some 0%Z
  end.

(** HammingDistance, scalar_quantization.go:280-296; [None] = out of fuel. *)
Definition hamming (a b : list N) : option Z :=
  if Nat.eqb (length a) (length b) then ham_loop a b else Some (-1)%Z.

(** SearchBinary, scalar_quantization.go:299-336.  Result: (index, distance). *)
Definition search_binary (query : list N) (db : list (list N)) (topk : Z) : outcome (list (nat * Z)) :=
  let results := map (fun '(i, v) => (i, match hamming query v with Some d => d | None => 0%Z end))
                     (combine (seq 0 (length db)) db) in
  let sorted := ex_sort (fun y x => Z.ltb (snd y) (snd x)) results in
  let k := if (Z.of_nat (length sorted) <? topk)%Z then Z.of_nat (length sorted) else topk in
  if (k <? 0)%Z then Panic else Ok (firstn (Z.to_nat k) sorted).
