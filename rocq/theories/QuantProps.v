(** C05, C06, C07: scalar and binary quantisation. *)
From Coq Require Import List NArith ZArith QArith Bool Sorted.
From Coq Require Import Floats.SpecFloat.
From Verif Require Import Base Floats64 QuantModel QuantSpec QuantProofs.
Import ListNotations.

(** C05: any sequence of levels representable in n bits survives packing. *)
Theorem scalar_levels_survive_packing :
  forall n qs, (0 < n)%nat -> Forall (fun q => q < 2 ^ N.of_nat n)%N qs ->
  exists bs, pack_levels n qs 0 (repeat 0%N (Nat.div (length qs * n + 7) 8)) = Ok bs /\
    length bs = Nat.div (length qs * n + 7) 8 /\
    unpack_levels n (length qs) 0 bs = Ok qs.
Proof. exact pack_small. Qed.

(** C05, API form, for any arithmetic (IEEE floats included): a trained quantiser
    encodes every vector of its dimension to ceil(dim*bits/8) bytes and decodes
    them to the reconstruction of each component's own level. *)
Theorem scalar_encode_decode :
  forall (A : arith) dim bits vs s0 s v,
  sq_new A dim bits = Ok s0 -> sq_train A s0 vs = Ok s -> length v = dim ->
  exists bs, sq_encode A s v = Ok bs /\
    length bs = Nat.div (dim * Z.to_nat bits + 7) 8 /\
    sq_decode A s bs = Ok (dequants A (max_val A s) (sq_min A s) (sq_max A s)
       (map (fun q => N.modulo q (2 ^ Z.to_N bits))
            (levels A (max_val A s) (sq_min A s) (sq_max A s) v))).
Proof. exact sq_api_round_trip. Qed.

(** C05: truncated codes are reported as errors. *)
Theorem scalar_decode_truncated :
  forall A s bs, sq_trained A s = true -> (8 * length bs < sq_dim A s * sq_bits A s)%nat ->
  sq_decode A s bs = Err EOther.
Proof. exact sq_decode_short. Qed.

Definition ex_unspec (f : float) : N := 0%N.
Definition ex_vs : list (list Q) := [[0; 10]; [1; 20]]%Q.
Example scalar_encode_decode_ex :
  exists s0 s bs, sq_new Qarith 2 3 = Ok s0 /\ sq_train Qarith s0 ex_vs = Ok s /\
    sq_encode Qarith s [1 # 2; 15]%Q = Ok bs /\ bs = [27%N].
Proof. do 3 eexists. repeat split; vm_compute; reflexivity. Qed.
Example scalar_encode_decode_float_ex :
  exists s0 s bs w, sq_new (F32arith ex_unspec) 2 8 = Ok s0 /\
    sq_train (F32arith ex_unspec) s0 [[f32_of_Z 0; f32_of_Z 10]; [f32_of_Z 1; f32_of_Z 20]] = Ok s /\
    sq_encode (F32arith ex_unspec) s [f32_of_Z 1; f32_of_Z 10] = Ok bs /\ bs = [255%N; 0%N] /\
    sq_decode (F32arith ex_unspec) s bs = Ok w /\ w = [f32_of_Z 1; f32_of_Z 10].
Proof. do 4 eexists. repeat split; vm_compute; reflexivity. Qed.

(** C06 (exact arithmetic): every training vector lies in the learnt range, the
    range is non-degenerate ... *)
Theorem scalar_training_range :
  forall s vs s', sq_train Qarith s vs = Ok s' ->
  Forall2 Qlt (sq_min _ s') (sq_max _ s') /\
  Forall (fun v => Forall2 Qle (sq_min _ s') v /\ Forall2 Qle v (sq_max _ s')) vs.
Proof. exact sq_train_Q. Qed.

(** ... and the reconstruction of any vector is within one step below the vector
    clamped to the range, in every component. *)
Theorem scalar_error_bound :
  forall dim bits vs v s0 s,
  sq_new Qarith dim bits = Ok s0 -> sq_train Qarith s0 vs = Ok s -> length v = dim ->
  exists bs w, sq_encode Qarith s v = Ok bs /\ sq_decode Qarith s bs = Ok w /\
    Forall4 (fun lo hi x y => y <= clampQ lo hi x /\
                              clampQ lo hi x < y + (hi - lo) / inject_Z (2 ^ bits - 1))%Q
            (sq_min _ s) (sq_max _ s) v w.
Proof. exact sq_error_Q. Qed.

Example scalar_error_bound_ex :
  exists s0 s bs, sq_new Qarith 2 8 = Ok s0 /\ sq_train Qarith s0 ex_vs = Ok s /\
    sq_encode Qarith s [1 # 2; 25]%Q = Ok bs.
Proof. do 3 eexists. repeat split; vm_compute; reflexivity. Qed.

(** C06 refuted part (finding): training with a first vector shorter than the
    quantiser's dimension panics instead of reporting the mismatch. *)
Theorem scalar_train_short_vector_refuted :
  exists s, sq_new Qarith 2 8 = Ok s /\ sq_train Qarith s [[0%Q]] = Panic.
Proof. eexists; split; reflexivity. Qed.

(** C07: bit d of the code says whether component d exceeds its threshold; bits
    past the dimension are zero. *)
Theorem binary_code_bits :
  forall s v, bq_trained s = true -> length (bq_thr s) = bq_dim s -> length v = bq_dim s ->
  exists bs, bq_encode s v = Ok bs /\ length bs = Nat.div (bq_dim s + 7) 8 /\
    forall d, getb bs d = match nth_error v d, nth_error (bq_thr s) d with
                          | Some x, Some t => SFltb t x | _, _ => false end.
Proof. exact bq_encode_spec. Qed.

Example binary_code_bits_ex :
  exists s, bq_train {| bq_dim := 2; bq_thr := []; bq_trained := false |}
                     [[f32_of_Z 0; f32_of_Z 4]; [f32_of_Z 2; f32_of_Z 8]] = Ok s /\
    bq_trained s = true /\ length (bq_thr s) = bq_dim s /\
    bq_encode s [f32_of_Z 0; f32_of_Z 7] = Ok [2%N].
Proof. eexists. repeat split; vm_compute; reflexivity. Qed.

(** C07: decoding a code puts every component half a unit above its threshold when its
    bit is set and half a unit below otherwise; codes of another length are refused. *)
Theorem binary_decode_sides :
  forall s bs, bq_trained s = true -> length (bq_thr s) = bq_dim s ->
  (length bs <> Nat.div (bq_dim s + 7) 8 -> bq_decode s bs = Err EOther) /\
  (length bs = Nat.div (bq_dim s + 7) 8 ->
   exists v, bq_decode s bs = Ok v /\ length v = bq_dim s /\
     forall d t, nth_error (bq_thr s) d = Some t ->
       nth_error v d = Some (if getb bs d then f32_add t f32_half else f32_sub t f32_half)).
Proof. exact bq_decode_spec. Qed.
Example binary_decode_sides_ex :
  bq_decode {| bq_dim := 2; bq_thr := [f32_of_Z 1; f32_of_Z 6]; bq_trained := true |} [2%N] =
  Ok [f32_half; f32_add (f32_of_Z 6) f32_half].
Proof. vm_compute. reflexivity. Qed.
Print Assumptions binary_decode_sides.

(** C07: the Hamming distance counts the differing bits. *)
Theorem hamming_counts_differences :
  forall a b, is_bytes a -> is_bytes b -> length a = length b ->
  hamming a b = Some (Z.of_nat (length (diff_bits a b))).
Proof. exact hamming_spec. Qed.

Theorem hamming_metric :
  (forall a b, hamming a b = hamming b a) /\
  (forall a b, is_bytes a -> is_bytes b -> (hamming a b = Some 0%Z <-> a = b)) /\
  (forall a b c, is_bytes a -> is_bytes b -> is_bytes c -> length a = length b -> length b = length c ->
   exists x y z, hamming a c = Some x /\ hamming a b = Some y /\ hamming b c = Some z /\ (x <= y + z)%Z) /\
  (forall a b, length a <> length b -> hamming a b = Some (-1)%Z).
Proof. exact (conj hamming_sym (conj hamming_zero (conj hamming_triangle hamming_mismatch))). Qed.

Example hamming_ex : hamming [255; 1]%N [15; 3]%N = Some 5%Z /\ hamming [1]%N [] = Some (-1)%Z.
Proof. split; reflexivity. Qed.

(** C07: searching codes of the query's length returns the true nearest ones. *)
Theorem binary_search_exact_partial :
  forall query db k, is_bytes query ->
  Forall (fun v => is_bytes v /\ length v = length query) db -> (0 <= k)%Z ->
  exists rs, search_binary query db k = Ok rs /\
    length rs = Nat.min (Z.to_nat k) (length db) /\
    NoDup (map fst rs) /\
    StronglySorted Z.le (map snd rs) /\
    (forall i d, In (i, d) rs -> exists v, nth_error db i = Some v /\ d = Z.of_nat (length (diff_bits query v))) /\
    (forall i v, nth_error db i = Some v -> ~ In i (map fst rs) ->
       forall j d, In (j, d) rs -> (d <= Z.of_nat (length (diff_bits query v)))%Z).
Proof. exact search_binary_spec. Qed.

Example binary_search_ex :
  search_binary [3]%N [[0]; [3]; [2]]%N 2 = Ok [(1%nat, 0%Z); (2%nat, 1%Z)].
Proof. vm_compute. reflexivity. Qed.

(** C07 refuted part (finding): a stored code of a different length, which is
    not comparable, is ranked before the identical code. *)
Theorem binary_search_mixed_lengths_refuted :
  exists query db, In query db /\ nth_error db 0 <> Some query /\
    search_binary query db 1 = Ok [(0%nat, (-1)%Z)].
Proof. exists [3]%N, [[1; 2]; [3]]%N. repeat split; [right; left; reflexivity|discriminate]. Qed.

Print Assumptions scalar_levels_survive_packing.
Print Assumptions scalar_encode_decode.
Print Assumptions scalar_decode_truncated.
Print Assumptions scalar_training_range.
Print Assumptions scalar_error_bound.
Print Assumptions scalar_train_short_vector_refuted.
Print Assumptions binary_code_bits.
Print Assumptions hamming_counts_differences.
Print Assumptions hamming_metric.
Print Assumptions binary_search_exact_partial.
Print Assumptions binary_search_mixed_lengths_refuted.
