(** C01, C02, C65: blobs of vectors.  [N] components below 2^32 are the bit
    patterns of float32 values; [None] is Go's nil slice. *)
From Coq Require Import List NArith Bool.
From Coq Require Import Init.Byte.
From Coq Require Import Strings.Byte.
From Coq Require Import Floats.SpecFloat.
From Verif Require Import Base Floats64 EncodingSpec EncodingModel EncodingProofs.
Import ListNotations.
Local Open Scope N_scope.

(** C01 *)
Theorem vector_blob_round_trip :
  forall xs tail, float32_bits xs -> N.of_nat (length xs) <= 2^31 - 1 ->
  exists bs, encode_vector (Some xs) = Ok bs /\
             length bs = (4 + 4 * length xs)%nat /\
             decode_vector (bs ++ tail) = Ok xs.
Proof. intros xs tail H1 H2. exact (encode_decode xs tail H2 H1). Qed.

Example vector_blob_round_trip_ex :
  float32_bits [0x3f800000; 0x7fc00001; 0x80000000] /\
  decode_vector [x03;x00;x00;x00; x00;x00;x80;x3f; x01;x00;xc0;x7f; x00;x00;x00;x80; xff]
    = Ok [0x3f800000; 0x7fc00001; 0x80000000].
Proof. split; [repeat constructor|vm_compute; reflexivity]. Qed.

(** C01: nil and oversized vectors are refused, never stored. *)
Theorem vector_blob_refusals :
  encode_vector None = Err EInvalidVector /\
  forall xs, 2^31 - 1 < N.of_nat (length xs) -> encode_vector (Some xs) = Err EOther.
Proof. exact encode_refusals. Qed.

(** C02: decoding any byte string either reports an invalid vector or consumes a
    prefix that is exactly the encoding of the result. *)
Theorem vector_blob_decode_total :
  forall bs,
  decode_vector bs = Err EInvalidVector \/
  exists xs rest enc, decode_vector bs = Ok xs /\ float32_bits xs /\
     encode_vector (Some xs) = Ok enc /\ bs = enc ++ rest.
Proof. exact decode_total. Qed.

(** C02: exactly the truncated or negative-length blobs are rejected. *)
Theorem vector_blob_decode_rejects :
  forall bs,
  decode_vector bs = Err EInvalidVector <->
  ((length bs < 4)%nat \/
   exists hdr rest, bs = hdr ++ rest /\ length hdr = 4%nat /\
     (2^31 <= le_value hdr \/ N.of_nat (length rest) < 4 * le_value hdr)).
Proof. exact decode_rejects. Qed.

Example vector_blob_decode_rejects_ex :
  decode_vector [x02;x00;x00;x00; x00;x00;x80;x3f] = Err EInvalidVector /\
  decode_vector [xff;xff;xff;xff] = Err EInvalidVector /\
  decode_vector [x00;x00;x00;x00;x07] = Ok [].
Proof. vm_compute; auto. Qed.

(** C02: two different vectors never share an encoding. *)
Theorem vector_blob_injective :
  forall xs ys bs, float32_bits xs -> float32_bits ys ->
  encode_vector (Some xs) = Ok bs -> encode_vector (Some ys) = Ok bs -> xs = ys.
Proof. exact encode_inj. Qed.

(** C65: a vector passes validation exactly when it is non-empty and every
    component is a finite number. *)
Theorem validate_vector_exact :
  forall v, validate_vector v = Ok tt <->
  exists xs, v = Some xs /\ xs <> [] /\
     Forall (fun b => f32_of_bits b <> S754_nan /\ forall s, f32_of_bits b <> S754_infinity s) xs.
Proof. exact validate_iff. Qed.

(** The bit patterns meant by NaN and infinity: exponent field all ones. *)
Theorem float32_nonfinite_patterns :
  forall b, b < 2^32 ->
  ((f32_of_bits b = S754_nan \/ exists s, f32_of_bits b = S754_infinity s) <->
   (b / 2^23) mod 2^8 = 255).
Proof. exact f32_nonfinite. Qed.

Example validate_vector_exact_ex :
  validate_vector (Some [0x3f800000]) = Ok tt /\
  validate_vector (Some [0x3f800000; 0x7f800000]) = Err EInvalidVector /\
  validate_vector (Some [0xffc00000]) = Err EInvalidVector.
Proof. vm_compute; auto. Qed.

Print Assumptions vector_blob_round_trip.
Print Assumptions vector_blob_refusals.
Print Assumptions vector_blob_decode_total.
Print Assumptions vector_blob_decode_rejects.
Print Assumptions vector_blob_injective.
Print Assumptions validate_vector_exact.
Print Assumptions float32_nonfinite_patterns.
