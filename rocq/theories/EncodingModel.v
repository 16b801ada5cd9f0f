(** Model of /repo/internal/encoding/utils.go: the blob format of vectors.
    A []float32 is [option (list N)]: [None] is Go's nil slice, each component
    is its 32-bit pattern.  A []byte is [list byte]. *)
From Coq Require Import List NArith ZArith Bool Lia.
From Coq Require Import Init.Byte.
From Coq Require Import Strings.Byte.
From Coq Require Import Floats.SpecFloat.
From Verif Require Import Base Floats64.
Import ListNotations.
Local Open Scope N_scope.

(** Conversion byte(n): truncation modulo 256. *)
Definition byte_of (n : N) : byte :=
  match Byte.of_N (n mod 256) with Some b => b | None => x00 end.

(** binary.Write(buf, binary.LittleEndian, x) for a 32-bit x
    (/repo/internal/encoding/utils.go:29,35). *)
Definition le32 (n : N) : list byte :=
  [byte_of n; byte_of (n / 2^8); byte_of (n / 2^16); byte_of (n / 2^24)].

(** binary.Read(buf, binary.LittleEndian, &x) for a 32-bit x
    (/repo/internal/encoding/utils.go:54,75): value and remaining reader;
    [None] is io.EOF / io.ErrUnexpectedEOF. *)
Definition rd32 (bs : list byte) : option (N * list byte) :=
  match bs with
  | b0 :: b1 :: b2 :: b3 :: rest =>
      Some (Byte.to_N b0 + 2^8 * Byte.to_N b1 + 2^16 * Byte.to_N b2 + 2^24 * Byte.to_N b3, rest)
  | _ => None
  end.

Definition max_int32 : N := 2147483647.

(** EncodeVector, /repo/internal/encoding/utils.go:17-41.  Writes to a
    bytes.Buffer never fail, so the error branches of binary.Write are dropped. *)
Definition encode_vector (v : option (list N)) : outcome (list byte) :=
  match v with
  | None => Err EInvalidVector
  | Some xs =>
      let n := N.of_nat (length xs) in
      if max_int32 <? n then Err EOther
      else Ok (le32 n ++ flat_map le32 xs)
  end.

(** The loop of DecodeVector, /repo/internal/encoding/utils.go:73-78. *)
Fixpoint read_values (n : nat) (bs : list byte) : outcome (list N) :=
  match n with
  | O => Ok []
  | S n' =>
      match rd32 bs with
      | None => Err EOther
      | Some (x, rest) => bind (read_values n' rest) (fun xs => Ok (x :: xs))
      end
  end.

(** DecodeVector, /repo/internal/encoding/utils.go:45-81.  [length] is an
    int32: values from 2^31 are negative. [int] is 64 bits wide, so
    [int(length)*4] does not overflow. *)
Definition decode_vector (data : list byte) : outcome (list N) :=
  if N.of_nat (length data) <? 4 then Err EInvalidVector
  else
    match rd32 data with
    | None => Err EOther
    | Some (len, rest) =>
        if 2^31 <=? len then Err EInvalidVector
        else if len =? 0 then Ok []
        else if N.of_nat (length rest) <? len * 4 then Err EInvalidVector
        else read_values (N.to_nat len) rest
    end.

(** ValidateVector, /repo/internal/encoding/utils.go:121-141. *)
Definition validate_vector (v : option (list N)) : outcome unit :=
  match v with
  | None => Err EInvalidVector
  | Some [] => Err EInvalidVector
  | Some xs =>
      if forallb (fun b => match f32_of_bits b with
                           | S754_nan => false
                           | S754_infinity _ => false
                           | _ => true end) xs
      then Ok tt else Err EInvalidVector
  end.
