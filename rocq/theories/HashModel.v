(** Model of libs/cryptography/domain/hash. *)
From Coq Require Import List ZArith NArith Lia Bool.
From Coq Require Import Init.Byte Strings.Byte.
From Verif Require Import Base.
Import ListNotations.

(** hash.Size, libs/cryptography/domain/hash/sdk.go: [const Size = sha512.Size]. *)
Definition hash_size : nat := 64.

Section WithSha.
  (** crypto/sha512 [Sum] of everything written: an unknown function. *)
  Variable H : bytes -> bytes.

  (** libs/cryptography/domain/hash/adapter.go:17-34 (FromBytes).
      [h.Write] of a Go hash never returns an error, so there is no error case.
      The copy loop is the identity on the value. *)
  Definition from_bytes (input : bytes) : bytes :=
    if Nat.eqb (length input) hash_size then input else H input.

  (** libs/cryptography/domain/hash/adapter.go:37-44 (FromMultiBytes). *)
  Definition from_multi (input : list bytes) : bytes :=
    from_bytes (concat input).

  (** encoding/hex: value of one hexadecimal digit (both cases are accepted). *)
  Definition hex_val (c : byte) : option Z :=
    let z := Z_of_byte c in
    if ((48 <=? z) && (z <=? 57))%Z then Some (z - 48)%Z
    else if ((97 <=? z) && (z <=? 102))%Z then Some (z - 87)%Z
    else if ((65 <=? z) && (z <=? 70))%Z then Some (z - 55)%Z
    else None.

  (** encoding/hex DecodeString: an error on odd length or on a bad digit. *)
  Fixpoint hex_decode (s : bytes) : outcome bytes :=
    match s with
    | [] => Ok []
    | [_] => Err
    | a :: b :: s' =>
      match hex_val a, hex_val b with
      | Some x, Some y => do r <- hex_decode s'; Ok (byte_of_Z (16 * x + y) :: r)
      | _, _ => Err
      end
    end.

  (** One lower-case hexadecimal digit, as printed by [fmt.Sprintf("%x")]. *)
  Definition hex_digit (z : Z) : byte :=
    if (z <? 10)%Z then byte_of_Z (48 + z) else byte_of_Z (87 + z).

  (** libs/cryptography/domain/hash/hash.go:34-37 (String), [%x] of the bytes. *)
  Fixpoint hash_string (h : bytes) : bytes :=
    match h with
    | [] => []
    | b :: h' => hex_digit (Z_of_byte b / 16) :: hex_digit (Z_of_byte b mod 16) :: hash_string h'
    end.

  (** libs/cryptography/domain/hash/adapter.go:47-59 (FromString). *)
  Definition from_string (s : bytes) : outcome bytes :=
    do b <- hex_decode s; Ok (from_bytes b).

  (** libs/cryptography/domain/hash/hash.go:9-21 (Compare). *)
  Definition hash_compare (a b : bytes) : bool := bytes_eqb a b.
End WithSha.
