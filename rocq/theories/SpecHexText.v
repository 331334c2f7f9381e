(** Specification of the texts that stand for bytes. *)
From Coq Require Import List ZArith.
From Coq Require Import Init.Byte Strings.Byte.
From Verif Require Import Base.
Import ListNotations.

(** A hexadecimal digit, as ASCII of either case, and its value. *)
Definition digit_of (c : byte) (v : Z) : Prop :=
  let z := Z_of_byte c in
  ((48 <= z <= 57 /\ v = z - 48) \/ (97 <= z <= 102 /\ v = z - 97 + 10) \/ (65 <= z <= 70 /\ v = z - 65 + 10))%Z.

(** Two digits for each byte, the high one first. *)
Inductive text_of : bytes -> bytes -> Prop :=
| text_end : text_of [] []
| text_pair a b s c r x y : digit_of a x -> digit_of b y -> (Z_of_byte c = 16 * x + y)%Z -> text_of s r -> text_of (a :: b :: s) (c :: r).
