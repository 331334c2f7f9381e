(** Texts: the code points of a string, as UTF-8 (RFC 3629) and the Go language have it, and numbers in decimal. *)
From Coq Require Import List ZArith.
From Coq Require Import Init.Byte Strings.Byte.
From Verif Require Import Base SpecPeg SpecGrammar.
Import ListNotations.
Local Open Scope Z_scope.

(** The byte with this number, modulo 256. *)
Definition byte_at (z : Z) (b : byte) : Prop := code b = z mod 256.

(** A code point that is no surrogate. *)
Definition scalar (z : Z) : Prop := 0 <= z < 55296 \/ 57344 <= z <= 1114111.

(** Its encoding: the numbers of the bytes. *)
Definition encoding (z : Z) : list Z :=
  if z <? 128 then [z]
  else if z <? 2048 then [192 + z / 64; 128 + z mod 64]
  else if z <? 65536 then [224 + z / 4096; 128 + z / 64 mod 64; 128 + z mod 64]
  else [240 + z / 262144; 128 + z / 4096 mod 64; 128 + z / 64 mod 64; 128 + z mod 64].
Definition encodes (z : Z) (w : bytes) : Prop := scalar z /\ map code w = encoding z.

(** What "for range" over a string goes through: a byte that does not start an encoding counts as the code point 65533. *)
Inductive code_points : bytes -> list Z -> Prop :=
| points_end : code_points [] []
| points_next z w s zs : encodes z w -> code_points s zs -> code_points (w ++ s) (z :: zs)
| points_wrong b s zs : (forall z w r, encodes z w -> b :: s <> w ++ r) -> code_points s zs -> code_points (b :: s) (65533 :: zs).

(** The decimal text of a number: no zero in front. *)
Fixpoint value_of (acc : Z) (ds : bytes) : Z := match ds with [] => acc | d :: ds => value_of (10 * acc + (code d - 48)) ds end.
Definition decimal_text (z : Z) (ds : bytes) : Prop :=
  ds <> [] /\ Forall decimal ds /\ value_of 0 ds = z /\ (z = 0 -> length ds = 1%nat) /\ (forall ds', ds = x30 :: ds' -> z = 0).

(** The element of a tree that holds one byte: its name is the number of the byte. *)
Definition named (e : bytes * list ast) (b : byte) : Prop := decimal_text (code b) (fst e) /\ snd e = [Leaf b].
