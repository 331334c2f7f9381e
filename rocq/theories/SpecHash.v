(** Specifications for hashes and hash trees, written without the model's functions. *)
From Coq Require Import List Arith.
From Coq Require Import Init.Byte.
Import ListNotations.

(** What the library calls the hash of a byte string: 64-byte strings are taken as
    hashes already, everything else goes through SHA-512. *)
Definition block_hash (H : list byte -> list byte) (b h : list byte) : Prop :=
  (length b = 64 /\ h = b) \/ (length b <> 64 /\ h = H b).

(** [merkle H hs r]: [r] is the Merkle root over the hashes [hs], with halves of equal size. *)
Inductive merkle (H : list byte -> list byte) : list (list byte) -> list byte -> Prop :=
| merkle_one h : merkle H [h] h
| merkle_cat l r a b :
    length l = length r -> merkle H l a -> merkle H r b -> merkle H (l ++ r) (H (a ++ b)).

(** [merkle_input H hs x]: the string [x] is hashed on the way to the Merkle root over [hs]. *)
Inductive merkle_input (H : list byte -> list byte) : list (list byte) -> list byte -> Prop :=
| input_here l r a b :
    length l = length r -> merkle H l a -> merkle H r b -> merkle_input H (l ++ r) (a ++ b)
| input_left l r x : length l = length r -> merkle_input H l x -> merkle_input H (l ++ r) x
| input_right l r x : length l = length r -> merkle_input H r x -> merkle_input H (l ++ r) x.

(** SHA-512 gives the same hash to two different strings of the named kinds. (That there are
    such strings somewhere is always true, since there are more strings than hashes; so
    statements about collisions have to name the strings.) *)
Definition collide (H : list byte -> list byte) (P Q : list byte -> Prop) : Prop :=
  exists x y, P x /\ Q y /\ x <> y /\ H x = H y.

(** [k] is the least exponent, at least 1, with [n <= 2^k]. *)
Definition pad_exponent (n k : nat) : Prop :=
  1 <= k /\ n <= 2 ^ k /\ forall j, 1 <= j -> n <= 2 ^ j -> k <= j.
