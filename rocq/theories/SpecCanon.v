(** Specification of the bytes that stand for a commit. *)
From Coq Require Import List ZArith.
From Coq Require Import Init.Byte Strings.Byte.
From Verif Require Import Base SpecHash.
Import ListNotations.

(** [commit_end H b parent proof]: the bytes [b] behind the values of a commit stand for this parent and this proof.
    A zero byte is followed by the length of a proof and its big endian bytes; what is left is one byte
    of any value and the parent, which is hashed unless it has 64 bytes. *)
Inductive commit_end (H : bytes -> bytes) : bytes -> option bytes -> option Z -> Prop :=
| ce_nothing : commit_end H [] None None
| ce_parent x t p : x <> x00 -> block_hash H t p -> commit_end H (x :: t) (Some p) None
| ce_proof b : commit_end H (x00 :: put_u64 (zlen b) ++ b) None (Some (unle (rev b)))
| ce_both b x t p : block_hash H t p -> commit_end H (x00 :: put_u64 (zlen b) ++ b ++ x :: t) (Some p) (Some (unle (rev b))).

(** Byte strings with their lengths in front, one after the other. *)
Definition counted (parts : list bytes) : bytes := concat (map (fun p => put_u64 (zlen p) ++ p) parts).
