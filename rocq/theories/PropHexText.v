(** Property theorems for the texts that stand for a hash (C182). *)
From Coq Require Import List ZArith NArith Lia Bool.
From Coq Require Import Init.Byte Strings.Byte.
From Verif Require Import Base BaseLemmas HashModel HashProofs SpecHash SpecHexText HashTextProofs PropHash.
Import ListNotations.

(** *** C182 *)
(** FromString accepts exactly the texts of two hexadecimal digits for each byte, in either case: 64 bytes are the hash, others are hashed.
    Everything else is an error. *)
Theorem C182_accepted_texts : forall H s,
  (forall h, from_string H s = Ok h <-> exists b, text_of s b /\ block_hash H b h) /\
  (from_string H s = Err <-> forall b, ~ text_of s b) /\
  from_string H s <> Panic /\ from_string H s <> Fuel.
Proof.
  intros H s. destruct (hex_decode_spells (S (length s)) s ltac:(lia)) as (A & B). unfold from_string.
  assert (Fb : forall b h, block_hash H b h <-> from_bytes H b = h).
  { intros b h. unfold from_bytes, block_hash. change hash_size with 64. destruct (Nat.eqb_spec (length b) 64); split; intros; intuition congruence. }
  destruct B as [(b & E)|E]; rewrite E in *; cbn [bind].
  - refine (conj _ (conj _ (conj _ _))); try discriminate.
    + intros h. split.
      * intros [= <-]. exists b. split; [now apply A|now apply Fb].
      * intros (b' & T & Hb). apply A in T. injection T as <-. apply Fb in Hb. now rewrite Hb.
    + split; [discriminate|]. intros N. exfalso. apply (N b). now apply A.
  - refine (conj _ (conj _ (conj _ _))); try discriminate.
    + intros h. split; [discriminate|]. intros (b' & T & _). apply A in T. discriminate.
    + split; [|reflexivity]. intros _ b T. apply A in T. discriminate.
Qed.
Print Assumptions C182_accepted_texts.

(** A hash may have several texts: the digits from a to f may be in either case. *)
Theorem C182_one_text_for_each_hash_refuted : forall H,
  exists h s, from_string H s = Ok h /\ hash_string h <> s /\ from_string H (hash_string h) = Ok h.
Proof. intros H. exists (repeat xaa 64), (repeat x41 128). repeat split; try (vm_compute; reflexivity). vm_compute. discriminate. Qed.
Print Assumptions C182_one_text_for_each_hash_refuted.

(** "0a" in both cases stands for the byte 10, which is hashed; a text of odd length or with another character is an error. *)
Example C182_example :
  text_of [x30; x61] [x0a] /\ from_string toy_sha [x30; x61] = Ok (toy_sha [x0a]) /\ from_string toy_sha [x30; x41] = Ok (toy_sha [x0a]) /\
  from_string toy_sha [x30; x61; x30] = Err /\ from_string toy_sha [x30; x67] = Err /\
  from_string toy_sha (repeat x41 128) = Ok (repeat xaa 64) /\ hash_string (repeat xaa 64) = repeat x61 128.
Proof.
  split; [|repeat split; vm_compute; reflexivity].
  apply (text_pair x30 x61 [] x0a [] 0 10); try (vm_compute; tauto); try constructor; unfold digit_of; vm_compute; intuition discriminate.
Qed.
