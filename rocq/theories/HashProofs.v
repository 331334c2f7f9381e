(** Lemmas on the hash adapter model. *)
From Coq Require Import List ZArith NArith Lia Bool.
From Coq Require Import Init.Byte Strings.Byte.
From Verif Require Import Base BaseLemmas HashModel.
Import ListNotations.

Section WithSha.
  Variable H : bytes -> bytes.
  Hypothesis HL : forall x, length (H x) = 64.

  Lemma from_bytes_length x : length (from_bytes H x) = 64.
  Proof.
    unfold from_bytes, hash_size. destruct (Nat.eqb_spec (length x) 64); auto.
  Qed.

  Lemma from_bytes_64 x : length x = 64 -> from_bytes H x = x.
  Proof. unfold from_bytes, hash_size. now intros ->. Qed.

  Lemma from_bytes_other x : length x <> 64 -> from_bytes H x = H x.
  Proof.
    unfold from_bytes, hash_size. destruct (Nat.eqb_spec (length x) 64); tauto.
  Qed.

  Lemma from_bytes_idem x : from_bytes H (from_bytes H x) = from_bytes H x.
  Proof. apply from_bytes_64, from_bytes_length. Qed.

  Lemma from_multi_pair a b :
    length a = 64 -> length b = 64 -> from_multi H [a; b] = H (a ++ b).
  Proof.
    intros Ea Eb. unfold from_multi. cbn [concat]. rewrite app_nil_r.
    apply from_bytes_other. rewrite app_length. lia.
  Qed.

  Lemma hex_val_digit z : (0 <= z < 16)%Z -> hex_val (hex_digit z) = Some z.
  Proof.
    intros Hz. unfold hex_digit, hex_val.
    destruct (Z.ltb_spec z 10).
    - rewrite Z_of_byte_of_Z, Z.mod_small by lia.
      replace ((48 <=? 48 + z)%Z) with true by (symmetry; apply Z.leb_le; lia).
      replace ((48 + z <=? 57)%Z) with true by (symmetry; apply Z.leb_le; lia).
      cbn [andb]. f_equal; lia.
    - rewrite Z_of_byte_of_Z, Z.mod_small by lia.
      replace ((87 + z <=? 57)%Z) with false by (symmetry; apply Z.leb_gt; lia).
      rewrite andb_false_r.
      replace ((97 <=? 87 + z)%Z) with true by (symmetry; apply Z.leb_le; lia).
      replace ((87 + z <=? 102)%Z) with true by (symmetry; apply Z.leb_le; lia).
      cbn [andb]. f_equal; lia.
  Qed.

  Lemma hex_decode_string h : hex_decode (hash_string h) = Ok h.
  Proof.
    induction h as [|b h IH]; cbn [hash_string hex_decode]; auto.
    pose proof (Z_of_byte_range b) as Hb.
    pose proof (Z.div_mod (Z_of_byte b) 16 ltac:(lia)) as E.
    pose proof (Z.mod_pos_bound (Z_of_byte b) 16 ltac:(lia)) as Hm.
    rewrite !hex_val_digit by lia.
    rewrite IH. cbn [bind]. rewrite <- E. now rewrite byte_of_Z_of_byte.
  Qed.

  Lemma from_string_string h : length h = 64 -> from_string H (hash_string h) = Ok h.
  Proof.
    intros Eh. unfold from_string. rewrite hex_decode_string. cbn [bind].
    now rewrite from_bytes_64.
  Qed.

  Lemma hash_string_inj a b : hash_string a = hash_string b -> a = b.
  Proof.
    intros E. pose proof (hex_decode_string a) as Ea. rewrite E in Ea.
    rewrite hex_decode_string in Ea. congruence.
  Qed.

  Lemma hash_string_length h : length (hash_string h) = 2 * length h.
  Proof. induction h; cbn [hash_string length]; lia. Qed.

  Lemma hex_digit_lower z : (0 <= z < 16)%Z ->
    (48 <= Z_of_byte (hex_digit z) <= 57 \/ 97 <= Z_of_byte (hex_digit z) <= 102)%Z.
  Proof.
    intros Hz. unfold hex_digit. destruct (Z.ltb_spec z 10);
      rewrite Z_of_byte_of_Z, Z.mod_small by lia; lia.
  Qed.

  Lemma hash_string_lower h c : In c (hash_string h) ->
    (48 <= Z_of_byte c <= 57 \/ 97 <= Z_of_byte c <= 102)%Z.
  Proof.
    induction h as [|b h IH]; cbn [hash_string In]; [tauto|].
    pose proof (Z_of_byte_range b) as Hb.
    pose proof (Z.div_mod (Z_of_byte b) 16 ltac:(lia)) as E.
    pose proof (Z.mod_pos_bound (Z_of_byte b) 16 ltac:(lia)) as Hm.
    intros [<-|[<-|Hc]]; auto; apply hex_digit_lower; lia.
  Qed.
End WithSha.
