(** Proofs about the texts that stand for a hash (C182). *)
From Coq Require Import List ZArith NArith Lia Bool.
From Coq Require Import Init.Byte Strings.Byte.
From Verif Require Import Base BaseLemmas HashModel HashProofs SpecHash SpecHexText.
Import ListNotations.

Lemma hex_val_digit c v : hex_val c = Some v <-> digit_of c v.
Proof.
  unfold hex_val, digit_of. set (z := Z_of_byte c).
  destruct (Z.leb_spec 48 z), (Z.leb_spec z 57), (Z.leb_spec 97 z), (Z.leb_spec z 102), (Z.leb_spec 65 z), (Z.leb_spec z 70); cbn [andb];
    split; try (intros [= <-]); try discriminate; intros; try f_equal; lia.
Qed.

Lemma hex_val_none c : hex_val c = None -> forall v, ~ digit_of c v.
Proof. intros E v D. apply hex_val_digit in D. congruence. Qed.

Lemma hex_decode_spells n : forall s, length s < n ->
  (forall b, hex_decode s = Ok b <-> text_of s b) /\ ((exists b, hex_decode s = Ok b) \/ hex_decode s = Err).
Proof.
  induction n as [|n IH]; intros s L; [lia|]. destruct s as [|a [|b s]]; cbn [hex_decode].
  - split; [|eauto]. intros r. split; [intros [= <-]; constructor|]. intros T. inversion T. reflexivity.
  - split; [|auto]. intros r. split; [discriminate|]. intros T. inversion T.
  - cbn [length] in L. destruct (IH s) as (A & B); [lia|].
    destruct (hex_val a) as [x|] eqn:Ea; [destruct (hex_val b) as [y|] eqn:Eb|].
    + apply hex_val_digit in Ea, Eb. destruct (hex_decode s) as [r| | |] eqn:Es; cbn [bind].
      * split; [|eauto]. intros q. split.
        -- intros [= <-]. assert (D : (0 <= x < 16 /\ 0 <= y < 16)%Z) by (unfold digit_of in *; lia).
           apply (text_pair a b s _ r x y); auto; [|now apply A]. rewrite Z_of_byte_of_Z. apply Z.mod_small. lia.
        -- intros T. inversion T as [|? ? ? c t x' y' Dx Dy Ec Tt]; subst. apply A in Tt. injection Tt as ->. f_equal. f_equal.
           apply hex_val_digit in Dx, Dy, Ea, Eb. assert (x' = x) by congruence. assert (y' = y) by congruence. subst.
           rewrite <- Ec. apply byte_of_Z_of_byte.
      * split; [|auto]. intros q. split; [discriminate|]. intros T. inversion T as [|? ? ? c t x' y' Dx Dy Ec Tt]; subst. apply A in Tt. discriminate.
      * destruct B as [(r & X)|X]; discriminate.
      * destruct B as [(r & X)|X]; discriminate.
    + split; [|auto]. intros q. split; [discriminate|]. intros T. inversion T as [|? ? ? c t x' y' Dx Dy Ec Tt]; subst. exfalso. eapply hex_val_none; eauto.
    + split; [|auto]. intros q. split; [discriminate|]. intros T. inversion T as [|? ? ? c t x' y' Dx Dy Ec Tt]; subst. exfalso. eapply hex_val_none; eauto.
Qed.
