(** Lemmas on the base vocabulary. *)
From Coq Require Import List ZArith NArith Lia Bool.
From Coq Require Import Init.Byte Strings.Byte.
From Verif Require Import Base.
Import ListNotations.

Lemma Z_of_byte_range b : (0 <= Z_of_byte b < 256)%Z.
Proof.
  unfold Z_of_byte. pose proof (Byte.to_N_bounded b). lia.
Qed.

Lemma Z_of_byte_of_Z z : Z_of_byte (byte_of_Z z) = (z mod 256)%Z.
Proof.
  unfold byte_of_Z, Z_of_byte.
  pose proof (Z.mod_pos_bound z 256 ltac:(lia)) as Hb.
  destruct (Byte.of_N (Z.to_N (z mod 256))) as [b|] eqn:E.
  - apply Byte.to_of_N in E. rewrite E. lia.
  - apply Byte.of_N_None_iff in E. lia.
Qed.

Lemma byte_of_Z_of_byte b : byte_of_Z (Z_of_byte b) = b.
Proof.
  unfold byte_of_Z. pose proof (Z_of_byte_range b).
  rewrite Z.mod_small by lia. unfold Z_of_byte. rewrite N2Z.id.
  rewrite Byte.of_to_N. reflexivity.
Qed.

Lemma Z_of_byte_inj a b : Z_of_byte a = Z_of_byte b -> a = b.
Proof.
  intros E. rewrite <- (byte_of_Z_of_byte a), E. apply byte_of_Z_of_byte.
Qed.

Lemma byte_eqb_true a b : Byte.eqb a b = true <-> a = b.
Proof.
  split.
  - apply Byte.byte_dec_bl.
  - apply Byte.byte_dec_lb.
Qed.

Lemma byte_eqb_refl a : Byte.eqb a a = true.
Proof. now apply byte_eqb_true. Qed.

Lemma bytes_eqb_true a b : bytes_eqb a b = true <-> a = b.
Proof.
  revert b; induction a as [|x a IH]; intros [|y b]; cbn; try easy.
  rewrite andb_true_iff, byte_eqb_true, IH. split.
  - intros [-> ->]; reflexivity.
  - intros E; inversion E; auto.
Qed.

Lemma bytes_eqb_refl a : bytes_eqb a a = true.
Proof. now apply bytes_eqb_true. Qed.

Lemma bytes_eqb_false a b : bytes_eqb a b = false <-> a <> b.
Proof.
  rewrite <- bytes_eqb_true. destruct (bytes_eqb a b); split; congruence.
Qed.

Lemma bytes_eq_dec (a b : bytes) : {a = b} + {a <> b}.
Proof.
  destruct (bytes_eqb a b) eqn:E.
  - left; now apply bytes_eqb_true.
  - right; now apply bytes_eqb_false.
Qed.

Lemma le_length n z : length (le n z) = n.
Proof. revert z; induction n; intros; cbn; auto. Qed.

Lemma put_u64_length z : length (put_u64 z) = 8%nat.
Proof. apply le_length. Qed.

Lemma unle_le n z : unle (le n z) = (z mod 256 ^ Z.of_nat n)%Z.
Proof.
  revert z; induction n as [|n IH]; intros z; cbn [le unle].
  - cbn. now rewrite Z.mod_1_r.
  - rewrite IH, Z_of_byte_of_Z.
    replace (Z.of_nat (S n)) with (1 + Z.of_nat n)%Z by lia.
    rewrite Z.pow_add_r by lia. change (256 ^ 1)%Z with 256%Z.
    rewrite Z.rem_mul_r by (try apply Z.pow_nonzero; lia). lia.
Qed.

Lemma unle_put_u64 z : unle (put_u64 z) = (z mod two64)%Z.
Proof. unfold put_u64. rewrite unle_le. reflexivity. Qed.

Lemma unle_range l : (0 <= unle l < 256 ^ Z.of_nat (length l))%Z.
Proof.
  induction l as [|b l IH]; cbn [unle length].
  - cbn; lia.
  - pose proof (Z_of_byte_range b).
    replace (Z.of_nat (S (length l))) with (1 + Z.of_nat (length l))%Z by lia.
    rewrite Z.pow_add_r by lia. change (256 ^ 1)%Z with 256%Z. lia.
Qed.

Lemma le_unle l : le (length l) (unle l) = l.
Proof.
  induction l as [|b l IH]; cbn [le unle length]; auto.
  pose proof (Z_of_byte_range b) as Hr.
  f_equal.
  - rewrite <- (byte_of_Z_of_byte b) at 2. apply Z_of_byte_inj.
    rewrite !Z_of_byte_of_Z. rewrite Z.mul_comm, Z_mod_plus_full. reflexivity.
  - rewrite Z.mul_comm, Z_div_plus_full by lia.
    rewrite (Z.div_small (Z_of_byte b)) by lia. exact IH.
Qed.

Lemma two64_val : two64 = 18446744073709551616%Z. Proof. reflexivity. Qed.
Lemma two63_val : two63 = 9223372036854775808%Z. Proof. reflexivity. Qed.

Lemma i64_small z : (0 <= z < two63)%Z -> i64 z = z.
Proof.
  intros H. unfold i64. rewrite two63_val, two64_val in *.
  rewrite Z.mod_small by lia. destruct (Z.ltb_spec z 9223372036854775808); lia.
Qed.

Lemma i64_signed z : (- two63 <= z < two63)%Z -> i64 z = z.
Proof.
  intros H. unfold i64. rewrite two63_val, two64_val in *.
  destruct (Z.lt_ge_cases z 0) as [Hn|Hp].
  - assert (E : (z mod 18446744073709551616 = z + 18446744073709551616)%Z).
    { symmetry. apply (Z.mod_unique z 18446744073709551616 (-1)); lia. }
    rewrite E.
    destruct (Z.ltb_spec (z + 18446744073709551616) 9223372036854775808); lia.
  - rewrite Z.mod_small by lia. destruct (Z.ltb_spec z 9223372036854775808); lia.
Qed.

Lemma i64_mod z : i64 (z mod two64) = i64 z.
Proof.
  unfold i64. rewrite Z.mod_mod by (rewrite two64_val; lia). reflexivity.
Qed.

Lemma i64_range z : (- two63 <= i64 z < two63)%Z.
Proof.
  unfold i64. pose proof (Z.mod_pos_bound z two64 ltac:(rewrite two64_val; lia)) as H.
  rewrite two63_val, two64_val in *.
  destruct (Z.ltb_spec (z mod 18446744073709551616) 9223372036854775808); lia.
Qed.

Lemma u64_small z : (0 <= z < two64)%Z -> u64 z = z.
Proof. intros; unfold u64; now apply Z.mod_small. Qed.

Lemma zlen_nonneg {A} (l : list A) : (0 <= zlen l)%Z.
Proof. unfold zlen; lia. Qed.

Lemma zlen_app {A} (a b : list A) : zlen (a ++ b) = (zlen a + zlen b)%Z.
Proof. unfold zlen; rewrite app_length; lia. Qed.

Lemma zlen_put_u64 z : zlen (put_u64 z) = 8%Z.
Proof. unfold zlen; rewrite put_u64_length; reflexivity. Qed.

Lemma zlen_cons {A} (x : A) l : zlen (x :: l) = (1 + zlen l)%Z.
Proof. unfold zlen; cbn [length]; lia. Qed.

Lemma zlen_nil {A} : zlen (@nil A) = 0%Z.
Proof. reflexivity. Qed.

Lemma firstn_app_exact {A} (a b : list A) n : length a = n -> firstn n (a ++ b) = a.
Proof. intros <-. rewrite firstn_app, Nat.sub_diag, firstn_all. cbn; apply app_nil_r. Qed.

Lemma skipn_app_exact {A} (a b : list A) n : length a = n -> skipn n (a ++ b) = b.
Proof. intros <-. rewrite skipn_app, Nat.sub_diag, skipn_all. reflexivity. Qed.

(** Slicing out the middle of a known concatenation. *)
Lemma s_slice_mid p m q e lo hi :
  lo = zlen p -> hi = (zlen p + zlen m)%Z ->
  s_slice (GSlice (p ++ m ++ q) e) lo hi = Ok (GSlice m (q ++ e)).
Proof.
  intros -> ->. unfold s_slice, s_cap; cbn [vis ext].
  rewrite !zlen_app. pose proof (zlen_nonneg p). pose proof (zlen_nonneg m).
  pose proof (zlen_nonneg q). pose proof (zlen_nonneg e).
  replace ((0 <=? zlen p)%Z) with true by (symmetry; apply Z.leb_le; lia).
  replace ((zlen p <=? zlen p + zlen m)%Z) with true by (symmetry; apply Z.leb_le; lia).
  replace ((zlen p + zlen m <=? zlen p + (zlen m + zlen q) + zlen e)%Z) with true
    by (symmetry; apply Z.leb_le; lia).
  cbn [andb]. f_equal. rewrite <- !app_assoc. f_equal.
  - rewrite skipn_app_exact by (unfold zlen; lia).
    apply firstn_app_exact. unfold zlen; lia.
  - rewrite app_assoc. apply skipn_app_exact. rewrite app_length. unfold zlen; lia.
Qed.

Lemma s_slice_pre m q e hi :
  hi = zlen m -> s_slice (GSlice (m ++ q) e) 0 hi = Ok (GSlice m (q ++ e)).
Proof. intros ->. apply (s_slice_mid [] m q e); reflexivity. Qed.

Lemma s_from_app p q e lo :
  lo = zlen p -> s_from (GSlice (p ++ q) e) lo = Ok (GSlice q e).
Proof.
  intros ->. unfold s_from, s_len; cbn [vis ext]. rewrite zlen_app.
  pose proof (zlen_nonneg p). pose proof (zlen_nonneg q).
  replace ((0 <=? zlen p)%Z) with true by (symmetry; apply Z.leb_le; lia).
  replace ((zlen p <=? zlen p + zlen q)%Z) with true by (symmetry; apply Z.leb_le; lia).
  cbn [andb]. do 2 f_equal. apply skipn_app_exact. unfold zlen; lia.
Qed.

Lemma get_u64_put z q e : get_u64 (GSlice (put_u64 z ++ q) e) = Ok (z mod two64)%Z.
Proof.
  unfold get_u64, s_len; cbn [vis]. rewrite zlen_app, zlen_put_u64.
  pose proof (zlen_nonneg q).
  destruct (Z.ltb_spec (8 + zlen q) 8); [lia|].
  rewrite firstn_app_exact by apply put_u64_length. now rewrite unle_put_u64.
Qed.

Lemma get_u64_put_only z e : get_u64 (GSlice (put_u64 z) e) = Ok (z mod two64)%Z.
Proof. rewrite <- (app_nil_r (put_u64 z)). apply get_u64_put. Qed.

Lemma bind_Ok_inv {A B} (m : outcome A) (f : A -> outcome B) b :
  bind m f = Ok b -> exists a, m = Ok a /\ f a = Ok b.
Proof. destruct m; cbn; try discriminate; eauto. Qed.

Lemma zlen_0_nil {A} (l : list A) : zlen l = 0%Z -> l = [].
Proof. destruct l; unfold zlen; cbn [length]; [auto|lia]. Qed.

(** ** Inversions *)
Lemma s_slice_inv s lo hi s' : s_slice s lo hi = Ok s' ->
  (0 <= lo <= hi)%Z /\ (hi <= s_cap s)%Z /\
  s' = GSlice (firstn (Z.to_nat (hi - lo)) (skipn (Z.to_nat lo) (vis s ++ ext s)))
              (skipn (Z.to_nat hi) (vis s ++ ext s)).
Proof.
  unfold s_slice. destruct ((0 <=? lo) && (lo <=? hi) && (hi <=? s_cap s))%Z eqn:E; [|discriminate].
  rewrite !andb_true_iff, !Z.leb_le in E. intros Eq; inversion Eq; subst. tauto.
Qed.

Lemma s_slice_inv_len s lo hi s' : s_slice s lo hi = Ok s' -> s_len s' = (hi - lo)%Z.
Proof.
  intros E. apply s_slice_inv in E as (A & B & ->). unfold s_len, zlen; cbn [vis].
  rewrite firstn_length, skipn_length, app_length. unfold s_cap, zlen in B. lia.
Qed.

Lemma s_slice_inv_cap s lo hi s' : s_slice s lo hi = Ok s' ->
  length (vis s') + length (ext s') = length (vis s) + length (ext s) - Z.to_nat lo.
Proof.
  intros E. apply s_slice_inv in E as (A & B & ->). cbn [vis ext].
  rewrite firstn_length, !skipn_length, app_length. unfold s_cap, zlen in B. lia.
Qed.

(** A slice inside the visible part only sees visible bytes. *)
Lemma s_slice_inv_vis s lo hi s' : s_slice s lo hi = Ok s' -> (hi <= s_len s)%Z ->
  vis s' = firstn (Z.to_nat (hi - lo)) (skipn (Z.to_nat lo) (vis s)).
Proof.
  intros E L. apply s_slice_inv in E as (A & B & ->). cbn [vis].
  unfold s_len, zlen in L. rewrite skipn_app, firstn_app.
  rewrite skipn_length.
  replace (Z.to_nat (hi - lo) - (length (vis s) - Z.to_nat lo)) with 0 by lia.
  cbn [firstn]. apply app_nil_r.
Qed.

Lemma s_from_inv s lo s' : s_from s lo = Ok s' ->
  (0 <= lo <= s_len s)%Z /\ s' = GSlice (skipn (Z.to_nat lo) (vis s)) (ext s).
Proof.
  unfold s_from. destruct ((0 <=? lo) && (lo <=? s_len s))%Z eqn:E; [|discriminate].
  rewrite !andb_true_iff, !Z.leb_le in E. intros Eq; inversion Eq; subst. auto.
Qed.

Lemma s_from_inv_len s lo s' : s_from s lo = Ok s' -> s_len s' = (s_len s - lo)%Z.
Proof.
  intros E. apply s_from_inv in E as (A & ->). unfold s_len, zlen in *; cbn [vis].
  rewrite skipn_length. lia.
Qed.

Lemma get_u64_inv s z : get_u64 s = Ok z -> (8 <= s_len s)%Z /\ z = unle (firstn 8 (vis s)).
Proof.
  unfold get_u64. destruct (Z.ltb_spec (s_len s) 8); [discriminate|].
  intros E; inversion E; subst. auto.
Qed.

Lemma unle_8_range l : length l = 8 -> (0 <= unle l < two64)%Z.
Proof. intros E. pose proof (unle_range l) as R. rewrite E in R. exact R. Qed.

Lemma put_u64_mod z : put_u64 (z mod two64) = put_u64 z.
Proof.
  pose proof (le_unle (put_u64 z)) as E. rewrite put_u64_length, unle_put_u64 in E. exact E.
Qed.

Lemma put_u64_unle l : length l = 8 -> put_u64 (unle l) = l.
Proof. intros E. unfold put_u64. rewrite <- E. apply le_unle. Qed.

Lemma i64_congr z : (i64 z mod two64 = z mod two64)%Z.
Proof.
  unfold i64. pose proof (Z.mod_pos_bound z two64 ltac:(rewrite two64_val; lia)) as R.
  destruct (Z.ltb_spec (z mod two64) two63).
  - apply Z.mod_mod. rewrite two64_val; lia.
  - replace (z mod two64 - two64)%Z with (z mod two64 + (-1) * two64)%Z by lia.
    rewrite Z_mod_plus_full. apply Z.mod_mod. rewrite two64_val; lia.
Qed.

Lemma put_u64_i64 z : put_u64 (i64 z) = put_u64 z.
Proof. rewrite <- put_u64_mod, i64_congr, put_u64_mod. reflexivity. Qed.

Lemma get_u64_fuel s : get_u64 s <> Fuel.
Proof. unfold get_u64. destruct (s_len s <? 8)%Z; discriminate. Qed.

Lemma s_slice_fuel s lo hi : s_slice s lo hi <> Fuel.
Proof. unfold s_slice. destruct (_ && _)%bool; discriminate. Qed.

Lemma s_from_fuel s lo : s_from s lo <> Fuel.
Proof. unfold s_from. destruct (_ && _)%bool; discriminate. Qed.

Lemma bind_Fuel {A B} (m : outcome A) (f : A -> outcome B) :
  m <> Fuel -> (forall a, m = Ok a -> f a <> Fuel) -> bind m f <> Fuel.
Proof. destruct m; cbn; auto; discriminate. Qed.

Lemma s_len_nonneg s : (0 <= s_len s)%Z.
Proof. apply zlen_nonneg. Qed.

Lemma s_len_cap s : (s_len s <= s_cap s)%Z.
Proof. unfold s_len, s_cap. pose proof (zlen_nonneg (ext s)). lia. Qed.
