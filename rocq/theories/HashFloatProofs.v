(** Rounding does not change the number of leaves. *)
From Coq Require Import Reals Lra Lia ZArith Arith.
From Coq Require Import List.
From Verif Require Import Base HashModel HashTreeModel HashTreeProofs HashFloat.
Local Open Scope R_scope.

Lemma ceiling_is x k : IZR k - 1 < x -> x <= IZR k -> ceiling x = k.
Proof.
  intros A B. unfold ceiling. enough (up (- x) = 1 - k)%Z by lia. symmetry. apply tech_up; rewrite minus_IZR; lra.
Qed.

Lemma ln_above y : 0 <= y <= 1 -> y / 2 <= ln (1 + y).
Proof.
  intros (A & B). pose proof (exp_ineq1_le (- ln (1 + y))) as P. rewrite exp_Ropp, exp_ln in P by lra.
  assert (Q : / (1 + y) <= 1 - y / 2).
  { apply Rmult_le_reg_l with (1 + y); [lra|]. rewrite Rinv_r by lra. nra. }
  lra.
Qed.

Lemma ln_below y : 0 <= y < 1 -> ln (1 - y) <= - y.
Proof.
  intros (A & B). pose proof (exp_ineq1_le (ln (1 - y))) as P. rewrite exp_ln in P by lra. lra.
Qed.

Lemma ln2_pos : 0 < ln 2.
Proof. rewrite <- ln_1. apply ln_increasing; lra. Qed.
Lemma ln2_le : ln 2 <= 1.
Proof. pose proof (exp_ineq1_le (ln 2)) as P. rewrite exp_ln in P by lra. lra. Qed.

Lemma ln_pow2 k : ln (2 ^ k) = INR k * ln 2.
Proof. apply ln_pow. lra. Qed.

Lemma pow2_pos k : 0 < 2 ^ k.
Proof. apply pow_lt. lra. Qed.

Lemma INR_pow2 k : INR (2 ^ k) = 2 ^ k.
Proof. rewrite pow_INR. reflexivity. Qed.

Lemma near_bounds y x : near y x -> 0 <= x -> x * (1 - rounding) <= y <= x * (1 + rounding).
Proof.
  unfold near. intros N X. rewrite (Rabs_pos_eq x X) in N. pose proof (Rle_abs (y - x)). pose proof (Rle_abs (- (y - x))) as N'. rewrite Rabs_Ropp in N'. lra.
Qed.

Lemma rounding_small : 0 < rounding /\ rounding * 8 = / 2 ^ 49.
Proof.
  split; [apply Rinv_0_lt_compat, pow2_pos|]. unfold rounding. replace (2 ^ 52) with (2 ^ 49 * 8) by (simpl; lra).
  field.
Qed.

Section Q.
  Variables (flog : R -> R) (fdiv : R -> R -> R).
  Hypothesis FL : float_log flog.
  Hypothesis FD : float_div fdiv.

  Lemma quotient n : (1 <= n)%nat -> INR n <= 2 ^ 53 ->
    let r := ln (INR n) / ln 2 in
    r * (1 - 4 * rounding) <= fdiv (flog (INR n)) (flog (INR 2)) <= r * (1 + 4 * rounding).
  Proof.
    intros Hn Hb r. pose proof ln2_pos as P2. destruct rounding_small as (E0 & E1).
    set (e := rounding) in *.
    assert (E2 : e * 100 < 1).
    { assert (/ 2 ^ 49 < / 2 ^ 4). { apply Rinv_lt_contravar. apply Rmult_lt_0_compat; apply pow2_pos. apply Rlt_pow; [lra|lia]. }
      assert (/ 2 ^ 4 = / 16) by (f_equal; simpl; lra). lra. }
    assert (Ln : 0 <= ln (INR n)).
    { apply le_INR in Hn. change (INR 1) with 1 in Hn. destruct Hn as [Hn|Hn]; [left; rewrite <- ln_1; apply ln_increasing; lra|rewrite <- Hn, ln_1; lra]. }
    pose proof (near_bounds _ _ (FL n Hn Hb) Ln) as (A1 & A2). fold e in A1, A2.
    assert (B : INR 2 <= 2 ^ 53). { change (INR 2) with 2. rewrite <- (pow_1 2) at 1. apply Rle_pow; [lra|lia]. }
    assert (B2 : ln (INR 2) = ln 2) by reflexivity.
    pose proof (near_bounds _ _ (FL 2%nat ltac:(lia) B) ltac:(rewrite B2; lra)) as (C1 & C2). fold e in C1, C2. rewrite B2 in C1, C2.
    set (x := flog (INR n)) in *. set (y := flog (INR 2)) in *. set (l := ln (INR n)) in *. set (m := ln 2) in *.
    assert (Y : 0 < y) by nra.
    assert (X : 0 <= x) by nra.
    assert (D : 0 <= x / y). { unfold Rdiv. apply Rmult_le_pos; [exact X|left; now apply Rinv_0_lt_compat]. }
    pose proof (near_bounds _ _ (FD x y Y) D) as (D1 & D2). fold e in D1, D2.
    assert (R0 : 0 <= r). { unfold r, Rdiv. apply Rmult_le_pos; [exact Ln|left; now apply Rinv_0_lt_compat]. }
    assert (Er : l = r * m) by (unfold r; field; lra).
    (* x / y between r(1-e)/(1+e) and r(1+e)/(1-e) *)
    assert (F1 : r * (1 - 2 * e) <= x / y).
    { apply Rmult_le_reg_r with y; [exact Y|]. replace (x / y * y) with x by (field; lra).
      apply Rle_trans with (r * (1 - 2 * e) * (m * (1 + e))). { apply Rmult_le_compat_l; [nra|lra]. }
      apply Rle_trans with (l * (1 - e)); [|lra]. rewrite Er.
      replace (r * (1 - 2 * e) * (m * (1 + e))) with (r * m * ((1 - 2 * e) * (1 + e))) by ring.
      rewrite ?Rmult_assoc. rewrite <- !(Rmult_assoc r m). apply Rmult_le_compat_l; [nra|nra]. }
    assert (F2 : x / y <= r * (1 + 5 / 2 * e)).
    { apply Rmult_le_reg_r with y; [exact Y|]. replace (x / y * y) with x by (field; lra).
      apply Rle_trans with (l * (1 + e)); [lra|]. rewrite Er.
      apply Rle_trans with (r * (1 + 5 / 2 * e) * (m * (1 - e))).
      2:{ apply Rmult_le_compat_l; [|lra]. apply Rmult_le_pos; [exact R0|]. nra. }
      replace (r * (1 + 5 / 2 * e) * (m * (1 - e))) with (r * m * ((1 + 5 / 2 * e) * (1 - e))) by ring.
      apply Rmult_le_compat_l; [nra|nra]. }
    split.
    - apply Rle_trans with (x / y * (1 - e)); [|exact D1]. apply Rle_trans with (r * (1 - 2 * e) * (1 - e)).
      + rewrite Rmult_assoc. apply Rmult_le_compat_l; [exact R0|nra].
      + apply Rmult_le_compat_r; [nra|exact F1].
    - apply Rle_trans with (x / y * (1 + e)); [exact D2|]. apply Rle_trans with (r * (1 + 5 / 2 * e) * (1 + e)).
      + apply Rmult_le_compat_r; [nra|exact F2].
      + rewrite Rmult_assoc. apply Rmult_le_compat_l; [exact R0|nra].
  Qed.

  Lemma ceiling_quotient n k : (k < 42)%nat -> (2 ^ k < n)%nat -> (n < 2 ^ S k)%nat ->
    ceiling (fdiv (flog (INR n)) (flog (INR 2))) = Z.of_nat (S k).
  Proof.
    intros K A B.
    assert (A' : 2 ^ k + 1 <= INR n). { rewrite <- INR_pow2, <- S_INR. apply le_INR. lia. }
    assert (B' : INR n <= 2 ^ S k - 1). { apply Nat.le_succ_l, le_INR in B. rewrite S_INR, INR_pow2 in B. lra. }
    assert (Hn : (1 <= n)%nat) by lia.
    assert (Hb : INR n <= 2 ^ 53). { apply Rle_trans with (2 ^ S k); [lra|]. apply Rle_pow; [lra|lia]. }
    pose proof (quotient n Hn Hb) as Q. cbv zeta in Q. set (q := fdiv (flog (INR n)) (flog (INR 2))) in *. clearbody q. destruct rounding_small as (E0 & E1). set (e := rounding) in *.
    set (r := ln (INR n) / ln 2) in *. pose proof ln2_pos as P. pose proof ln2_le as P'. pose proof (pow2_pos k) as Pk. pose proof (pow2_pos (S k)) as PSk.
    assert (Er : ln (INR n) = r * ln 2) by (unfold r; field; lra).
    assert (T1 : 1 <= 2 ^ k) by (apply pow_R1_Rle; lra).
    assert (T2 : 2 ^ S k = 2 * 2 ^ k) by reflexivity.
    (* from below *)
    assert (L : INR k + / 2 ^ S k <= r).
    { assert (G : ln (2 ^ k) + ln (1 + / 2 ^ k) <= ln (INR n)).
      { rewrite <- ln_mult; [|exact Pk|pose proof (Rinv_0_lt_compat _ Pk); lra]. replace (2 ^ k * (1 + / 2 ^ k)) with (2 ^ k + 1) by (field; lra).
        destruct A' as [A'|A']; [left; apply ln_increasing; lra|rewrite <- A'; lra]. }
      rewrite ln_pow2 in G. pose proof (Rinv_0_lt_compat _ Pk). pose proof (Rinv_le_contravar 1 (2 ^ k) ltac:(lra) T1) as I1. rewrite Rinv_1 in I1.
      pose proof (ln_above (/ 2 ^ k) ltac:(lra)) as G'. rewrite Er in G.
      assert (G2 : / 2 ^ S k = / 2 ^ k / 2) by (rewrite T2; field; lra). rewrite G2.
      apply Rmult_le_reg_r with (ln 2); [exact P|]. nra. }
    assert (U : r <= INR (S k) - / 2 ^ S k).
    { assert (G : ln (INR n) <= ln (2 ^ S k) + ln (1 - / 2 ^ S k)).
      { assert (S1 : / 2 ^ S k < 1). { rewrite <- Rinv_1. apply Rinv_lt_contravar; lra. }
        rewrite <- ln_mult; [|exact PSk|lra]. replace (2 ^ S k * (1 - / 2 ^ S k)) with (2 ^ S k - 1) by (field; lra).
        assert (0 < INR n) by lra.
        destruct B' as [B'|B']; [left; apply ln_increasing; lra|rewrite B'; lra]. }
      rewrite ln_pow2 in G. pose proof (Rinv_0_lt_compat _ PSk).
      assert (S1 : / 2 ^ S k < 1). { rewrite <- Rinv_1. apply Rinv_lt_contravar; lra. }
      pose proof (ln_below (/ 2 ^ S k) ltac:(lra)) as G'. rewrite Er in G.
      apply Rmult_le_reg_r with (ln 2); [exact P|]. nra. }
    assert (D : / 2 ^ 42 <= / 2 ^ S k). { apply Rinv_le_contravar; [exact PSk|]. apply Rle_pow; [lra|lia]. }
    assert (K' : INR (S k) <= 42). { replace 42 with (INR 42) by (rewrite INR_IZR_INZ; reflexivity). apply le_INR. lia. }
    assert (D' : / 2 ^ 42 = rounding * 1024).
    { unfold rounding. replace 1024 with (2 ^ 10) by ring. replace (2 ^ 52) with (2 ^ 42 * 2 ^ 10) by (rewrite <- pow_add; reflexivity).
      field. }
    fold e in D'. pose proof (pos_INR k) as Kp. rewrite S_INR in *.
    assert (R0 : 0 <= r) by (pose proof (Rinv_0_lt_compat _ PSk); lra).
    assert (ER : e * r <= e * 42) by (apply Rmult_le_compat_l; lra).
    apply ceiling_is; rewrite <- INR_IZR_INZ, S_INR; lra.
  Qed.
End Q.

Lemma between_powers n : (2 <= n)%nat -> is_power_of_two n = false ->
  exists k, (2 ^ k < n < 2 ^ S k)%nat /\ Nat.log2_up n = S k.
Proof.
  intros N P. assert (N0 : (0 < n)%nat) by lia. pose proof (Nat.log2_spec n N0) as (A & B).
  assert (A' : (2 ^ Nat.log2 n < n)%nat).
  { destruct (Nat.eq_dec (2 ^ Nat.log2 n) n) as [E|E]; [|lia].
    assert (is_power_of_two n = true) by (apply is_power_of_two_spec; eauto). congruence. }
  exists (Nat.log2 n). split; [split; assumption|]. apply Nat.log2_up_unique; [lia|]. cbn [pred]. lia.
Qed.

Lemma next_in_floats_eq flog fdiv n : float_log flog -> float_div fdiv ->
  (2 <= n)%nat -> (n < 2 ^ 42)%nat -> is_power_of_two n = false ->
  next_in_floats flog fdiv n = Z.of_nat (next_power n).
Proof.
  intros FL FD N B P. destruct (between_powers n N P) as (k & (A & C) & E).
  unfold next_in_floats, next_power. rewrite E, (ceiling_quotient flog fdiv FL FD n k).
  - now rewrite Nat2Z.inj_pow.
  - apply (Nat.pow_lt_mono_r_iff 2); [lia|]. lia.
  - exact A.
  - exact C.
Qed.

Lemma build_in_floats_eq H flog fdiv bs : float_log flog -> float_div fdiv ->
  (length bs < 2 ^ 42)%nat -> build_in_floats H flog fdiv (Some bs) = build_tree H (Some bs).
Proof.
  intros FL FD B. unfold build_in_floats, build_tree.
  set (bs' := if (length bs <=? 1)%nat then bs ++ cons nil nil else bs).
  destruct (is_power_of_two (length (map (from_bytes H) bs'))) eqn:P; [reflexivity|].
  rewrite map_length in *.
  assert (L : (length bs <= length bs')%nat /\ ((length bs' <= 2)%nat \/ length bs' = length bs) /\ (0 < length bs')%nat).
  { unfold bs'. destruct (length bs <=? 1)%nat eqn:E.
    - apply Nat.leb_le in E. rewrite app_length. cbn [length]. lia.
    - apply Nat.leb_gt in E. lia. }
  assert (P1 : length bs' <> 1%nat) by (intros E; rewrite E in P; discriminate).
  rewrite next_in_floats_eq; [|exact FL|exact FD|lia| |exact P].
  - now replace (Z.to_nat (Z.of_nat (next_power (length bs')) - Z.of_nat (length bs'))) with (next_power (length bs') - length bs')%nat by lia.
  - destruct L as (L1 & [L2|L2] & L3); [|lia]. apply Nat.le_lt_trans with 2%nat; [exact L2|]. change 2%nat with (2 ^ 1)%nat at 1. apply Nat.pow_lt_mono_r; lia.
Qed.
