(** Property theorems for the number of leaves in floating point (C146). *)
From Coq Require Import Reals Lra Lia ZArith Arith List.
From Coq Require Import Init.Byte Strings.Byte.
From Verif Require Import Base HashModel HashTreeModel HashTreeProofs HashFloat HashFloatProofs.
Import ListNotations.

(** *** C146 *)
(** Whatever the logarithm and the division return within their rounding error, below 2^42 blocks the number of
    leaves is the least power of two that is not smaller than the number of blocks. *)
Theorem C146_rounding_gives_the_next_power_of_two : forall flog fdiv,
  float_log flog -> float_div fdiv ->
  forall n : nat, 2 <= n < 2 ^ 42 -> (forall k, n <> 2 ^ k) ->
  exists k, next_in_floats flog fdiv n = Z.of_nat (2 ^ k) /\ n <= 2 ^ k /\ (forall j, n <= 2 ^ j -> k <= j).
Proof.
  intros flog fdiv FL FD n (A & B) P.
  assert (P' : is_power_of_two n = false).
  { destruct (is_power_of_two n) eqn:E; [|reflexivity]. apply is_power_of_two_spec in E as (k & E). now destruct (P k). }
  exists (Nat.log2_up n). split; [now apply next_in_floats_eq|]. split; [apply Nat.log2_up_spec; lia|].
  intros j J. apply Nat.log2_up_le_pow2; [lia|exact J].
Qed.
Print Assumptions C146_rounding_gives_the_next_power_of_two.

(** So that the tree is the one of the exact computation, which the other properties of hash trees are about. *)
Theorem C146_rounding_does_not_change_the_tree : forall H flog fdiv,
  float_log flog -> float_div fdiv ->
  forall blocks, length blocks < 2 ^ 42 ->
  build_in_floats H flog fdiv (Some blocks) = build_tree H (Some blocks).
Proof. intros. now apply build_in_floats_eq. Qed.
Print Assumptions C146_rounding_does_not_change_the_tree.

(** A logarithm that is always rounded up and a division that is always rounded down. *)
Example C146_ex :
  float_log (fun x => ln x * (1 + rounding))%R /\ float_div (fun x y => x / y * (1 - rounding))%R /\
  2 <= 5 < 2 ^ 42 /\ (forall k, 5 <> 2 ^ k) /\
  next_in_floats (fun x => ln x * (1 + rounding))%R (fun x y => x / y * (1 - rounding))%R 5 = 8%Z.
Proof.
  assert (R0 : (0 < rounding)%R) by apply rounding_small.
  assert (A : float_log (fun x => ln x * (1 + rounding))%R).
  { intros n _ _. unfold near. replace (ln (INR n) * (1 + rounding) - ln (INR n))%R with (rounding * ln (INR n))%R by ring.
    rewrite Rabs_mult, (Rabs_pos_eq rounding) by lra. apply Rle_refl. }
  assert (B : float_div (fun x y => x / y * (1 - rounding))%R).
  { intros x y _. unfold near. replace (x / y * (1 - rounding) - x / y)%R with (- (rounding * (x / y)))%R by ring.
    rewrite Rabs_Ropp, Rabs_mult, (Rabs_pos_eq rounding) by lra. apply Rle_refl. }
  assert (C : 2 <= 5 < 2 ^ 42).
  { split; [lia|]. apply Nat.lt_le_trans with (2 ^ 3); [cbn; lia|]. apply Nat.pow_le_mono_r; lia. }
  assert (D : forall k, 5 <> 2 ^ k).
  { intros [|[|[|k]]]; cbn [Nat.pow]; lia. }
  split; [exact A|]. split; [exact B|]. split; [exact C|]. split; [exact D|].
  rewrite next_in_floats_eq; [reflexivity|exact A|exact B|lia|apply C|reflexivity].
Qed.
