(** The number of leaves of a hash tree, computed as the code does, with rounded logarithms. *)
From Coq Require Import Reals ZArith List.
From Verif Require Import Base HashModel HashTreeModel.
Import ListNotations.
Local Open Scope R_scope.

(** The rounding of float64: half a unit in the last place is a relative error of 2^-53; twice that is allowed for
    here, because Go documents no more for [math.Log] than that its result is within one unit. *)
Definition rounding : R := / 2 ^ 52.

(** [y] is [x] up to rounding. *)
Definition near (y x : R) : Prop := Rabs (y - x) <= rounding * Rabs x.

(** [math.Log] and the division of float64 values. Numbers of blocks are below 2^53, which float64 represents
    exactly. *)
Definition float_log (flog : R -> R) : Prop := forall n : nat, (1 <= n)%nat -> INR n <= 2 ^ 53 -> near (flog (INR n)) (ln (INR n)).
Definition float_div (fdiv : R -> R -> R) : Prop := forall x y, 0 < y -> near (fdiv x y) (x / y).

(** [math.Ceil], which does not round: the least integer that is not smaller. *)
Definition ceiling (x : R) : Z := (1 - up (- x))%Z.

(** libs/cryptography/domain/hashtrees/builder.go:95-96
    [next := uint(math.Pow(2, math.Ceil(math.Log(lengthAsFloat)/math.Log(2))))].
    [math.Pow] is exact for a power of two that float64 can represent. *)
Definition next_in_floats (flog : R -> R) (fdiv : R -> R -> R) (n : nat) : Z :=
  (2 ^ ceiling (fdiv (flog (INR n)) (flog (INR 2))))%Z.

(** builder.go:73-124 (Now without head and parent), as [build_tree] of HashTreeModel.v but with the rounded
    computation. A negative or zero [remaining] appends nothing. *)
Definition build_in_floats (H : bytes -> bytes) (flog : R -> R) (fdiv : R -> R -> R) (blocks : option (list bytes)) : outcome hashtree :=
  match blocks with
  | None => Err
  | Some bs =>
    let bs := if (length bs <=? 1)%nat then bs ++ [[]] else bs in
    let hashes := map (from_bytes H) bs in
    let hashes :=
      if is_power_of_two (length hashes) then hashes
      else hashes ++ repeat (from_bytes H []) (Z.to_nat (next_in_floats flog fdiv (length hashes) - Z.of_nat (length hashes))) in
    bind (leaves_now (map LHead hashes)) (leaves_ht H)
  end.
