(** Specifications for the codecs and lookups of references. *)
From Coq Require Import List ZArith.
From Coq Require Import Init.Byte Strings.Byte.
Import ListNotations.

(** [x] is the last element of [l] with property [P]. *)
Definition last_such {A} (P : A -> Prop) (l : list A) (x : A) : Prop :=
  exists before after, l = before ++ x :: after /\ P x /\ Forall (fun y => ~ P y) after.

(** [sub] is the sub-list of all elements of [l] with property [P], in order. *)
Inductive selects {A} (P : A -> Prop) : list A -> list A -> Prop :=
| selects_nil : selects P [] []
| selects_yes x l sub : P x -> selects P l sub -> selects P (x :: l) (x :: sub)
| selects_no x l sub : ~ P x -> selects P l sub -> selects P (x :: l) sub.

(** [n] is the number of leading bytes of [b] equal to [v]. *)
Definition leading (v : byte) (b : list byte) (n : nat) : Prop :=
  exists rest, b = repeat v n ++ rest /\ hd_error rest <> Some v.

(** [m] is the greatest of the numbers [zs] and 0. *)
Definition greatest (zs : list Z) (m : Z) : Prop :=
  (m = 0%Z \/ In m zs) /\ (0 <= m)%Z /\ Forall (fun z => z <= m)%Z zs.

(** [digits n b]: [b] are the decimal digits of [n], without leading zeros. *)
Inductive digits : Z -> list byte -> Prop :=
| digits_one d c : (0 <= d <= 9)%Z -> Z.of_N (Byte.to_N c) = (48 + d)%Z -> digits d [c]
| digits_more n d b c : (0 < n)%Z -> digits n b ->
    (0 <= d <= 9)%Z -> Z.of_N (Byte.to_N c) = (48 + d)%Z -> digits (10 * n + d) (b ++ [c]).

(** The decimal text of a number, with a minus sign if it is negative. *)
Definition decimal (n : Z) (b : list byte) : Prop :=
  ((0 <= n)%Z /\ digits n b) \/ ((n < 0)%Z /\ exists c, b = x2d :: c /\ digits (- n) c).
