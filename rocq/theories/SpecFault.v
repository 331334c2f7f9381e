(** Specification of the bytes on which the decoders panic. *)
From Coq Require Import List ZArith.
From Coq Require Import Init.Byte Strings.Byte.
From Verif Require Import Base.
Import ListNotations.

(** [trips least rest behind]: [rest] is not empty and cannot be read as a length and that many bytes.
    The eight bytes of the length and the bytes it announces may lie behind the end;
    but if enough are announced for an element, [least], the next one has to start inside of [rest] or at its end. *)
Definition trips (least : Z) (rest behind : bytes) : Prop :=
  rest <> [] /\
  (length (rest ++ behind) < 8 \/
   8 <= length (rest ++ behind) /\
   let n := unle (firstn 8 (rest ++ behind)) in
   (zlen (rest ++ behind) - 8 < n \/ (least <= n /\ zlen rest - 8 < n))%Z).

(** [trips_on decode rest behind]: the same for elements that [decode] may refuse: it panics itself,
    or it succeeds and the element does not end inside of [rest] or at its end. *)
Definition trips_on {A} (decode : gslice -> outcome A) (rest behind : bytes) : Prop :=
  rest <> [] /\
  (length (rest ++ behind) < 8 \/
   8 <= length (rest ++ behind) /\
   let n := unle (firstn 8 (rest ++ behind)) in
   ((zlen (rest ++ behind) - 8 < n)%Z \/
    (n <= zlen (rest ++ behind) - 8)%Z /\
    let element := decode (GSlice (firstn (Z.to_nat n) (skipn 8 (rest ++ behind))) (skipn (Z.to_nat (8 + n)) (rest ++ behind))) in
    (element = Panic \/ ((exists a, element = Ok a) /\ (zlen rest - 8 < n)%Z)))).

(** [short_proof tail]: the bytes behind the values of a commit begin a proof and end inside of it. *)
Definition short_proof (tail : bytes) : Prop :=
  exists t, tail = x00 :: t /\ (length t < 8 \/ (zlen t - 8 < unle (firstn 8 t))%Z).

(** [leaf_bytes b]: [b] stands for a leaf of a hash tree: its head of 64 bytes,
    followed, unless it is the last level, by the length of its left leaf, the left and the right leaf. *)
Inductive leaf_bytes : bytes -> Prop :=
| lb_head h : length h = 64 -> leaf_bytes h
| lb_node h a b : length h = 64 -> leaf_bytes a -> leaf_bytes b -> leaf_bytes (h ++ put_u64 (zlen a) ++ a ++ b).

(** [leaf_fault v behind]: behind the head of [v] lie two leaves that make the decoder panic.
    [pair_fault w behind]: the left one is announced longer than the backing array, or is at fault itself,
    or is a leaf that ends behind [w], or is a leaf inside of [w] and the right one is at fault. *)
Inductive leaf_fault : bytes -> bytes -> Prop :=
| lf_pair h w behind : length h = 64 -> pair_fault w behind -> leaf_fault (h ++ w) behind
with pair_fault : bytes -> bytes -> Prop :=
| pf_long w behind : 128 <= length w -> (zlen (w ++ behind) - 8 < unle (firstn 8 w))%Z -> pair_fault w behind
| pf_left w behind n : 128 <= length w -> Z.of_nat n = unle (firstn 8 w) -> n + 8 <= length (w ++ behind) ->
    leaf_fault (firstn n (skipn 8 (w ++ behind))) (skipn (8 + n) (w ++ behind)) -> pair_fault w behind
| pf_end w behind n : 128 <= length w -> Z.of_nat n = unle (firstn 8 w) -> n + 8 <= length (w ++ behind) ->
    leaf_bytes (firstn n (skipn 8 (w ++ behind))) -> length w < n + 8 -> pair_fault w behind
| pf_right w behind n : 128 <= length w -> Z.of_nat n = unle (firstn 8 w) -> n + 8 <= length w ->
    leaf_bytes (firstn n (skipn 8 w)) -> leaf_fault (skipn (8 + n) w) behind -> pair_fault w behind.
