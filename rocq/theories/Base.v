(** Base vocabulary of the model: outcomes, bytes, Go slices, 64-bit fields. *)
From Coq Require Import List ZArith NArith Lia Bool.
From Coq Require Import Init.Byte Strings.Byte.
Import ListNotations.

(** ** Outcomes of Go calls
    [Ok a] is a normal return with a nil error, [Err] is a non-nil error,
    [Panic] is a Go runtime panic, [Fuel] means that the fuel given to the model
    was used up (never a result of the Go code; divergence is [Fuel] for every fuel). *)
Inductive outcome (A : Type) : Type :=
| Ok (a : A)
| Err
| Panic
| Fuel.
Arguments Ok {A} a.
Arguments Err {A}.
Arguments Panic {A}.
Arguments Fuel {A}.

(** Sequencing of Go calls: [x, err := f(); if err != nil { return nil, err }]. *)
Definition bind {A B} (m : outcome A) (f : A -> outcome B) : outcome B :=
  match m with
  | Ok a => f a
  | Err => Err
  | Panic => Panic
  | Fuel => Fuel
  end.

Notation "'do' x <- m ; k" := (bind m (fun x => k))
  (at level 200, x name, m at level 100, k at level 200, right associativity).

(** Go [panic(err)] on an error return. *)
Definition must {A} (m : outcome A) : outcome A :=
  match m with Err => Panic | _ => m end.

(** ** Bytes *)
Definition bytes := list byte.

(** Go [byte(z)]: the low 8 bits. *)
Definition byte_of_Z (z : Z) : byte :=
  match Byte.of_N (Z.to_N (z mod 256)) with
  | Some b => b
  | None => x00
  end.

Definition Z_of_byte (b : byte) : Z := Z.of_N (Byte.to_N b).

Fixpoint bytes_eqb (a b : bytes) : bool :=
  match a, b with
  | [], [] => true
  | x :: a', y :: b' => Byte.eqb x y && bytes_eqb a' b'
  | _, _ => false
  end.

(** ** Little endian integers (encoding/binary LittleEndian) *)
Fixpoint le (n : nat) (z : Z) : bytes :=
  match n with
  | O => []
  | S n' => byte_of_Z z :: le n' (z / 256)
  end.

Fixpoint unle (l : bytes) : Z :=
  match l with
  | [] => 0
  | b :: l' => Z_of_byte b + 256 * unle l'
  end%Z.

Definition two64 : Z := (2 ^ 64)%Z.
Definition two63 : Z := (2 ^ 63)%Z.

(** [PutUint64(buf, uint64(z))]: conversion to uint64 keeps the low 64 bits. *)
Definition put_u64 (z : Z) : bytes := le 8 z.

(** Go conversion [int(x)] / [int64(x)] of a value given modulo 2^64. *)
Definition i64 (z : Z) : Z :=
  let m := (z mod two64)%Z in
  if (m <? two63)%Z then m else (m - two64)%Z.

(** Go conversion [uint64(x)] / [uint(x)]. *)
Definition u64 (z : Z) : Z := (z mod two64)%Z.

Definition zlen {A} (l : list A) : Z := Z.of_nat (length l).

(** ** Go byte slices
    [vis] are the [len(s)] visible bytes, [ext] the bytes of the backing array
    between [len(s)] and [cap(s)]. *)
Record gslice : Type := GSlice { vis : bytes; ext : bytes }.

Definition s_len (s : gslice) : Z := zlen (vis s).
Definition s_cap (s : gslice) : Z := (zlen (vis s) + zlen (ext s))%Z.

(** [s[lo:hi]]: Go checks [0 <= lo <= hi <= cap(s)]. *)
Definition s_slice (s : gslice) (lo hi : Z) : outcome gslice :=
  if ((0 <=? lo) && (lo <=? hi) && (hi <=? s_cap s))%Z then
    let all := vis s ++ ext s in
    Ok (GSlice (firstn (Z.to_nat (hi - lo)) (skipn (Z.to_nat lo) all))
               (skipn (Z.to_nat hi) all))
  else Panic.

(** [s[lo:]]: Go checks [0 <= lo <= len(s)]. *)
Definition s_from (s : gslice) (lo : Z) : outcome gslice :=
  if ((0 <=? lo) && (lo <=? s_len s))%Z then
    Ok (GSlice (skipn (Z.to_nat lo) (vis s)) (ext s))
  else Panic.

(** [binary.LittleEndian.Uint64(s)]: reads [s[0..7]], panics if shorter. *)
Definition get_u64 (s : gslice) : outcome Z :=
  if (s_len s <? 8)%Z then Panic else Ok (unle (firstn 8 (vis s))).

(** A slice with exactly these visible bytes and nothing behind. *)
Definition sl (b : bytes) : gslice := GSlice b [].

(** ** Optional arguments and maps *)
Definition opt_bind {A B} (o : option A) (f : A -> option B) : option B :=
  match o with Some a => f a | None => None end.

Definition is_some {A} (o : option A) : bool :=
  match o with Some _ => true | None => false end.
