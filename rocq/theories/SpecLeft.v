(** Specification: tokens one line of which starts with a reference to the token itself (C166). *)
From Coq Require Import List ZArith.
From Coq Require Import Init.Byte Strings.Byte.
From Verif Require Import Base AstModel SpecPeg.
Import ListNotations.

(** A line of bytes, each with the name of its value; the reference to [n] and then such a line. *)
Definition sequence (l : list (bytes * byte)) : list container := map (fun x => CElement (EValue (fst x) (snd x)) 1 (Some 1%Z)) l.
Definition reference_then (n : bytes) (l : list (bytes * byte)) : list container :=
  CElement (ERecursive n) 1 (Some 1%Z) :: sequence l.

(** The bytes of a line. *)
Definition spelled (l : list (bytes * byte)) : bytes := map snd l.

(** The data starts with the [k]-th of the lines, [l], and with no line before it. *)
Definition starts_with (ls : list (list (bytes * byte))) (d : bytes) (k : nat) (l : list (bytes * byte)) (rest : bytes) : Prop :=
  nth_error ls k = Some l /\ d = spelled l ++ rest /\
  forall j l' r, j < k -> nth_error ls j = Some l' -> d <> spelled l' ++ r.
Definition starts_with_none (ls : list (list (bytes * byte))) (d : bytes) : Prop :=
  forall l r, In l ls -> d <> spelled l ++ r.

(** The syntax tree of a line of bytes. *)
Definition leaves_of (l : list (bytes * byte)) : list (bytes * list ast) := map (fun x => (fst x, [Leaf (snd x)])) l.

(** The bytes [w], [k] times. *)
Fixpoint times (k : nat) (w : bytes) : bytes := match k with O => [] | S k' => w ++ times k' w end.
