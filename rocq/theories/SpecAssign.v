(** The texts of the assignments that the grammar of grammars has besides that of a value. *)
From Coq Require Import List ZArith.
From Coq Require Strings.String.
Import String.StringSyntax.
From Coq Require Import Init.Byte Strings.Byte.
From Verif Require Import Base SpecPeg SpecGrammar.
Import ListNotations.

Definition digits (ds : bytes) : Prop := ds <> [] /\ Forall decimal ds.

(** '?', '+', '*', '[' number ']', '[' number ',' ']' or '[' number ',' number ']' *)
Inductive cardinality_text : bytes -> Prop :=
| card_sign b : In b [x3f; x2b; x2a] -> cardinality_text [b]
| card_exact ds : digits ds -> cardinality_text (x5b :: ds ++ [x5d])
| card_range ds es : digits ds -> Forall decimal es -> cardinality_text (x5b :: ds ++ x2c :: es ++ [x5d]).

(** The input does not go on with a cardinality. *)
Definition no_card (r : bytes) : Prop := forall c q, cardinality_text c -> r <> c ++ q.

(** The elements of a line: names with cardinalities. Where a name is followed by an element it has one. *)
Inductive line_text : list bytes -> bytes -> Prop :=
| line_last n cs : name n -> Forall cardinality_text cs -> line_text [n ++ concat cs] (n ++ concat cs)
| line_more n cs es w : name n -> Forall cardinality_text cs -> cs <> [] -> line_text es w ->
    line_text ((n ++ concat cs) :: es) (n ++ concat cs ++ w).

(** Lines between '|'. *)
Inductive block_text : bytes -> Prop :=
| Block es l ls : line_text es l -> Forall (fun w => exists es', line_text es' w) ls ->
    block_text (l ++ concat (map (cons x7c) ls)).

(** name and any '|' number *)
Inductive compose_text : bytes -> Prop :=
| Compose n ds : name n -> Forall digits ds -> compose_text (n ++ concat (map (cons x7c) ds)).

(** '#' name, or '#' name '!' name *)
Inductive everything_text : bytes -> Prop :=
| everything_plain n : name n -> everything_text (x23 :: n)
| everything_escape n m : name n -> name m -> everything_text (x23 :: n ++ x21 :: m).

Definition hash_text (h : bytes) : Prop := length h = 128 /\ Forall hexadecimal h.

(** ':' names between '&' ';' *)
Inductive composes_text : bytes -> Prop :=
| Composes n ns : name n -> Forall name ns -> composes_text (x3a :: n ++ concat (map (cons x26) ns) ++ [x3b]).

Inductive suite_text : bytes -> Prop :=
| suite_only_valid b : composes_text b -> suite_text (text "---valid" ++ b)
| suite_valid_invalid b c : composes_text b -> composes_text c -> suite_text (text "---valid" ++ b ++ text "invalid" ++ c)
| suite_only_invalid c : composes_text c -> suite_text (text "---invalid" ++ c).

(** name ':' what is assigned, its suite, ';' *)
Inductive assignment_text (body : bytes -> Prop) : bytes -> Prop :=
| Assignment n w s : name n -> body w -> suite_text s -> assignment_text body (n ++ x3a :: w ++ s ++ [x3b]).
