(** What the grammar of grammars should read: blanks, comments, names and scripts. *)
From Coq Require Import List ZArith.
From Coq Require Strings.String.
Import String.StringSyntax.
From Coq Require Import Init.Byte Strings.Byte.
From Verif Require Import Base SpecPeg.
Import ListNotations.

(** ** Blanks and comments *)
(** space, tab, new line, return *)
Definition blank (b : byte) : Prop := b = x20 \/ b = x09 \/ b = x0a \/ b = x0d.

(** A comment: two slashes and at least one other byte, up to the end of the line (a new line; a return does
    not count) or of the text, which follows as [rest]. *)
Inductive comment : bytes -> bytes -> Prop :=
| Comment words rest :
    words <> [] -> ~ In x0a words -> (rest = [] \/ exists r, rest = x0a :: r) ->
    comment (x2f :: x2f :: words ++ rest) rest.

(** The text without its blanks and comments. *)
Inductive visible : bytes -> bytes -> Prop :=
| visible_end : visible [] []
| visible_blank b d v : blank b -> visible d v -> visible (b :: d) v
| visible_comment d rest v : comment d rest -> visible rest v -> visible d v
| visible_byte b d v : ~ blank b -> (forall rest, ~ comment (b :: d) rest) -> visible d v -> visible (b :: d) (b :: v).

(** ** Scripts *)
Definition code (b : byte) : Z := Z.of_N (Byte.to_N b).
Definition lower (b : byte) : Prop := (97 <= code b <= 122)%Z.
Definition upper (b : byte) : Prop := (65 <= code b <= 90)%Z.
Definition decimal (b : byte) : Prop := (48 <= code b <= 57)%Z.
Definition letter (b : byte) : Prop := upper b \/ lower b.
Definition hexadecimal (b : byte) : Prop := decimal b \/ (65 <= code b <= 70)%Z \/ (97 <= code b <= 102)%Z.

(** A lower case letter, then letters. *)
Definition name (n : bytes) : Prop := exists c cs, n = c :: cs /\ lower c /\ Forall letter cs.

(** '-' name ';' with an optional '[' previous ']', '[' ':' next ']' or '[' previous ':' next ']' *)
Inductive channel_text : bytes -> Prop :=
| chan n : name n -> channel_text (x2d :: n ++ [x3b])
| chan_previous n p : name n -> name p -> channel_text (x2d :: n ++ x5b :: p ++ [x5d; x3b])
| chan_next n q : name n -> name q -> channel_text (x2d :: n ++ x5b :: x3a :: q ++ [x5d; x3b])
| chan_both n p q : name n -> name p -> name q -> channel_text (x2d :: n ++ x5b :: p ++ x3a :: q ++ [x5d; x3b]).

(** '@' root ';', channels, and one assignment name ':' with everything left as its value. *)
Inductive script : bytes -> bytes -> list bytes -> bytes -> bytes -> Prop :=
| Script root channels n body :
    name root -> Forall channel_text channels -> name n -> body <> [] ->
    script (x40 :: root ++ x3b :: concat channels ++ n ++ x3a :: body) root channels n body.

(** ** What was recognised *)
(** The bytes of a syntax tree, in order. *)
Fixpoint leaves (a : ast) : bytes :=
  match a with
  | Leaf b => [b]
  | Node _ _ es => flat_map (fun e => flat_map leaves (snd e)) es
  end.

(** The tree of the assignment of [body] to [n], and of a script: its root, its channels, if any, and one
    instruction, which is an assignment of a value (instruction's first line). *)
Definition text (s : String.string) : bytes := String.list_byte_of_string s.
Arguments text s%string_scope.
Definition assignment (n body : bytes) (a : ast) : Prop :=
  exists x xs, a = Node (text "valueAssignment") 0 [(text "variableName", [x]); (text "58", [Leaf x3a]); (text "anyByte", xs)] /\
  leaves x = n /\ flat_map leaves xs = body.
Definition script_ast (root : bytes) (channels : list bytes) (n body : bytes) (a : ast) : Prop :=
  exists x, assignment n body x /\ exists r cs, leaves r = x40 :: root ++ [x3b] /\ map leaves cs = channels /\
  a = Node (text "grammar") 0
    ((text "root", [r]) :: match cs with [] => [] | _ => [(text "channel", cs)] end ++
     [(text "instruction", [Node (text "instruction") 0 [(text "valueAssignment", [x])]])]).

(** The input does not go on with a letter. *)
Definition stops (d : bytes) : Prop := match d with x :: _ => ~ letter x | [] => True end.

(** A byte below 128, or 253. *)
Definition own_byte (b : byte) : Prop := (code b < 128)%Z \/ code b = 253%Z.
