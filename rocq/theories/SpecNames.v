(** The names in a parsed grammar: which token holds which, as a user who looks for them by name sees it. *)
From Coq Require Import List ZArith.
From Coq Require Strings.String.
Import String.StringSyntax.
From Coq Require Import Init.Byte Strings.Byte.
From Verif Require Import Base SpecPeg SpecGrammar.
Import ListNotations.
Local Open Scope string_scope.

(** A token, and the tokens that it holds. *)
Definition holdings : list (String.string * list String.string) :=
  [("grammar", ["root"; "channel"; "instruction"]);
   ("root", ["variableName"]);
   ("channel", ["variableName"; "channelPreviousNext"]);
   ("channelPreviousNext", ["channelPreviousNextInside"]);
   ("channelPreviousNextInside", ["variableName"]);
   ("instruction", ["valueAssignment"; "composeAssignment"; "everythingAssignment"; "tokenAssignment"; "externalTokenAssignment"]);
   ("valueAssignment", ["variableName"; "anyByte"]);
   ("composeAssignment", ["variableName"; "compose"; "suite"]);
   ("everythingAssignment", ["variableName"; "everything"; "suite"]);
   ("tokenAssignment", ["variableName"; "block"; "suite"]);
   ("externalTokenAssignment", ["variableName"; "sha512Hex"; "suite"]);
   ("compose", ["variableName"; "composeWithAmount"]);
   ("composeWithAmount", ["anyNumber"]);
   ("everything", ["everythingWithEscape"; "everythingWithoutEscape"]);
   ("everythingWithEscape", ["variableName"]);
   ("everythingWithoutEscape", ["variableName"]);
   ("block", ["line"; "delimiterThenLine"]);
   ("delimiterThenLine", ["line"]);
   ("line", ["element"]);
   ("element", ["variableName"; "cardinality"]);
   ("cardinality", ["anyNumber"]);
   ("suite", ["suitePrefixConst"; "suiteValid"; "suiteInvalid"]);
   ("suiteValid", ["validConst"; "suiteBlock"]);
   ("suiteInvalid", ["invalidConst"; "suiteBlock"]);
   ("suiteBlock", ["variableName"; "delimiterThenSuiteElement"]);
   ("delimiterThenSuiteElement", ["variableName"]);
   ("variableName", ["lowerCaseLetter"; "anyLetter"]);
   ("anyLetter", ["uppercaseLetter"; "lowerCaseLetter"]);
   ("sha512Hex", ["anyHexChar"]);
   ("anyHexChar", ["aToFLowerCaseLetter"; "aToFUpperCaseLetters"; "anyNumber"]);
   ("singleLineComment", ["doubleSlash"; "endOfLineSpaces"])].

Definition holds (parent inner : bytes) : Prop :=
  exists p ns n, In (p, ns) holdings /\ In n ns /\ text p = parent /\ text n = inner.

(** What may be skipped between the bytes of a grammar. *)
Definition blanks : list String.string := ["space"; "tab"; "newLine"; "retChar"; "singleLineComment"].
Definition between_bytes (n : bytes) : Prop := exists b, In b blanks /\ text b = n.
