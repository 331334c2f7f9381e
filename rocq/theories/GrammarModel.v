(** Model of instances/grammars: the components, the shared tokens, the channels and the grammar of
    grammars. *)
From Coq Require Import List ZArith NArith String Bool.
From Coq Require Import Init.Byte Strings.Byte.
From Verif Require Import Base AstModel.
Import ListNotations.
Local Open Scope string_scope.
Local Open Scope list_scope.

(** ** Texts *)
(** A Go string literal: its bytes. *)
Definition str (s : string) : bytes := list_byte_of_string s.

Definition byte_of_Z (z : Z) : byte := match Byte.of_N (Z.to_N (z mod 256)) with Some b => b | None => x00 end.
Definition Z_of_byte (b : byte) : Z := Z.of_N (Byte.to_N b).

(** strconv.Itoa(int(b)) for a byte: at most three decimal digits. *)
Definition digit (z : Z) : byte := byte_of_Z (48 + z mod 10).
Definition itoa (b : byte) : bytes :=
  let z := Z_of_byte b in
  if (z <? 10)%Z then [digit z]
  else if (z <? 100)%Z then [digit (z / 10); digit z]
  else [digit (z / 100); digit (z / 10); digit z].

(** "for _, r := range values" of a string and byte(r): the decoded code points, truncated to a byte.
    Decoding is that of the Go language: a byte that does not start a well formed UTF-8 sequence is
    decoded, alone, as U+FFFD. [between] is on unsigned bytes. *)
Definition between (lo hi : Z) (b : byte) : bool := ((lo <=? Z_of_byte b) && (Z_of_byte b <=? hi))%Z.
Definition bits (n : Z) (b : byte) : Z := (Z_of_byte b mod n)%Z.
Definition rune_error : Z := 65533.
Fixpoint runes (fuel : nat) (s : bytes) : list Z :=
  match fuel with
  | O => []
  | S f =>
    match s with
    | [] => []
    | a :: s1 =>
      if between 0 127 a then Z_of_byte a :: runes f s1
      else
        match s1 with
        | b :: s2 =>
          if between 194 223 a && between 128 191 b then (bits 32 a * 64 + bits 64 b)%Z :: runes f s2
          else
            match s2 with
            | c :: s3 =>
              if between 128 191 c &&
                 ((between 224 224 a && between 160 191 b) || (between 225 236 a && between 128 191 b) ||
                  (between 237 237 a && between 128 159 b) || (between 238 239 a && between 128 191 b))
              then ((bits 16 a * 64 + bits 64 b) * 64 + bits 64 c)%Z :: runes f s3
              else
                match s3 with
                | d :: s4 =>
                  if between 128 191 c && between 128 191 d &&
                     ((between 240 240 a && between 144 191 b) || (between 241 243 a && between 128 191 b) ||
                      (between 244 244 a && between 128 143 b))
                  then (((bits 8 a * 64 + bits 64 b) * 64 + bits 64 c) * 64 + bits 64 d)%Z :: runes f s4
                  else rune_error :: runes f s1
                | [] => rune_error :: runes f s1
                end
            | [] => rune_error :: runes f s1
            end
        | [] => rune_error :: runes f s1
        end
    end
  end.
Definition codes (s : bytes) : list byte := map byte_of_Z (runes (List.length s) s).

(** ** Components *)
(** The components panic when a builder returns an error. The builders' validations that can fail here
    are those on empty names, lines and blocks (domain/grammars/token_builder.go, line_builder.go,
    block_builder.go: Now); they only depend on the arguments of [all_characters], [any_character]
    and [from_block], which the exported API takes; everything else is called with constants. *)

(** components/elements/element.go:81-101, cardinalities/cardinality.go:22-25. *)
Definition from_value (b : byte) : container := CElement (EValue (itoa b) b) 1 (Some 1%Z).
(** components/elements/element.go:59-78; cardinality.go:28-40. *)
Definition from_token (t : token) (min : Z) (max : option Z) : container := CElement (EToken t) min max.
Definition once (t : token) : container := from_token t 1 (Some 1%Z).
Definition many (t : token) : container := from_token t 0 None.
Definition some (t : token) : container := from_token t 1 None.
Definition optional (t : token) : container := from_token t 0 (Some 1%Z).
(** components/elements/element.go:36-56, everythings/everything.go:20-40. *)
Definition from_everything (n : string) (exception : token) : container :=
  CElement (EEverything (str n) exception None) 1 (Some 1%Z).

(** components/tokens/token.go:87-102 (FromBlock), blocks/block.go:20-30 (FromLines), lines/line.go:23-35, 37-47
    (FromElements), with their panics. *)
Definition from_block (n : bytes) (ls : list (list container)) (su : list suite) : outcome token :=
  if forallb (fun l => match l with [] => false | _ => true end) ls
  then match ls, n with
       | [], _ => Panic
       | _, [] => Panic
       | _, _ => Ok (Token n ls su)
       end
  else Panic.

(** components/suites/suite.go:30-44, 46-62 (Suites), composes/compose.go:30-62: one element per byte. A Go map has its
    entries in any order, so the order is a parameter where it matters: none of the properties here
    depends on it. *)
Definition suite_of (text : bytes) (valid : bool) : suite := Suite valid (map (fun b => (b, 1%Z)) text).

(** components/tokens/token.go:38-48, 116-124 (AllCharacters). On the empty text the compose
    of the suite panics first; it is a panic either way. *)
Definition all_characters (n values : bytes) : outcome token :=
  from_block n [map from_value (codes values)] [suite_of values true].

(** components/tokens/token.go:51-65 (AnyCharacter), 68-84 (AnyElement). The suites are given: one for
    each different character. *)
Definition any_character (n values : bytes) (su : list suite) : outcome token :=
  from_block n (map (fun b => [from_value b]) (codes values)) su.

(** ** Tokens with constant names and texts *)
(** What a component returns for arguments for which it does not panic. The suites of a token
    are [su] of its name, any list: Execute does not look at them. *)
Section Grammars.
Variable su : bytes -> list suite.

Definition tok (n : string) (ls : list (list container)) : token := Token (str n) ls (su (str n)).
(** [any_character] and [all_characters] of ASCII constants (see GrammarProofs.v, any_eq and all_eq). *)
Definition any (n values : string) : token := tok n (map (fun b => [from_value b]) (str values)).
Definition all (n values : string) : token := tok n [map from_value (str values)].
Definition sign (s : string) : container := from_value (match str s with b :: _ => b | [] => x00 end).

(** tokens/token.go:228-231, 234-237, 240-243, 246-249, 252-255 *)
Definition any_number : token := any "anyNumber" "0123456789".
Definition a_to_f_upper : token := any "aToFUpperCaseLetters" "ABCDEF".
Definition a_to_f_lower : token := any "aToFLowerCaseLetter" "abcdef".
Definition upper_letters : token := any "uppercaseLetter" "ABCDEFGHIJKLMNOPQRSTUVWXYZ".
Definition lower_letters : token := any "lowerCaseLetter" "abcdefghijklmnopqrstuvwxyz".

(** tokens/token.go:214-225: one line for each byte, 0 to 255. *)
Definition all_bytes : list byte := map (fun i => byte_of_Z (Z.of_nat i)) (seq 0 256).
Definition any_byte : token := tok "anyByte" (map (fun b => [from_value b]) all_bytes).

(** tokens/token.go:144-211 *)
Definition any_letter : token := tok "anyLetter" [[once upper_letters]; [once lower_letters]].
(** tokens/token.go:62-141 *)
Definition any_hex : token := tok "anyHexChar" [[once a_to_f_lower]; [once a_to_f_upper]; [once any_number]].
(** tokens/token.go:44-59 *)
Definition sha512_hex : token := tok "sha512Hex" [[from_token any_hex 128 (Some 128%Z)]].
(** tokens/token.go:25-41 *)
Definition variable_name : token := tok "variableName" [[once lower_letters; many any_letter]].

(** ** The grammar of grammars: grammars/grammar.go, constants in grammars/sdk.go:11-39 *)
(** grammar.go:574-611 *)
Definition cardinality_token : token := tok "cardinality"
  [[sign "?"]; [sign "+"]; [sign "*"]; [sign "["; some any_number; sign "]"];
   [sign "["; some any_number; sign ","; many any_number; sign "]"]].
(** grammar.go:552-572 *)
Definition element_token : token := tok "element" [[once variable_name; many cardinality_token]].
(** grammar.go:538-550 *)
Definition line_token : token := tok "line" [[some element_token]].
(** grammar.go:523-536 *)
Definition delimiter_then_line : token := tok "delimiterThenLine" [[sign "|"; once line_token]].
(** grammar.go:502-521 *)
Definition block_token : token := tok "block" [[once line_token; many delimiter_then_line]].
(** grammar.go:487-500 *)
Definition delimiter_then_suite_element : token := tok "delimiterThenSuiteElement" [[sign "&"; once variable_name]].
(** grammar.go:469-485 *)
Definition suite_block : token := tok "suiteBlock" [[sign ":"; once variable_name; many delimiter_then_suite_element; sign ";"]].
(** grammar.go:449-467 *)
Definition suite_valid : token := tok "suiteValid" [[once (all "validConst" "valid"); once suite_block]].
(** grammar.go:428-447 *)
Definition suite_invalid : token := tok "suiteInvalid" [[once (all "invalidConst" "invalid"); once suite_block]].
(** grammar.go:374-426 *)
Definition suite_prefix : token := all "suitePrefixConst" "---".
Definition suite_token : token := tok "suite"
  [[once suite_prefix; once suite_valid; optional suite_invalid];
   [once suite_prefix; optional suite_valid; once suite_invalid]].

(** grammar.go:662-676 *)
Definition compose_with_amount : token := tok "composeWithAmount" [[sign "|"; some any_number]].
(** grammar.go:645-660 *)
Definition compose_token : token := tok "compose" [[once variable_name; many compose_with_amount]].
(** grammar.go:613-643 *)
Definition compose_assignment : token := tok "composeAssignment"
  [[once variable_name; sign ":"; once compose_token; once suite_token; sign ";"]].

(** grammar.go:739-752 *)
Definition everything_without_escape : token := tok "everythingWithoutEscape" [[sign "#"; once variable_name]].
(** grammar.go:722-737 *)
Definition everything_with_escape : token := tok "everythingWithEscape"
  [[sign "#"; once variable_name; sign "!"; once variable_name]].
(** grammar.go:704-720 *)
Definition everything_token : token := tok "everything" [[once everything_with_escape]; [once everything_without_escape]].
(** grammar.go:678-702 *)
Definition everything_assignment : token := tok "everythingAssignment"
  [[once variable_name; sign ":"; once everything_token; once suite_token; sign ";"]].

(** grammar.go:356-372 *)
Definition value_assignment : token := tok "valueAssignment" [[once variable_name; sign ":"; some any_byte]].
(** grammar.go:318-354 *)
Definition token_assignment : token := tok "tokenAssignment"
  [[once variable_name; sign ":"; once block_token; once suite_token; sign ";"]].
(** grammar.go:213-236 *)
Definition external_assignment : token := tok "externalTokenAssignment"
  [[once variable_name; sign ":"; once sha512_hex; once suite_token; sign ";"]].

(** grammar.go:293-316 *)
Definition previous_next_inside : token := tok "channelPreviousNextInside"
  [[once variable_name; sign ":"; once variable_name]; [sign ":"; once variable_name]; [once variable_name]].
(** grammar.go:275-291 *)
Definition previous_next : token := tok "channelPreviousNext" [[sign "["; once previous_next_inside; sign "]"]].
(** grammar.go:254-273 *)
Definition channel_token : token := tok "channel" [[sign "-"; once variable_name; optional previous_next; sign ";"]].
(** grammar.go:238-252 *)
Definition root_token : token := tok "root" [[sign "@"; once variable_name; sign ";"]].

(** grammar.go:153-211 *)
Definition instruction_token : token := tok "instruction"
  [[once value_assignment]; [once compose_assignment]; [once everything_assignment]; [once token_assignment];
   [once external_assignment]].
(** grammar.go:96-151 (GrammarToken) *)
Definition grammar_token : token := tok "grammar" [[once root_token; many channel_token; some instruction_token]].

(** components/channels/channels.go:53-102, 104-116, 118-128 (Channels). The texts are "\t", "\n" and "\r". *)
Definition value_channel (n : string) (b : byte) : channel := Channel (Token (str n) [[from_value b]] []) None.
Definition end_of_line : token := tok "endOfLineSpaces" [[from_value x0a]; [from_value x0d]].
Definition comment_token : token := tok "singleLineComment"
  [[once (all "doubleSlash" "//"); from_everything "everythingExceptEndOfLine" end_of_line]].
Definition the_channels : list channel :=
  [value_channel "space" x20; value_channel "tab" x09; value_channel "newLine" x0a; value_channel "retChar" x0d;
   Channel comment_token None].

(** grammar.go:80-93 (Grammar) *)
Definition the_grammar : grammar := Grammar grammar_token the_channels.
End Grammars.
