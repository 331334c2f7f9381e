(** Property theorems for where the parts of a parsed tree come from and what they are called (C178, C179). *)
From Coq Require Import List ZArith Lia Bool.
From Coq Require Strings.String.
Import String.StringSyntax.
From Coq Require Import Init.Byte Strings.Byte.
From Verif Require Import Base BaseLemmas AstModel SpecAst SpecOwn AstOwnProofs SpecPeg GrammarModel SpecGrammar SpecNames
  GrammarNamesProofs.
Import ListNotations.

(** *** C178 *)
(** Every tree inside the result is of a token of the grammar, and what stands before a value or behind a token is of
    a token of a channel. *)
Theorem C178_trees_are_of_the_grammar : forall fuel root chs data t,
  execute fuel (Grammar root chs) data = Ok t -> has_successful t = true ->
  tr_grammar t = root /\
  forall u, nested t u -> token_of (Grammar root chs) (tr_grammar u) /\
    forall v, passed_over u v -> channel_of (Grammar root chs) (tr_grammar v).
Proof. intros fuel root chs data t E Hs. exact (execute_own fuel (Grammar root chs) data t E Hs). Qed.
Print Assumptions C178_trees_are_of_the_grammar.

(** "b" within an external with its own channel "-", inside a root "a" with a channel " ": in " a-b" the space is
    skipped by one channel and the dash by the other. *)
Definition ex_one (b : byte) : container := CElement (EValue [b] b) 1 (Some 1%Z).
Definition ex_inner : grammar := Grammar (Token [x49] [[ex_one x62]] []) [Channel (Token [x44] [[ex_one x2d]] []) None].
Definition ex_outer : grammar :=
  Grammar (Token [x4f] [[ex_one x61; CElement (EExternal [x58] ex_inner) 1 (Some 1%Z)]] []) [Channel (Token [x53] [[ex_one x20]] []) None].
Example C178_ex : match execute 20 ex_outer [x20; x61; x2d; x62] with
  | Ok (Tree (Token o _ _) [TLine _ _ _ [TElement _ [TValue a [Tree (Token s _ _) _ _ _]]; TElement _ [TTree (Tree (Token x _ _) [TLine _ _ _ [TElement _ [TValue b [Tree (Token d _ _) _ _ _]]]] _ _)]]] _ _ as t) =>
      has_successful t = true /\ (o, a, s, x, b, d) = ([x4f], x61, [x53], [x58], x62, [x44])
  | _ => False end.
Proof. vm_compute. auto. Qed.

(** *** C179 *)
(** [su]: the suites that the tokens have, which do not matter for parsing. [r]: the token of grammars, or one inside it. *)
Theorem C179_names_in_a_parsed_grammar : forall su r, within (grammar_token su) r -> forall fuel data t,
  execute fuel (Grammar r (the_channels su)) data = Ok t -> has_successful t = true ->
  t_name (grammar_token su) = text "grammar" /\ tr_grammar t = r /\
  (forall u v, nested t u -> matched u v -> holds (t_name (tr_grammar u)) (t_name (tr_grammar v))) /\
  (forall u v, nested t u -> passed_over u v -> between_bytes (t_name (tr_grammar v))).
Proof. intros su r W fuel data t E Hs. split; [reflexivity|]. exact (grammar_names su r W fuel data t E Hs). Qed.
Print Assumptions C179_names_in_a_parsed_grammar.

(** "@ b;" as a root: it holds one name, with a space before its only letter. *)
Definition ex_su : bytes -> list suite := fun _ => [].
Example C179_ex : within (grammar_token ex_su) (root_token ex_su) /\
  match execute 20 (Grammar (root_token ex_su) (the_channels ex_su)) (text "@ b;") with
  | Ok (Tree _ [TLine _ _ _ [_; TElement _ [TTree (Tree (Token v _ _) [TLine _ _ _ [TElement _ [TTree (Tree (Token w _ _) [TLine _ _ _ [TElement _ [TValue b [Tree (Token s _ _) _ _ _]]]] _ _)]]] _ _)]; _]] _ _ as t) =>
      has_successful t = true /\ v = text "variableName" /\ w = text "lowerCaseLetter" /\ b = x62 /\ s = text "space"
  | _ => False end.
Proof.
  split.
  - eapply within_step; [apply within_refl|]. eapply child_token; [left; reflexivity|]. left. reflexivity.
  - vm_compute. auto.
Qed.
