(** Channels with conditions: when a channel takes something, and what a line of values then matches. *)
From Coq Require Import List ZArith.
From Coq Require Import Init.Byte Strings.Byte.
From Verif Require Import Base AstModel SpecAst SpecPeg.
Import ListNotations.

(** Execute, with the token as root and without channels, returns a tree and no error. *)
Definition tolerated (t : token) (d : bytes) : Prop := exists fuel tr, execute fuel (Grammar t []) d = Ok tr.

(** A condition: the token that must be found on the data before, the one on the data after. *)
Definition condition_holds (cond : option (option token * option token)) (prev next : bytes) : Prop :=
  match cond with
  | None => True
  | Some (before, after) =>
    (forall t, before = Some t -> tolerated t prev) /\ (forall t, after = Some t -> tolerated t next)
  end.

(** The token of the channel is recognised at the start of [d], [rest] is left, and the condition holds. *)
Definition takes (c : channel) (prev d rest : bytes) : Prop :=
  let 'Channel t cond := c in
  (exists fuel a, recognises fuel (Grammar t []) d a rest) /\ condition_holds cond prev rest.

(** The channels, each once, in order. The data before is that from which the channel that took
    something last started, and at first the one given. *)
Inductive round : list channel -> bytes -> bytes -> bytes -> bytes -> Prop :=
| round_end prev d : round [] prev d prev d
| round_takes c l prev d rest prev' d' : takes c prev d rest -> round l d rest prev' d' -> round (c :: l) prev d prev' d'
| round_passes c l prev d prev' d' : (forall rest, ~ takes c prev d rest) -> round l prev d prev' d' -> round (c :: l) prev d prev' d'.

(** Round after round, until nothing is taken. *)
Inductive rounds (chs : list channel) : bytes -> bytes -> bytes -> Prop :=
| rounds_end prev d prev' : round chs prev d prev' d -> rounds chs prev d d
| rounds_more prev d prev' d' rest : round chs prev d prev' d' -> d' <> d -> rounds chs prev' d' rest -> rounds chs prev d rest.

(** The bytes [l], each after what the channels take. The data before a byte is that from which the byte
    before it (and what channels took before that) was read. *)
Inductive bytes_between (chs : list channel) : list byte -> bytes -> bytes -> bytes -> Prop :=
| between_end prev d : bytes_between chs [] prev d d
| between_byte b l prev d r rest : rounds chs prev d (b :: r) -> bytes_between chs l d r rest ->
    bytes_between chs (b :: l) prev d rest.

(** The channels this is about: their tokens are parsing expressions without externals. The tokens of
    the conditions are arbitrary. *)
Definition channels_peg (chs : list channel) : Prop :=
  forall t cond, In (Channel t cond) chs -> peg_grammar (Grammar t []) /\ every_container plain_container t.
