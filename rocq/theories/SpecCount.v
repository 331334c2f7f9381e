(** Counting the calls of the parser's function [token]. *)
From Coq Require Import List ZArith Bool.
From Coq Require Import Init.Byte Strings.Byte.
From Verif Require Import Base AstModel SpecAst.
Import ListNotations.

Section Count.
  (** The parser hands one map from call to call (application.go:512). The count is kept in it, as the number of lines of an entry
      under a name [k] that the grammar does not use. *)
  Variable k : bytes.

  Definition count (s : smap) : nat := match s_get s k with Some (_, l) => length l | None => 0 end.
  Definition tick (s : smap) : smap :=
    s_set s k (Token k [] [], (0, []) :: match s_get s k with Some (_, l) => l | None => [] end).

  (** The parser of AstModel.v, application.go:512-553 (token), which first adds one to the count. *)
  Fixpoint counted_run (fuel : nat) : call_t :=
    match fuel with
    | O => fun _ s _ _ _ _ _ => (s, Fuel)
    | S f => fun t s => token_step (counted_run f) f t (tick s)
    end.

  (** Execute (application.go:113-115), with the count. *)
  Definition counted_execute (fuel : nat) (g : grammar) (data : bytes) : nat * outcome tree :=
    let 'Grammar root chs := g in
    let r := counted_run fuel root [] None chs false [] data in (count (fst r), snd r).

  (** The number of calls of [token] that Execute makes. *)
  Definition calls (fuel : nat) (g : grammar) (data : bytes) : nat := fst (counted_execute fuel g data).

  (** The calls for channels, their conditions and external grammars start with an empty map, so they are not counted.
      A grammar has none of them, and does not use the name [k]: *)
  Definition counts_all (g : grammar) : Prop :=
    let 'Grammar root chs := g in
    chs = [] /\
    (forall t, within root t -> t_name t <> k) /\
    every_container (fun c => match c with
                              | CElement (EExternal _ _) _ _ => False
                              | CElement (ERecursive n) _ _ => n <> k
                              | _ => True
                              end) root.
End Count.

(** A token with three lines: [( A x], [( A y] and [z]. *)
Definition one_byte (b : byte) : container := CElement (EValue [b] b) 1 (Some 1%Z).
Definition itself : container := CElement (ERecursive [x41]) 1 (Some 1%Z).
Definition twice : token := Token [x41] [[one_byte x28; itself; one_byte x78]; [one_byte x28; itself; one_byte x79]; [one_byte x7a]] [].

(** Its [m] opening brackets, a z and [m] times y. *)
Definition deep (m : nat) (rest : bytes) : bytes := repeat x28 m ++ x7a :: repeat x79 m ++ rest.
