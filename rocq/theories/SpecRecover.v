(** Going on with a database after a crash. *)
From Coq Require Import List ZArith NArith Lia Bool.
From Coq Require Import Init.Byte Strings.Byte.
From Verif Require Import Base HashModel HashTreeModel RefModel SpecRef DbModel SpecDb DbSession.
Import ListNotations.

(** A new application with the configuration of [a0] opens the name [n] in the file system [s]
    and finds the history [bs]; every further work is as if nothing had happened. *)
Definition resumes (H : bytes -> bytes) (mv : byte) (behind : bytes -> bytes)
  (a0 : dbapp) (n : bytes) (s : fsys) (bs : list batch) : Prop :=
  exists s' a', open_db H mv behind n (with_ctxs a0 []) s = (s', a', Ok 0%Z) /\ shows H (a', s', 0%Z) bs /\
  forall os, all_allowed H mv (a_chunk a0) (bs, []) os ->
    exists st, exec H mv behind n (a', s', 0%Z) os = Ok st /\ shows H st (fst (spec_run (bs, []) os)).
