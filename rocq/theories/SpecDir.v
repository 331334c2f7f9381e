(** Specification for a directory that is opened as a database. *)
From Coq Require Import List ZArith NArith Lia Bool.
From Coq Require Import Init.Byte Strings.Byte.
From Verif Require Import Base HashModel HashTreeModel RefModel DbModel.
Import ListNotations.

(** What a user does with an open database. *)
Inductive use : Type :=
| UWrite (h data : bytes) (kind : Z)
| UCancel
| UCommit (now : Z).

(** The answers of the uses, one after the other, and what is left. *)
Fixpoint uses (H : bytes -> bytes) (mv : byte) (id : Z) (us : list use) (a : dbapp) (s : fsys) : list (use * outcome unit) * dbapp * fsys :=
  match us with
  | [] => ([], a, s)
  | u :: us' =>
    let x := match u with
             | UWrite h d k => (s, fst (write_db a id h d k), snd (write_db a id h d k))
             | UCancel => (s, fst (cancel_db a id), snd (cancel_db a id))
             | UCommit now => commit_db H mv now a s id
             end in
    let y := uses H mv id us' (snd (fst x)) (fst (fst x)) in
    ((u, snd x) :: fst (fst y), snd (fst y), snd y)
  end.

(** A Write of data, and each Cancel, is answered with success; no Commit is. *)
Definition dir_answer (x : use * outcome unit) : Prop :=
  match fst x with
  | UWrite _ d _ => d <> [] -> snd x = Ok tt
  | UCancel => snd x = Ok tt
  | UCommit _ => snd x <> Ok tt
  end.
