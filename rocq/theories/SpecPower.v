(** Specification of a loss of power. *)
From Coq Require Import List ZArith NArith Lia Bool.
From Coq Require Import Init.Byte Strings.Byte.
From Verif Require Import Base HashModel HashTreeModel RefModel SpecRef DbModel SpecDb DbSession.
Import ListNotations.

(** [may_remain xs d]: the process went through the states [xs], the power failed in the last one
    or after it, and [d] is found on the disk. No code in /repo calls File.Sync, so nothing says which of the
    changes have reached the disk: the directory is the one of some state, and each file has the
    bytes it had in some state. Open files and locks are gone. Simplified: changes of the
    directory reach the disk in order, and so do the bytes written to one file. *)
Definition may_remain (xs : list fsys) (d : fsys) : Prop :=
  (exists x, In x xs /\ f_dir d = f_dir x) /\
  (forall i, exists x, In x xs /\ data_of d i = data_of x i) /\
  (forall x, In x xs -> length (f_data x) <= length (f_data d)) /\
  f_handles d = [] /\ f_locks d = [] /\ f_faults d = [].

(** What a user sees of a database with the history [bs] if only the first [p] bytes of
    its contents are there: all commits and keys, and the contents that are complete. *)
Definition shows_first (H : bytes -> bytes) (st : state) (bs : list batch) (p : Z) : Prop :=
  let '(a, s, id) := st in
  let answer before ct := if (zlen (batch_data (before ++ [ct])) <=? p)%Z then Ok (ct_data ct) else Err in
  (exists cs, commits_db a id = Ok cs /\ linked H None bs cs) /\
  (exists keys,
     (forall before ct after, history_contents bs = before ++ ct :: after ->
        exists k, nth_error keys (length before) = Some k /\ k_hash k = ct_hash ct /\ k_kind k = ct_kind ct /\
          read_db a s id (k_content k) = answer before ct) /\
     (forall kind sel, selects (fun k => k_kind k = kind) keys sel ->
        content_keys_by_kind a id kind = match sel with [] => Err | _ => Ok sel end)) /\
  (forall before ct after, history_contents bs = before ++ ct :: after ->
     Forall (fun c => ct_hash c <> ct_hash ct) after ->
     read_by_hash a s id (ct_hash ct) = answer before ct) /\
  (forall h, Forall (fun c => ct_hash c <> h) (history_contents bs) -> read_by_hash a s id h = Err).
