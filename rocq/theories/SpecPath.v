(** Specification of names and places. *)
From Coq Require Import List ZArith NArith Lia Bool.
From Coq Require Import Init.Byte Strings.Byte.
From Verif Require Import Base DbModel PathModel.
Import ListNotations.

(** A name of a file in a directory: not empty, without "/", not "." or "..". *)
Definition plain (n : bytes) : Prop :=
  n <> [] /\ ~ In x2f n /\ n <> [x2e] /\ n <> [x2e; x2e].

(** [parts p es]: the path [p] is the elements [es] with "/" between them. *)
Inductive parts : bytes -> list bytes -> Prop :=
| parts_one e : ~ In x2f e -> parts e [e]
| parts_more e p es : ~ In x2f e -> parts p es -> parts (e ++ x2f :: p) (e :: es).

(** [walk from es to]: going from one directory through the elements leads to another place;
    places are the names from the root. *)
Inductive walk : list bytes -> list bytes -> list bytes -> Prop :=
| walk_here l : walk l [] l
| walk_stay l e es l' : e = [] \/ e = [x2e] -> walk l es l' -> walk l (e :: es) l'
| walk_up l n es l' : walk l es l' -> walk (l ++ [n]) ([x2e; x2e] :: es) l'
| walk_root es l' : walk [] es l' -> walk [] ([x2e; x2e] :: es) l'
| walk_down l n es l' : plain n -> walk (l ++ [n]) es l' -> walk l (n :: es) l'.

(** [leads cwd p l]: the path [p] of a process in the directory [cwd] is the place [l]. *)
Inductive leads (cwd : list bytes) : bytes -> list bytes -> Prop :=
| leads_absolute p es l : parts p es -> walk [] es l -> leads cwd (x2f :: p) l
| leads_relative p es l : ~ (exists q, p = x2f :: q) -> parts p es -> walk cwd es l -> leads cwd p l.

(** ** A directory in a larger file system *)

(** The name of a place. *)
Definition place_name (l : list bytes) : bytes := concat (map (cons x2f) l).

(** The names a call uses. *)
Definition call_name (c : api) : option bytes :=
  match c with CNew n | CExists n | CDelete n | COpen n => Some n | _ => None end.

(** [holds D s S]: in the file system [S], with places for names, there is a directory at [D];
    [s] is this directory alone, with its own names: the same files, with the same bytes. *)
Definition holds (D : list bytes) (s S : fsys) : Prop :=
  (D = [] \/ dir_get (f_dir S) (place_name D) = Some EDir) /\
  (forall n, plain n -> dir_get (f_dir S) (place_name (D ++ [n])) = dir_get (f_dir s) n) /\
  f_data S = f_data s /\ f_handles S = f_handles s /\ f_locks S = f_locks s /\ f_faults S = f_faults s.

(** Nothing changes but names directly in [D]. *)
Definition only_within (D : list bytes) (S S' : fsys) : Prop :=
  forall k, (forall n, plain n -> k <> place_name (D ++ [n])) -> dir_get (f_dir S') k = dir_get (f_dir S) k.

(** Plain names and extensions without "/". *)
Definition plain_app (a : dbapp) : Prop :=
  ~ In x2f (a_dst a) /\ ~ In x2f (a_bck a) /\ Forall (fun x => plain (x_name (snd x))) (a_ctxs a).
Definition plain_call (c : api) : Prop := forall n, call_name c = Some n -> plain n.

(** Names are below directories. *)
Definition rooted (S : fsys) : Prop :=
  forall l n e, l <> [] -> dir_get (f_dir S) (place_name (l ++ [n])) = Some e -> dir_get (f_dir S) (place_name l) = Some EDir.
