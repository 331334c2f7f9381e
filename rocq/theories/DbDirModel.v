(** Model of Open on a name that is a directory. *)
From Coq Require Import List ZArith NArith Lia Bool.
From Coq Require Import Init.Byte Strings.Byte.
From Verif Require Import Base HashModel HashTreeModel RefModel DbModel.
Import ListNotations.

(** os.Open of a directory succeeds. ReadAt on it fails for a length above zero (EISDIR), and Close works once: here
    it is an open file without bytes, of an inode that has no name. *)
Definition sys_open_dir (s : fsys) : fsys * nat :=
  (with_handles (with_data s (f_data s ++ [[]])) (f_handles s ++ [Handle (length (f_data s)) 0 true]), length (f_handles s)).

Section WithSha.
  Variable H : bytes -> bytes.
  Variable mv : byte.
  Variable behind : bytes -> bytes.

  (** application.go:130-166 (Open), with application.go:176-190: os.Open of a directory succeeds, ReadAt fails, and
      this counts as a database without a reference. Other names as [open_db]. The empty name is the directory of the
      application itself (filepath.Join). *)
  Definition open_any (n : bytes) (a : dbapp) (s : fsys) : fsys * dbapp * outcome Z :=
    match dir_get (f_dir s) n with
    | Some EDir =>
      if existsb (fun x => bytes_eqb (x_name (snd x)) n) (a_ctxs a) then (s, a, Err)
      else
        let id := zlen (a_ctxs a) in
        let c := Ctx id n (snd (sys_open_dir s)) None 0 [] in
        (fst (sys_open_dir s), with_ctxs a (ctx_set (a_ctxs a) id c), Ok id)
    | _ => open_db H mv behind n a s
    end.
End WithSha.
