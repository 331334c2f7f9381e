(** Specification for the file descriptors of a process. *)
From Coq Require Import List ZArith NArith Lia Bool.
From Coq Require Import Init.Byte Strings.Byte.
From Verif Require Import Base HashModel HashTreeModel RefModel DbModel DbConcurrent DbThreads SpecThreads DbDescriptors.
Import ListNotations.

(** The open file [h] reads the inode [i]. *)
Definition open_at (s : fsys) (h i : nat) : Prop := exists pos, nth_error (f_handles s) h = Some (Handle i pos true).

(** [numbered q]: each connection that is open has a number, and the number stands for it; what is closed has none. *)
Definition numbered (q : proc) : Prop := forall h,
  match num_get (q_files q) h with
  | Some k => exists i, open_at (m_fs (q_mem q)) h i /\ fd_get (q_table q) k = Some (Desc i (Some h) false)
  | None => forall i, ~ open_at (m_fs (q_mem q)) h i
  end.

(** The number of the connection of the database [id]. *)
Definition number_of (q : proc) (id : Z) (k : nat) : Prop := exists p c,
  ptr_get (m_ctxs (q_mem q)) id = Some p /\ nth_error (m_heap (q_mem q)) p = Some c /\ num_get (q_files q) (x_conn c) = Some k.

(** No number below the one of the database is free. *)
Definition no_gap (q : proc) (id : Z) : Prop := forall k, number_of q id k -> forall j, j < k -> fd_get (q_table q) j <> None.

(** [d_acting H mv behind a s id call o a' s']: as [acting], for the calls with descriptors: on its own the call answers
    [o] and leaves the application [a'] and the file system [s']. *)
Inductive d_acting (H : bytes -> bytes) (mv : byte) (behind : bytes -> bytes) (a : dbapp) (s : fsys) (id : Z) :
  forall B, dprog B -> outcome B -> dbapp -> fsys -> Prop :=
| d_acting_read ptr : d_acting H mv behind a s id bytes (d_read id ptr) (read_db a s id ptr) a s
| d_acting_write h d k : d_acting H mv behind a s id unit (d_lift (g_write id h d k)) (snd (write_db a id h d k)) (fst (write_db a id h d k)) s
| d_acting_cancel : d_acting H mv behind a s id unit (d_lift (g_cancel id)) (snd (cancel_db a id)) (fst (cancel_db a id)) s
| d_acting_commit now s' a' o : commit_db H mv now a s id = (s', a', o) ->
    d_acting H mv behind a s id unit (d_commit H mv a (rounds a s id) now id) o a' s'
| d_acting_close s' a' o : close_db a s id = (s', a', o) -> d_acting H mv behind a s id unit (d_close id) o a' s'
| d_acting_open n s' o : run (p_open H mv behind a n) s = (s', o) ->
    d_acting H mv behind a s id Z (d_open H mv behind a n) (do x <- o; Ok (snd x)) (match o with Ok x => fst x | _ => a end) s'.
