(** Sessions of a user whose data lies in memory that they go on writing to.
    Write keeps the slice it is given, and not a copy of its bytes:
    files/application.go:362-376 (Write), contents/content_builder.go:37-40 (WithData) and
    contents/content.go:11-23 (createContent). Commit reads it: application.go:421-486 and 643-651. *)
From Coq Require Import List ZArith NArith Lia Bool.
From Coq Require Import Init.Byte Strings.Byte.
From Verif Require Import Base HashModel HashTreeModel RefModel SpecRef DbModel SpecDb DbSession.
Import ListNotations.

(** The user's memory is one array of bytes. [SWrite] gives the slice [mem[off:off+len]] to Write,
    [SStore] writes bytes into the memory; the other operations are those of sessions. *)
Inductive shared_op : Type :=
| SWrite (h : bytes) (off len : nat) (kind : Z)
| SStore (off : nat) (d : bytes)
| SCancel
| SCommit (now : Z)
| SReopen.

(** A content whose data is a slice of the memory. *)
Definition ref_content : Type := bytes * nat * nat * Z.

Definition cut (mem : bytes) (off len : nat) : bytes := firstn len (skipn off mem).
Definition store (mem : bytes) (off : nat) (d : bytes) : bytes :=
  firstn off mem ++ d ++ skipn (off + length d) mem.
(** The contents as they look with the memory as it is. *)
Definition view (mem : bytes) (rs : list ref_content) : list content :=
  map (fun r => let '(h, off, len, k) := r in Content h (cut mem off len) k) rs.

(** ** The specification *)
(** Committed batches, pending contents and the memory: a commit takes the bytes that are in the memory then. *)
Definition shared_spec_step (st : list batch * list ref_content * bytes) (o : shared_op)
  : list batch * list ref_content * bytes :=
  let '(bs, rs, mem) := st in
  match o with
  | SWrite h off len k => (bs, rs ++ [(h, off, len, k)], mem)
  | SStore off d => (bs, rs, store mem off d)
  | SCancel => (bs, [], mem)
  | SCommit now => (bs ++ [(view mem rs, now)], rs, mem)
  | SReopen => (bs, [], mem)
  end.
Definition shared_spec (mem : bytes) (os : list shared_op) : list batch * list ref_content * bytes :=
  fold_left shared_spec_step os ([], [], mem).
Definition shared_committed (mem : bytes) (os : list shared_op) : list batch := fst (fst (shared_spec mem os)).

Section WithSha.
  Variable H : bytes -> bytes.
  Variable mv : byte.
  Variable behind : bytes -> bytes.

  (** The limits of sessions, and slices and stores inside the memory. *)
  Definition shared_allowed (chunk : Z) (st : list batch * list ref_content * bytes) (o : shared_op) : Prop :=
    let '(bs, rs, mem) := st in
    match o with
    | SWrite h off len k => length h = 64 /\ 0 < len /\ off + len <= length mem /\ (0 <= k < two64)%Z
    | SStore off d => off + length d <= length mem
    | SCancel => True
    | SCommit now =>
      rs <> [] /\ (- two63 <= now < two63)%Z /\
      fits H mv (bs ++ [(view mem rs, now)]) /\ chunk_ok chunk (history_data bs)
    | SReopen => True
    end.
  Fixpoint all_shared_allowed (chunk : Z) (st : list batch * list ref_content * bytes) (os : list shared_op) : Prop :=
    match os with
    | [] => True
    | o :: os' => shared_allowed chunk st o /\ all_shared_allowed chunk (shared_spec_step st o) os'
    end.

  (** ** The model *)
  (** The pending contents of the context share the memory: after a store they have its bytes. *)
  Definition refresh (a : dbapp) (id : Z) (cs : list content) : dbapp :=
    match ctx_get (a_ctxs a) id with
    | Some c => with_ctxs a (ctx_set (a_ctxs a) id (with_pending c cs))
    | None => a
    end.

  Definition shared_state : Type := state * list ref_content * bytes.

  Definition shared_step (n : bytes) (st : shared_state) (o : shared_op) : outcome shared_state :=
    let '(a, s, id, rs, mem) := st in
    match o with
    | SWrite h off len k =>
      do st' <- exec_step H mv behind n (a, s, id) (OWrite h (cut mem off len) k);
      Ok (st', rs ++ [(h, off, len, k)], mem)
    | SStore off d =>
      let mem' := store mem off d in
      Ok (refresh a id (view mem' rs), s, id, rs, mem')
    | SCancel => do st' <- exec_step H mv behind n (a, s, id) OCancel; Ok (st', [], mem)
    | SCommit now => do st' <- exec_step H mv behind n (a, s, id) (OCommit now); Ok (st', rs, mem)
    | SReopen => do st' <- exec_step H mv behind n (a, s, id) OReopen; Ok (st', [], mem)
    end.

  Fixpoint shared_exec (n : bytes) (st : shared_state) (os : list shared_op) : outcome shared_state :=
    match os with
    | [] => Ok st
    | o :: os' => do st' <- shared_step n st o; shared_exec n st' os'
    end.
End WithSha.

(** New and Open in a calm directory where the name is free, then allowed operations. *)
Definition shared_session (H : bytes -> bytes) (mv : byte) (behind : bytes -> bytes)
  (a0 : dbapp) (n : bytes) (s0 : fsys) (mem : bytes) (os : list shared_op) (st : state) (mem' : bytes) : Prop :=
  good_config a0 /\ calm s0 /\ clear a0 s0 n /\ dir_get (f_dir s0) n = None /\
  all_shared_allowed H mv (a_chunk a0) ([], [], mem) os /\
  exists st0 rs, start H mv behind a0 n s0 = Ok st0 /\
    shared_exec H mv behind n (st0, [], mem) os = Ok (st, rs, mem').
