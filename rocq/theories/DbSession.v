(** Sessions of a user on one database: what the operations do to the history. *)
From Coq Require Import List ZArith NArith Lia Bool.
From Coq Require Import Init.Byte Strings.Byte.
From Verif Require Import Base HashModel HashTreeModel RefModel SpecRef DbModel SpecDb.
Import ListNotations.

(** What a user can do with an open database. [OReopen] closes it and opens it again in
    a new application with the same configuration. *)
Inductive op : Type :=
| OWrite (h data : bytes) (kind : Z)
| OCancel
| OCommit (now : Z)
| OReopen.

(** The specification: committed batches and pending contents. The pending contents
    stay pending after a commit. *)
Definition spec_step (st : list batch * list content) (o : op) : list batch * list content :=
  match o with
  | OWrite h d k => (fst st, snd st ++ [Content h d k])
  | OCancel => (fst st, [])
  | OCommit now => (fst st ++ [(snd st, now)], snd st)
  | OReopen => (fst st, [])
  end.

Definition spec_run (st : list batch * list content) (os : list op) : list batch * list content :=
  fold_left spec_step os st.

Section WithSha.
  Variable H : bytes -> bytes.
  Variable mv : byte.
  Variable behind : bytes -> bytes.

  (** The steps that stay within the limits of the format: 64-byte hashes, non-empty data,
      a commit of something, files below 2^63 bytes, old data that the copy loop keeps. *)
  Definition allowed (chunk : Z) (st : list batch * list content) (o : op) : Prop :=
    match o with
    | OWrite h d k => length h = 64 /\ d <> [] /\ (0 <= k < two64)%Z
    | OCancel => True
    | OCommit now =>
      snd st <> [] /\ (- two63 <= now < two63)%Z /\
      fits H mv (fst st ++ [(snd st, now)]) /\ chunk_ok chunk (history_data (fst st))
    | OReopen => True
    end.

  Fixpoint all_allowed (chunk : Z) (st : list batch * list content) (os : list op) : Prop :=
    match os with
    | [] => True
    | o :: os' => allowed chunk st o /\ all_allowed chunk (spec_step st o) os'
    end.

  (** The model's side. *)
  Definition state : Type := dbapp * fsys * Z.

  Definition exec_step (n : bytes) (st : state) (o : op) : outcome state :=
    let '(a, s, id) := st in
    match o with
    | OWrite h d k => let (a', r) := write_db a id h d k in do _ <- r; Ok (a', s, id)
    | OCancel => let (a', r) := cancel_db a id in do _ <- r; Ok (a', s, id)
    | OCommit now => let '(s', a', r) := commit_db H mv now a s id in do _ <- r; Ok (a', s', id)
    | OReopen =>
      let '(s', a', r) := close_db a s id in
      do _ <- r;
      let '(s'', a'', r') := open_db H mv behind n (with_ctxs a' []) s' in
      do id' <- r'; Ok (a'', s'', id')
    end.

  Fixpoint exec (n : bytes) (st : state) (os : list op) : outcome state :=
    match os with
    | [] => Ok st
    | o :: os' => do st' <- exec_step n st o; exec n st' os'
    end.

  (** New and then Open in a new application. *)
  Definition start (a : dbapp) (n : bytes) (s : fsys) : outcome state :=
    let (s', r) := new_db n s in
    do _ <- r;
    let '(s'', a'', r') := open_db H mv behind n (with_ctxs a []) s' in
    do id <- r'; Ok (a'', s'', id).

  (** What a user sees of a database with the history [bs] in context [id]. *)
  Definition shows (st : state) (bs : list batch) : Prop :=
    let '(a, s, id) := st in
    (exists cs, commits_db a id = match bs with [] => Err | _ => Ok cs end /\ linked H None bs cs) /\
    (exists keys,
       Forall2 (fun ct k => k_hash k = ct_hash ct /\ k_kind k = ct_kind ct /\
                            read_db a s id (k_content k) = Ok (ct_data ct))
               (history_contents bs) keys /\
       (forall kind sel, selects (fun k => k_kind k = kind) keys sel ->
          content_keys_by_kind a id kind = match sel with [] => Err | _ => Ok sel end)) /\
    (forall h ct, last_such (fun c => ct_hash c = h) (history_contents bs) ct ->
       read_by_hash a s id h = Ok (ct_data ct)) /\
    (forall h, Forall (fun c => ct_hash c <> h) (history_contents bs) -> read_by_hash a s id h = Err).
End WithSha.

(** A file system in which a new database can be made: no other process holds locks,
    writes do not fail, names stand for existing and different inodes. *)
Definition calm (s : fsys) : Prop :=
  (forall n i, dir_get (f_dir s) n = Some (EFile i) -> i < length (f_data s)) /\
  (forall n m i, dir_get (f_dir s) n = Some (EFile i) -> dir_get (f_dir s) m = Some (EFile i) -> n = m) /\
  f_faults s = [] /\ f_locks s = [].

(** No directory is in the way of the database's files. *)
Definition clear (a : dbapp) (s : fsys) (n : bytes) : Prop :=
  dir_get (f_dir s) (side n (a_dst a)) <> Some EDir /\
  dir_get (f_dir s) (side n (a_bck a)) <> Some EDir.

(** The configuration: two different extensions and a chunk size that is not zero. *)
Definition good_config (a : dbapp) : Prop := a_dst a <> a_bck a /\ (0 < a_chunk a)%Z.

(** A session: New and Open of the name [n] in a calm directory where it is free, then
    allowed operations; [st] is the state reached. *)
Definition session (H : bytes -> bytes) (mv : byte) (behind : bytes -> bytes)
  (a0 : dbapp) (n : bytes) (s0 : fsys) (os : list op) (st : state) : Prop :=
  good_config a0 /\ calm s0 /\ clear a0 s0 n /\ dir_get (f_dir s0) n = None /\
  all_allowed H mv (a_chunk a0) ([], []) os /\
  exists st0, start H mv behind a0 n s0 = Ok st0 /\ exec H mv behind n st0 os = Ok st.

(** What the specification says of it. *)
Definition committed (os : list op) : list batch := fst (spec_run ([], []) os).
Definition pending (os : list op) : list content := snd (spec_run ([], []) os).

(** ** Several databases in one application *)
Section Several.
  Variable H : bytes -> bytes.
  Variable mv : byte.
  Variable behind : bytes -> bytes.

  (** New and Open of each name, in this order. *)
  Fixpoint start_all (a : dbapp) (s : fsys) (names : list bytes) : outcome (dbapp * fsys) :=
    match names with
    | [] => Ok (a, s)
    | n :: ns =>
      let (s1, r) := new_db n s in
      do _ <- r;
      let '(s2, a2, r2) := open_db H mv behind n a s1 in
      do _ <- r2; start_all a2 s2 ns
    end.

  (** The context of the k-th name is k. *)
  Fixpoint position (names : list bytes) (n : bytes) : Z :=
    match names with
    | [] => 0%Z
    | m :: ms => if bytes_eqb m n then 0%Z else (1 + position ms n)%Z
    end.

  (** Operations on the databases, in any order; each one is sent to the context of its name. *)
  Fixpoint exec_all (ids : bytes -> Z) (a : dbapp) (s : fsys) (os : list (bytes * op)) : outcome (dbapp * fsys) :=
    match os with
    | [] => Ok (a, s)
    | (n, o) :: os' =>
      do st <- exec_step H mv behind n (a, s, ids n) o;
      exec_all ids (fst (fst st)) (snd (fst st)) os'
    end.

  (** The specification: each database follows its own operations. *)
  Definition ops_on (n : bytes) (os : list (bytes * op)) : list op :=
    map snd (filter (fun x => bytes_eqb (fst x) n) os).

  (** The names do not collide with each other or with the side files. *)
  Definition separate (a : dbapp) (names : list bytes) : Prop :=
    NoDup names /\
    forall n m, In n names -> In m names -> n <> side m (a_dst a) /\ n <> side m (a_bck a).
End Several.
