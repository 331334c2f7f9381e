(** Model of libs/databases/infrastructure/files over an explicit file system. *)
From Coq Require Import List ZArith NArith Lia Bool.
From Coq Require Import Init.Byte Strings.Byte.
From Verif Require Import Base HashModel HashTreeModel RefModel.
Import ListNotations.

(** ** The file system *)

(** What a name in the database directory stands for. *)
Inductive entry : Type :=
| EFile (ino : nat)
| EDir.

(** An open file description made by os.Open: inode, file offset, not yet closed. *)
Record handle : Type := Handle { h_ino : nat; h_pos : nat; h_open : bool }.

(** [f_dir]: names of the directory app.dirPath (the directory exists; names are plain,
    without separators, so filepath.Join is injective). [f_data]: bytes of each inode; an inode
    outlives its name. [f_handles]: open files. [f_locks]: inodes locked by flock.
    [f_faults]: one entry per future write call; [Some n] means that the call writes n bytes
    and then fails (disk full, I/O error); no entry means success. *)
Record fsys : Type := FSys {
  f_dir : list (bytes * entry);
  f_data : list bytes;
  f_handles : list handle;
  f_locks : list nat;
  f_faults : list (option nat) }.

Definition with_dir (s : fsys) d := FSys d (f_data s) (f_handles s) (f_locks s) (f_faults s).
Definition with_data (s : fsys) d := FSys (f_dir s) d (f_handles s) (f_locks s) (f_faults s).
Definition with_handles (s : fsys) h := FSys (f_dir s) (f_data s) h (f_locks s) (f_faults s).
Definition with_locks (s : fsys) l := FSys (f_dir s) (f_data s) (f_handles s) l (f_faults s).
Definition with_faults (s : fsys) f := FSys (f_dir s) (f_data s) (f_handles s) (f_locks s) f.

Fixpoint dir_get (d : list (bytes * entry)) (n : bytes) : option entry :=
  match d with
  | [] => None
  | (m, e) :: d' => if bytes_eqb m n then Some e else dir_get d' n
  end.

Definition dir_del (d : list (bytes * entry)) (n : bytes) : list (bytes * entry) :=
  filter (fun x => negb (bytes_eqb (fst x) n)) d.

Definition dir_set (d : list (bytes * entry)) (n : bytes) (e : entry) : list (bytes * entry) :=
  (n, e) :: dir_del d n.

Fixpoint set_nth {A} (l : list A) (i : nat) (x : A) : list A :=
  match l, i with
  | [], _ => []
  | _ :: l', O => x :: l'
  | y :: l', S i' => y :: set_nth l' i' x
  end.

Definition data_of (s : fsys) (i : nat) : bytes := nth i (f_data s) [].
Definition set_data (s : fsys) (i : nat) (d : bytes) : fsys := with_data s (set_nth (f_data s) i d).

(** ** System calls *)

(** os.Stat: is something there, and is it a directory. *)
Definition sys_stat (s : fsys) (n : bytes) : option entry := dir_get (f_dir s) n.

(** os.Create: O_RDWR|O_CREATE|O_TRUNC. The result is the inode. *)
Definition sys_create (n : bytes) (s : fsys) : fsys * outcome nat :=
  match dir_get (f_dir s) n with
  | Some (EFile i) => (set_data s i [], Ok i)
  | Some EDir => (s, Err)
  | None =>
    let i := length (f_data s) in
    (with_data (with_dir s (dir_set (f_dir s) n (EFile i))) (f_data s ++ [[]]), Ok i)
  end.

(** os.Open: O_RDONLY. The result is an index in the handle table.
    Simplified: opening a directory is an error here. *)
Definition sys_open (n : bytes) (s : fsys) : fsys * outcome nat :=
  match dir_get (f_dir s) n with
  | Some (EFile i) =>
    (with_handles s (f_handles s ++ [Handle i 0 true]), Ok (length (f_handles s)))
  | _ => (s, Err)
  end.

(** os.File.Close: closing twice is an error. *)
Definition sys_close (h : nat) (s : fsys) : fsys * outcome unit :=
  match nth_error (f_handles s) h with
  | Some (Handle i p true) => (with_handles s (set_nth (f_handles s) h (Handle i p false)), Ok tt)
  | _ => (s, Err)
  end.

(** os.Remove of a file. Simplified: removing a directory is an error here. *)
Definition sys_remove (n : bytes) (s : fsys) : fsys * outcome unit :=
  match dir_get (f_dir s) n with
  | Some (EFile _) => (with_dir s (dir_del (f_dir s) n), Ok tt)
  | _ => (s, Err)
  end.

(** os.Rename of a file onto a file or a free name. *)
Definition sys_rename (a b : bytes) (s : fsys) : fsys * outcome unit :=
  match dir_get (f_dir s) a, dir_get (f_dir s) b with
  | Some (EFile _), Some EDir => (s, Err)
  | Some (EFile i), _ => (with_dir s (dir_set (dir_del (f_dir s) a) b (EFile i)), Ok tt)
  | _, _ => (s, Err)
  end.

(** vendor/github.com/juju/fslock/fslock_nix.go:35-47 (TryLock) and 49-56 (open):
    opens with O_CREAT, then flock(LOCK_EX|LOCK_NB). The two calls are one step here. *)
Definition sys_trylock (n : bytes) (s : fsys) : fsys * outcome nat :=
  match dir_get (f_dir s) n with
  | Some (EFile i) =>
    if existsb (Nat.eqb i) (f_locks s) then (s, Err) else (with_locks s (i :: f_locks s), Ok i)
  | Some EDir => (s, Err)
  | None =>
    let i := length (f_data s) in
    (with_locks (with_data (with_dir s (dir_set (f_dir s) n (EFile i))) (f_data s ++ [[]]))
                (i :: f_locks s), Ok i)
  end.

(** fslock_nix.go:59-61 (Unlock): closing the descriptor releases the lock. *)
Definition sys_unlock (i : nat) (s : fsys) : fsys :=
  with_locks s (filter (fun j => negb (Nat.eqb i j)) (f_locks s)).

(** os.File.ReadAt with a buffer of [n] bytes: short reads come with io.EOF, an error;
    an empty buffer reads nothing and succeeds; a closed file or negative offset is an error. *)
Definition read_at (s : fsys) (h : nat) (n off : Z) : outcome bytes :=
  match nth_error (f_handles s) h with
  | Some (Handle i _ true) =>
    let d := data_of s i in
    if (off <? 0)%Z then Err
    else if (n =? 0)%Z then Ok []
    else if (off + n <=? zlen d)%Z then Ok (firstn (Z.to_nat n) (skipn (Z.to_nat off) d))
    else Err
  | _ => Err
  end.

(** One byte written at an offset (a hole is filled with zeros). *)
Definition put_byte (d : bytes) (off : nat) (b : byte) : bytes :=
  firstn off d ++ repeat x00 (off - length d) ++ b :: skipn (S off) d.

(** ** Programs as sequences of atomic steps on the file system
    A step reads and changes the file system at once; a crash or another process
    can come between steps. *)
Inductive prog (A : Type) : Type :=
| Ret (o : outcome A)
| Step (f : fsys -> fsys * prog A).
Arguments Ret {A} o.
Arguments Step {A} f.

(** [catch p k]: go on with [k] whatever the outcome of [p]. *)
Fixpoint catch {A B} (p : prog A) (k : outcome A -> prog B) : prog B :=
  match p with
  | Ret o => k o
  | Step f => Step (fun s => let (s', p') := f s in (s', catch p' k))
  end.

(** Go on with [k] after success; errors are returned. *)
Definition andthen {A B} (p : prog A) (k : A -> prog B) : prog B :=
  catch p (fun o => match o with Ok a => k a | Err => Ret Err | Panic => Ret Panic | Fuel => Ret Fuel end).

Notation "'let*' x <- m ; k" := (andthen m (fun x => k))
  (at level 200, x name, m at level 100, k at level 200, right associativity).

(** A program alone on the file system. *)
Fixpoint run {A} (p : prog A) (s : fsys) : fsys * outcome A :=
  match p with
  | Ret o => (s, o)
  | Step f => let (s', p') := f s in run p' s'
  end.

(** All file systems a crash can leave behind: before, between and after the steps. *)
Fixpoint states {A} (p : prog A) (s : fsys) : list fsys :=
  match p with
  | Ret _ => [s]
  | Step f => s :: (let (s', p') := f s in states p' s')
  end.

Definition call {A} (f : fsys -> fsys * outcome A) : prog A :=
  Step (fun s => let (s', o) := f s in (s', Ret o)).

(** Writing bytes one after the other; each byte is a step. *)
Fixpoint p_bytes (ino : nat) (off : nat) (d : bytes) (result : outcome unit) : prog unit :=
  match d with
  | [] => Ret result
  | b :: d' =>
    Step (fun s => (set_data s ino (put_byte (data_of s ino) off b), p_bytes ino (S off) d' result))
  end.

(** A write call at an offset; the fault list says if it fails. *)
Definition p_write (ino : nat) (off : nat) (d : bytes) : prog unit :=
  Step (fun s =>
    match f_faults s with
    | [] => (s, p_bytes ino off d (Ok tt))
    | None :: fs => (with_faults s fs, p_bytes ino off d (Ok tt))
    | Some n :: fs => (with_faults s fs, p_bytes ino off (firstn n d) Err)
    end).

(** ** The application *)

(** context.go:11-19. *)
Record ctx : Type := Ctx {
  x_id : Z; x_name : bytes; x_conn : nat; x_ref : option reference; x_off : Z; x_pending : list content }.

(** application.go:20-37: the configuration and the map of contexts. *)
Record dbapp : Type := App { a_dst : bytes; a_bck : bytes; a_chunk : Z; a_ctxs : list (Z * ctx) }.

Definition with_ctxs (a : dbapp) l := App (a_dst a) (a_bck a) (a_chunk a) l.

Fixpoint ctx_get (l : list (Z * ctx)) (id : Z) : option ctx :=
  match l with
  | [] => None
  | (i, c) :: l' => if (i =? id)%Z then Some c else ctx_get l' id
  end.

Definition ctx_del (l : list (Z * ctx)) (id : Z) : list (Z * ctx) :=
  filter (fun x => negb (fst x =? id)%Z) l.

Definition ctx_set (l : list (Z * ctx)) (id : Z) (c : ctx) : list (Z * ctx) :=
  (id, c) :: ctx_del l id.

(** application.go:523, 556, 580: name + "." + extension. *)
Definition side (n e : bytes) : bytes := n ++ x2e :: e.

(** application.go:168-174 (makeChunkSize). *)
Definition make_chunk (chunk len : Z) : Z := if (len <? chunk)%Z then len else chunk.

Section WithSha.
  Variable H : bytes -> bytes.
  Variable mv : byte.
  (** What lies in the backing array behind a slice grown by append: unknown. *)
  Variable behind : bytes -> bytes.

  (** application.go:79-87 (Exists). *)
  Definition exists_db (s : fsys) (n : bytes) : bool :=
    match sys_stat s n with Some (EFile _) => true | _ => false end.

  (** application.go:90-111 (New). The directory is there already. *)
  Definition new_db (n : bytes) (s : fsys) : fsys * outcome unit :=
    match sys_stat s n with
    | Some _ => (s, Err)
    | None => let (s', o) := sys_create n s in (s', do _ <- o; Ok tt)
    end.

  (** application.go:114-127 (Delete). *)
  Definition delete_db (n : bytes) (s : fsys) : fsys * outcome unit :=
    match sys_stat s n with
    | None => (s, Err)
    | Some EDir => (s, Err)
    | Some (EFile _) => sys_remove n s
    end.

  (** application.go:209-223: reading the reference in chunks; [k] counts the iterations left,
      the last one reads [last] bytes. [d] are the bytes of the file.
      make([]byte, n) panics for negative n. Returns the bytes and the new offset. *)
  Fixpoint read_chunks (d : bytes) (k : nat) (chunk last : Z) (off : Z) : outcome (bytes * Z) :=
    match k with
    | O => Ok ([], off)
    | S k' =>
      let n := if Nat.eqb k 1 then last else chunk in
      if (n <? 0)%Z then Panic
      else
        do b <- (if (n =? 0)%Z then Ok []
                 else if (off + n <=? zlen d)%Z then Ok (firstn (Z.to_nat n) (skipn (Z.to_nat off) d))
                 else Err);
        do r <- read_chunks d k' chunk last (off + n);
        Ok (b ++ fst r, snd r)
    end.

  (** application.go:176-232 (retrieveReference) on the bytes of the file.
      A file of less than 8 bytes has no reference. Integer division by zero panics.
      The number of chunks is clipped to the file's size + 2: if it is more,
      one of the reads goes past the end of the file and fails (read_chunks_clip). *)
  Definition retrieve_reference (chunk : Z) (d : bytes) : outcome (option reference * Z) :=
    if (zlen d <? 8)%Z then Ok (None, 0%Z)
    else
      let len := i64 (unle (firstn 8 d)) in
      let size := i64 (make_chunk chunk (u64 len)) in
      if (size =? 0)%Z then Panic
      else
        let amount := (Z.quot len size + 1)%Z in
        let last := (len - size * (amount - 1))%Z in
        do r <- read_chunks d (Z.to_nat (Z.min amount (zlen d + 2))) size last 8;
        do ref <- reference_of_content H mv (GSlice (fst r) (behind (fst r)));
        Ok (Some ref, u64 (snd r)).

  (** application.go:130-166 (Open). *)
  Definition open_db (n : bytes) (a : dbapp) (s : fsys) : fsys * dbapp * outcome Z :=
    if existsb (fun x => bytes_eqb (x_name (snd x)) n) (a_ctxs a) then (s, a, Err)
    else
      match dir_get (f_dir s) n with
      | Some (EFile i) =>
        match retrieve_reference (a_chunk a) (data_of s i) with
        | Ok (ref, off) =>
          match sys_open n s with
          | (s', Ok h) =>
            let id := zlen (a_ctxs a) in
            let c := Ctx id n h ref off [] in
            (s', with_ctxs a (ctx_set (a_ctxs a) id c), Ok id)
          | (s', _) => (s', a, Err)
          end
        | Err => (s, a, Err)
        | Panic => (s, a, Panic)
        | Fuel => (s, a, Fuel)
        end
      | _ => (s, a, Err)
      end.

  (** application.go:250-262 (contentKeys). *)
  Definition content_keys (a : dbapp) (id : Z) : outcome (list content_key) :=
    match ctx_get (a_ctxs a) id with
    | None => Err
    | Some c => match x_ref c with None => Err | Some r => Ok (r_keys r) end
    end.

  (** application.go:235-248 (ContentKeysByKind). *)
  Definition content_keys_by_kind (a : dbapp) (id kind : Z) : outcome (list content_key) :=
    do ks <- content_keys a id;
    keys_now (keys_by_kind ks kind).

  (** application.go:275-287 (Commits). *)
  Definition commits_db (a : dbapp) (id : Z) : outcome (list commit) :=
    match ctx_get (a_ctxs a) id with
    | None => Err
    | Some c => match x_ref c with None => Err | Some r => Ok (r_commits r) end
    end.

  (** application.go:265-272 (CommitByHash). *)
  Definition commit_by_hash (a : dbapp) (id : Z) (h : bytes) : outcome commit :=
    do cs <- commits_db a id; commits_fetch cs h.

  (** application.go:290-310 (Read). make([]byte, n) panics when n does not fit an int;
      other sizes can be allocated. *)
  Definition read_db (a : dbapp) (s : fsys) (id : Z) (p : pointer) : outcome bytes :=
    match ctx_get (a_ctxs a) id with
    | None => Err
    | Some c =>
      if (two63 <=? p_length p)%Z then Panic
      else read_at s (x_conn c) (p_length p) (i64 (u64 (x_off c + p_from p)))
    end.

  (** application.go:313-329 (ReadByHash). *)
  Definition read_by_hash (a : dbapp) (s : fsys) (id : Z) (h : bytes) : outcome bytes :=
    do ks <- content_keys a id;
    do k <- keys_fetch ks h;
    read_db a s id (k_content k).

  (** application.go:332-344 (ReadAll). *)
  Fixpoint read_all (a : dbapp) (s : fsys) (id : Z) (ps : list pointer) : outcome (list bytes) :=
    match ps with
    | [] => Ok []
    | p :: ps' =>
      do b <- read_db a s id p;
      do r <- read_all a s id ps';
      Ok (b :: r)
    end.

  (** application.go:347-359 (ReadAllByHashes). *)
  Fixpoint read_all_by_hashes (a : dbapp) (s : fsys) (id : Z) (hs : list bytes) : outcome (list bytes) :=
    match hs with
    | [] => Ok []
    | h :: hs' =>
      do b <- read_by_hash a s id h;
      do r <- read_all_by_hashes a s id hs';
      Ok (b :: r)
    end.

  Definition with_pending (c : ctx) l :=
    Ctx (x_id c) (x_name c) (x_conn c) (x_ref c) (x_off c) l.

  (** application.go:362-376 (Write). *)
  Definition write_db (a : dbapp) (id : Z) (h data : bytes) (kind : Z) : dbapp * outcome unit :=
    match ctx_get (a_ctxs a) id with
    | None => (a, Err)
    | Some c =>
      match content_now h data kind with
      | Ok ct => (with_ctxs a (ctx_set (a_ctxs a) id (with_pending c (x_pending c ++ [ct]))), Ok tt)
      | _ => (a, Err)
      end
    end.

  (** application.go:379-388 (Cancel). *)
  Definition cancel_db (a : dbapp) (id : Z) : dbapp * outcome unit :=
    match ctx_get (a_ctxs a) id with
    | None => (a, Err)
    | Some c => (with_ctxs a (ctx_set (a_ctxs a) id (with_pending c [])), Ok tt)
    end.

  (** application.go:461-486: the keys of the pending contents. *)
  Fixpoint pending_keys (commit_hash : bytes) (offset : Z) (l : list content) : outcome (list content_key) :=
    match l with
    | [] => Ok []
    | c :: l' =>
      do p <- pointer_now (u64 offset) (u64 (zlen (ct_data c)));
      do r <- pending_keys commit_hash (i64 (offset + zlen (ct_data c))) l';
      Ok (ContentKey (ct_hash c) (ct_kind c) p commit_hash :: r)
    end.

  (** application.go:416-501 (updateReference); [now] is the clock (UnixNano).
      The lists got from List() are only appended to behind their length. *)
  Definition update_reference (c : ctx) (now : Z) : outcome reference :=
    do parent <- match x_ref c with
                 | Some r => do l <- commits_latest (r_commits r); Ok (Some (c_hash l))
                 | None => Ok None
                 end;
    do values <- build_tree H (Some (map ct_hash (x_pending c)));
    let commit := commit_now H mv values now parent None in
    do commits <- commits_now ((match x_ref c with Some r => r_commits r | None => [] end) ++ [commit]);
    let offset := match x_ref c with Some r => keys_next (r_keys r) | None => 0%Z end in
    do new <- pending_keys (c_hash commit) offset (x_pending c);
    do keys <- keys_now ((match x_ref c with Some r => r_keys r | None => [] end) ++ new);
    Ok (Reference keys commits).

  (** application.go:658-670 (referenceToContent). *)
  Definition reference_to_content (r : reference) : bytes :=
    put_u64 (zlen (reference_content r)) ++ reference_content r.

  (** application.go:617-639: copying the old data, chunk after chunk, until a read fails
      (the end of the file, or a last chunk that is too short). Returns the write offset.
      A failed write leaves the loop as well. *)
  Fixpoint copy_loop (fuel : nat) (conn : nat) (chunk roff : Z) (dst woff : nat) : prog nat :=
    match fuel with
    | O => Ret Fuel
    | S fuel' =>
      Step (fun s =>
        (s, match read_at s conn chunk roff with
            | Ok b =>
              catch (p_write dst woff b) (fun o =>
                match o with
                | Ok _ => copy_loop fuel' conn chunk (roff + zlen b) dst (woff + length b)
                | _ => Ret (Ok woff)
                end)
            | _ => Ret (Ok woff)
            end))
    end.

  (** application.go:643-652: writing the pending contents; a failed write ends the loop
      and is not reported. *)
  Fixpoint write_pending (dst woff : nat) (l : list content) : prog unit :=
    match l with
    | [] => Ret (Ok tt)
    | c :: l' =>
      catch (p_write dst woff (ct_data c)) (fun o =>
        match o with
        | Ok _ => write_pending dst (woff + length (ct_data c)) l'
        | _ => Ret (Ok tt)
        end)
    end.

  (** application.go:578-656 (writeDataAndReferenceOnDestinationFile).
      Stat gives the current size of the open file. *)
  Definition write_destination (fuel : nat) (a : dbapp) (c : ctx) (r : reference) : prog Z :=
    let* dst <- call (sys_create (side (x_name c) (a_dst a)));
    let ref_data := reference_to_content r in
    let* _ <- p_write dst 0 ref_data;
    let* woff <-
      match x_ref c with
      | None => Ret (Ok (length ref_data))
      | Some _ =>
        let* size <- call (fun s => (s,
          match nth_error (f_handles s) (x_conn c) with
          | Some (Handle i _ true) => Ok (zlen (data_of s i))
          | _ => Panic
          end));
        let chunk := make_chunk (a_chunk a) (u64 (size - x_off c)) in
        if (two63 <=? chunk)%Z then Ret Panic
        else copy_loop fuel (x_conn c) chunk (x_off c) dst (length ref_data)
      end;
    let* _ <- write_pending dst woff (x_pending c);
    Ret (Ok (zlen ref_data)).

  (** io.Copy(backup, pConn), application.go:532: the bytes from the file offset to the end.
      Simplified: the source is read at once. *)
  Definition p_copy (bck conn : nat) : prog unit :=
    let* d <- call (fun s =>
      match nth_error (f_handles s) conn with
      | Some (Handle i p true) =>
        let d := skipn p (data_of s i) in
        (with_handles s (set_nth (f_handles s) conn (Handle i (p + length d) true)), Ok d)
      | _ => (s, Err)
      end);
    match d with
    | [] => Ret (Ok tt)
    | _ => p_write bck 0 d
    end.

  (** application.go:513-547: updateDatabaseOnFile after the lock, up to closing the source. *)
  Definition prepare_files (fuel : nat) (a : dbapp) (c : ctx) (r : reference) : prog Z :=
    let* off <- write_destination fuel a c r;
    let* bck <- call (sys_create (side (x_name c) (a_bck a)));
    let* _ <- p_copy bck (x_conn c);
    let* _ <- call (sys_close (x_conn c));
    Ret (Ok off).

  (** application.go:549-575: the rest of it, changing the directory. *)
  Definition replace_files (a : dbapp) (c : ctx) (off : Z) : prog (nat * Z) :=
    let* _ <- call (sys_remove (x_name c));
    let* _ <- call (sys_rename (side (x_name c) (a_dst a)) (x_name c));
    let* _ <- call (sys_remove (side (x_name c) (a_bck a)));
    let* conn <- call (sys_open (x_name c));
    Ret (Ok (conn, off)).

  Definition swap_files (fuel : nat) (a : dbapp) (c : ctx) (r : reference) : prog (nat * Z) :=
    let* off <- prepare_files fuel a c r;
    replace_files a c off.

  (** application.go:503-576 (updateDatabaseOnFile): lock, swap, unlock in any case. *)
  Definition update_database (fuel : nat) (a : dbapp) (c : ctx) (r : reference) : prog (nat * Z) :=
    let* lock <- call (sys_trylock (x_name c));
    catch (swap_files fuel a c r) (fun o =>
      Step (fun s => (sys_unlock lock s, Ret o))).

  (** application.go:391-414 (Commit). The pending list of the context is kept as it is.
      [fuel] bounds the copy loop. *)
  Definition commit_fuel (fuel : nat) (now : Z) (a : dbapp) (s : fsys) (id : Z) : fsys * dbapp * outcome unit :=
    match ctx_get (a_ctxs a) id with
    | None => (s, a, Err)
    | Some c =>
      match update_reference c now with
      | Ok r =>
        match run (update_database fuel a c r) s with
        | (s', Ok (conn, off)) =>
          let c' := Ctx (x_id c) (x_name c) conn (Some r) off (x_pending c) in
          (s', with_ctxs a (ctx_set (a_ctxs a) id c'), Ok tt)
        | (s', Err) => (s', a, Err)
        | (s', Panic) => (s', a, Panic)
        | (s', Fuel) => (s', a, Fuel)
        end
      | Err => (s, a, Err)
      | Panic => (s, a, Panic)
      | Fuel => (s, a, Fuel)
      end
    end.

  (** The size of the file that a context reads: enough fuel for the copy loop,
      which advances by at least one byte unless the chunk size is zero. *)
  Definition conn_size (s : fsys) (c : ctx) : nat :=
    match nth_error (f_handles s) (x_conn c) with
    | Some h => length (data_of s (h_ino h))
    | None => 0
    end.

  (** application.go:391-414 (Commit). *)
  Definition commit_db (now : Z) (a : dbapp) (s : fsys) (id : Z) : fsys * dbapp * outcome unit :=
    commit_fuel (match ctx_get (a_ctxs a) id with Some c => S (conn_size s c) | None => 0 end) now a s id.

  (** The file systems that a crash during Commit can leave behind, in order. *)
  Definition commit_states (now : Z) (a : dbapp) (s : fsys) (id : Z) : list fsys :=
    match ctx_get (a_ctxs a) id with
    | None => [s]
    | Some c =>
      match update_reference c now with
      | Ok r => states (update_database (S (conn_size s c)) a c r) s
      | _ => [s]
      end
    end.

  (** application.go:700-713 (Close). *)
  Definition close_db (a : dbapp) (s : fsys) (id : Z) : fsys * dbapp * outcome unit :=
    match ctx_get (a_ctxs a) id with
    | None => (s, a, Err)
    | Some c =>
      match sys_close (x_conn c) s with
      | (s', Ok _) => (s', with_ctxs a (ctx_del (a_ctxs a) id), Ok tt)
      | (s', _) => (s', a, Err)
      end
    end.
End WithSha.
