(** Model of the file descriptors of a process whose goroutines share one application. *)
From Coq Require Import List ZArith NArith Lia Bool.
From Coq Require Import Init.Byte Strings.Byte.
From Verif Require Import Base HashModel HashTreeModel RefModel DbModel DbConcurrent DbThreads.
Import ListNotations.

(** ** Descriptors
    What a descriptor number stands for: an open file of some inode. [d_handle]: the open file of [f_handles], if it was
    opened with os.Open. [d_lock]: flock was called on it. *)
Record desc : Type := Desc { d_ino : nat; d_handle : option nat; d_lock : bool }.

(** [q_table]: the descriptor table of the process, by number. [q_files]: the number inside each os.File made by
    os.Open and not closed with Close. [q_locks]: the field fd of the Lock of each context of the heap
    (fslock_nix.go:15-18; context.go:11-19 has one Lock for a context). *)
Record proc : Type := Proc {
  q_mem : mem; q_table : list (option desc); q_files : list (nat * nat); q_locks : list (nat * nat) }.

Definition on_mem (q : proc) (m : mem) : proc := Proc m (q_table q) (q_files q) (q_locks q).
Definition on_files (q : proc) (s : fsys) : proc := on_mem q (on_fs (q_mem q) s).
Definition with_table (q : proc) t : proc := Proc (q_mem q) t (q_files q) (q_locks q).
Definition with_files (q : proc) l : proc := Proc (q_mem q) (q_table q) l (q_locks q).
Definition with_fds (q : proc) l : proc := Proc (q_mem q) (q_table q) (q_files q) l.

Fixpoint num_get (l : list (nat * nat)) (i : nat) : option nat :=
  match l with
  | [] => None
  | (j, k) :: l' => if Nat.eqb j i then Some k else num_get l' i
  end.
Definition num_del (l : list (nat * nat)) (i : nat) : list (nat * nat) := filter (fun x => negb (Nat.eqb (fst x) i)) l.

(** What a number stands for now. *)
Definition fd_get (t : list (option desc)) (k : nat) : option desc :=
  match nth_error t k with Some (Some d) => Some d | _ => None end.

(** A new descriptor gets the lowest number that is free (POSIX). *)
Fixpoint lowest (t : list (option desc)) : nat :=
  match t with
  | Some _ :: t' => S (lowest t')
  | _ => 0
  end.
Definition fd_put (t : list (option desc)) (k : nat) (d : desc) : list (option desc) :=
  if k <? length t then set_nth t k (Some d) else t ++ [Some d].
Definition take (q : proc) (d : desc) : proc * nat :=
  (with_table q (fd_put (q_table q) (lowest (q_table q)) d), lowest (q_table q)).

Definition shut (h : nat) (s : fsys) : fsys := fst (sys_close h s).

(** close(2) of a number: EBADF if it is free. The lock goes with the descriptor. *)
Definition drop_number (k : nat) (q : proc) : proc * outcome unit :=
  match fd_get (q_table q) k with
  | None => (q, Err)
  | Some d =>
    let s := m_fs (q_mem q) in
    let s1 := match d_handle d with Some h => shut h s | None => s end in
    let s2 := if d_lock d then sys_unlock (d_ino d) s1 else s1 in
    (on_files (with_table q (set_nth (q_table q) k None)) s2, Ok tt)
  end.

(** ** Programs *)
Inductive dprog (A : Type) : Type :=
| DRet (o : outcome A)
| DStep (f : proc -> proc * dprog A).
Arguments DRet {A} o.
Arguments DStep {A} f.

Fixpoint d_catch {A B} (p : dprog A) (k : outcome A -> dprog B) : dprog B :=
  match p with
  | DRet o => k o
  | DStep f => DStep (fun q => let (q', p') := f q in (q', d_catch p' k))
  end.
Definition d_then {A B} (p : dprog A) (k : A -> dprog B) : dprog B :=
  d_catch p (fun o => match o with Ok a => k a | Err => DRet Err | Panic => DRet Panic | Fuel => DRet Fuel end).
Notation "'d*' x <- m ; k" := (d_then m (fun x => k))
  (at level 200, x name, m at level 100, k at level 200, right associativity).

Fixpoint d_run {A} (p : dprog A) (q : proc) : proc * outcome A :=
  match p with
  | DRet o => (q, o)
  | DStep f => let (q', p') := f q in d_run p' q'
  end.

Definition d_call {A} (f : proc -> proc * outcome A) : dprog A :=
  DStep (fun q => let (q', o) := f q in (q', DRet o)).

(** Steps that open and close nothing. *)
Fixpoint d_lift {A} (p : gprog A) : dprog A :=
  match p with
  | GRet o => DRet o
  | GStep f => DStep (fun q => let (m', p') := f (q_mem q) in (on_mem q m', d_lift p'))
  end.

(** os.Open *)
Definition d_open_file (n : bytes) : dprog nat :=
  d_call (fun q =>
    match sys_open n (m_fs (q_mem q)) with
    | (s', Ok h) =>
      let i := match nth_error (f_handles s') h with Some x => h_ino x | None => 0 end in
      let (q1, k) := take (on_files q s') (Desc i (Some h) false) in
      (with_files q1 ((h, k) :: q_files q1), Ok h)
    | (s', _) => (on_files q s', Err)
    end).

(** os.Create: the inode and the number. *)
Definition d_create (n : bytes) : dprog (nat * nat) :=
  d_call (fun q =>
    match sys_create n (m_fs (q_mem q)) with
    | (s', Ok i) => let (q1, k) := take (on_files q s') (Desc i None false) in (q1, Ok (i, k))
    | (s', _) => (on_files q s', Err)
    end).

(** os.File.Close of a file made by os.Open: an error the second time; else close(2) of its number, whatever that
    stands for now. *)
Definition d_close_file (h : nat) : dprog unit :=
  d_call (fun q =>
    match num_get (q_files q) h with
    | None => (q, Err)
    | Some k => drop_number k (with_files q (num_del (q_files q) h))
    end).

Definition d_close_number (k : nat) : dprog unit := d_call (drop_number k).

(** fslock_nix.go:49-56 (open): open(2) with O_CREAT, and then the field fd is set, in two steps. *)
Definition d_open_lock (n : bytes) : dprog nat :=
  d_call (fun q =>
    let s := m_fs (q_mem q) in
    match dir_get (f_dir s) n with
    | Some (EFile i) => let (q1, k) := take q (Desc i None false) in (q1, Ok k)
    | Some EDir => (q, Err)
    | None =>
      let i := length (f_data s) in
      let s' := with_data (with_dir s (dir_set (f_dir s) n (EFile i))) (f_data s ++ [[]]) in
      let (q1, k) := take (on_files q s') (Desc i None false) in (q1, Ok k)
    end).
Definition d_set_lock (p k : nat) : dprog unit := d_call (fun q => (with_fds q ((p, k) :: num_del (q_locks q) p), Ok tt)).

(** The field fd of the lock of a context; it is 0 at first. *)
Definition lock_number (q : proc) (p : nat) : nat := match num_get (q_locks q) p with Some k => k | None => 0 end.

(** flock(l.fd, LOCK_EX|LOCK_NB): the file may be locked through another descriptor.
    Simplified: the field is read and the call is made in one step. *)
Definition d_flock (p : nat) : dprog unit :=
  d_call (fun q =>
    let k := lock_number q p in
    match fd_get (q_table q) k with
    | None => (q, Err)
    | Some d =>
      let s := m_fs (q_mem q) in
      if d_lock d then (q, Ok tt)
      else if existsb (Nat.eqb (d_ino d)) (f_locks s) then (q, Err)
      else (on_files (with_table q (set_nth (q_table q) k (Some (Desc (d_ino d) (d_handle d) true))))
                     (with_locks s (d_ino d :: f_locks s)), Ok tt)
    end).

(** close(l.fd) *)
Definition d_close_lock (p : nat) : dprog unit := d_call (fun q => drop_number (lock_number q p) q).

(** fslock_nix.go:35-47 (TryLock): the descriptor is closed if the lock is refused. *)
Definition d_trylock (p : nat) (n : bytes) : dprog unit :=
  d* k <- d_open_lock n;
  d* _ <- d_set_lock p k;
  d_catch (d_flock p) (fun o =>
    match o with
    | Ok _ => DRet (Ok tt)
    | _ => d_catch (d_close_lock p) (fun _ => DRet Err)
    end).

(** ** Reading through a number *)
(** pread(2) on the number of an os.File: an error if the os.File is closed or the number is free; else the file that
    the number stands for now. *)
Definition pread (q : proc) (conn : nat) (n off : Z) : outcome bytes :=
  match num_get (q_files q) conn with
  | None => Err
  | Some k =>
    match fd_get (q_table q) k with
    | Some (Desc _ (Some h) _) => read_at (m_fs (q_mem q)) h n off
    | Some (Desc i None _) =>
      let d := data_of (m_fs (q_mem q)) i in
      if (off <? 0)%Z then Err
      else if (n =? 0)%Z then Ok []
      else if (off + n <=? zlen d)%Z then Ok (firstn (Z.to_nat n) (skipn (Z.to_nat off) d)) else Err
    | None => if (off <? 0)%Z then Err else if (n =? 0)%Z then Ok [] else Err
    end
  end.
Definition d_pread (conn : nat) (n off : Z) : dprog bytes := d_call (fun q => (q, pread q conn n off)).

(** application.go:615: Stat through the number; its error is dropped and the nil FileInfo is used. *)
Definition d_size (conn : nat) : dprog Z :=
  d_call (fun q => (q,
    match num_get (q_files q) conn with
    | None => Panic
    | Some k => match fd_get (q_table q) k with Some d => Ok (zlen (data_of (m_fs (q_mem q)) (d_ino d))) | None => Panic end
    end)).

(** application.go:532, io.Copy from the connection, as [p_copy], through the number.
    Simplified: an open file that os.Open did not make is read from its start. *)
Definition d_copy (bck conn : nat) : dprog unit :=
  d* d <- d_call (fun q =>
    let s := m_fs (q_mem q) in
    match num_get (q_files q) conn with
    | None => (q, Err)
    | Some k =>
      match fd_get (q_table q) k with
      | None => (q, Err)
      | Some (Desc i None _) => (q, Ok (data_of s i))
      | Some (Desc _ (Some h) _) =>
        match nth_error (f_handles s) h with
        | Some (Handle i p true) =>
          let d := skipn p (data_of s i) in
          (on_files q (with_handles s (set_nth (f_handles s) h (Handle i (p + length d) true))), Ok d)
        | _ => (q, Err)
        end
      end
    end);
  match d with
  | [] => DRet (Ok tt)
  | _ => d_lift (lift (p_write bck 0 d))
  end.

Section WithSha.
  Variable H : bytes -> bytes.
  Variable mv : byte.
  Variable behind : bytes -> bytes.
  Variable a : dbapp.

  (** application.go:617-639: the connection is read in each round, as [g_copy_loop]. *)
  Fixpoint d_copy_loop (fuel : nat) (p : nat) (chunk roff : Z) (dst woff : nat) : dprog nat :=
    match fuel with
    | O => DRet Fuel
    | S fuel' =>
      d* conn <- d_lift (g_field p x_conn);
      d_catch (d_pread conn chunk roff) (fun o =>
        match o with
        | Ok b =>
          d_catch (d_lift (lift (p_write dst woff b))) (fun o' =>
            match o' with
            | Ok _ => d_copy_loop fuel' p chunk (roff + zlen b) dst (woff + length b)
            | _ => DRet (Ok woff)
            end)
        | _ => DRet (Ok woff)
        end)
    end.

  (** application.go:592-655: what is written on the destination file, as [g_write_destination] after os.Create. *)
  Definition d_fill (fuel : nat) (p : nat) (r : reference) (dst : nat) : dprog Z :=
    let ref_data := reference_to_content r in
    d* _ <- d_lift (lift (p_write dst 0 ref_data));
    d* roff <- d_lift (g_field p x_off);
    d* seen <- d_lift (g_field p x_ref);
    d* woff <-
      match seen with
      | None => DRet (Ok (length ref_data))
      | Some _ =>
        d* conn <- d_lift (g_field p x_conn);
        d* size <- d_size conn;
        d* off <- d_lift (g_field p x_off);
        let chunk := make_chunk (a_chunk a) (u64 (size - off)) in
        if (two63 <=? chunk)%Z then DRet Panic
        else d_copy_loop fuel p chunk roff dst (length ref_data)
      end;
    d* pending <- d_lift (g_field p x_pending);
    d* _ <- d_lift (lift (write_pending dst woff pending));
    DRet (Ok (zlen ref_data)).

  (** application.go:578-656 (writeDataAndReferenceOnDestinationFile): the file is closed in any case. *)
  Definition d_write_destination (fuel : nat) (p : nat) (r : reference) : dprog Z :=
    d* name <- d_lift (g_field p x_name);
    d* x <- d_create (side name (a_dst a));
    d_catch (d_fill fuel p r (fst x)) (fun o => d_catch (d_close_number (snd x)) (fun _ => DRet o)).

  (** application.go:513-547: the backup file stays open if the copy fails. *)
  Definition d_prepare_files (fuel : nat) (p : nat) (name : bytes) (r : reference) : dprog Z :=
    d* off <- d_write_destination fuel p r;
    d* bck <- d_create (side name (a_bck a));
    d* conn <- d_lift (g_field p x_conn);
    d* _ <- d_copy (fst bck) conn;
    d* _ <- d_close_number (snd bck);
    d* conn' <- d_lift (g_field p x_conn);
    d* _ <- d_close_file conn';
    DRet (Ok off).

  (** application.go:549-575. *)
  Definition d_replace_files (name : bytes) (off : Z) : dprog (nat * Z) :=
    d* _ <- d_lift (lift (call (sys_remove name)));
    d* _ <- d_lift (lift (call (sys_rename (side name (a_dst a)) name)));
    d* _ <- d_lift (lift (call (sys_remove (side name (a_bck a)))));
    d* new <- d_open_file name;
    DRet (Ok (new, off)).

  (** application.go:503-576 (updateDatabaseOnFile): Unlock is close(l.fd), in any case (fslock_nix.go:59-61). *)
  Definition d_update_database (fuel : nat) (p : nat) (r : reference) : dprog (nat * Z) :=
    d* name <- d_lift (g_field p x_name);
    d* _ <- d_trylock p name;
    d_catch (d* off <- d_prepare_files fuel p name r; d_replace_files name off)
      (fun o => d_catch (d_close_lock p) (fun _ => DRet o)).

  (** application.go:391-414 (Commit). *)
  Definition d_commit (fuel : nat) (now : Z) (id : Z) : dprog unit :=
    d* r <- d_lift (g_update_reference H mv id now);
    d* p <- d_lift (g_find id);
    d* x <- d_update_database fuel p r;
    d* _ <- d_lift (g_assign id (set_ref r));
    d* _ <- d_lift (g_assign id (set_off (snd x)));
    d_lift (g_assign id (set_conn (fst x))).

  (** application.go:290-310 (Read): pread(2) on the number of the connection. *)
  Definition d_read (id : Z) (ptr : pointer) : dprog bytes :=
    d* p <- d_lift (g_find id);
    d* off <- d_lift (g_field p x_off);
    if (two63 <=? p_length ptr)%Z then DRet Panic
    else
      d* conn <- d_lift (g_field p x_conn);
      d_pread conn (p_length ptr) (i64 (u64 (off + p_from ptr))).

  (** application.go:130-166 (Open). Simplified: the file that is open while the reference is read has no number;
      its number is free again when the connection is opened. *)
  Definition d_open (n : bytes) : dprog Z :=
    d* taken <- d_lift (GStep (fun m => (m, GRet (Ok (existsb (fun x =>
      match nth_error (m_heap m) (snd x) with Some c => bytes_eqb (x_name c) n | None => false end) (m_ctxs m))))));
    if taken : bool then DRet Err
    else
      d* r <- d_lift (lift (p_retrieve H mv behind (a_chunk a) n));
      d* conn <- d_open_file n;
      d* id <- d_lift (GStep (fun m => (m, GRet (Ok (zlen (m_ctxs m))))));
      d* p <- d_lift (GStep (fun m => (Mem (m_ctxs m) (m_heap m ++ [Ctx id n conn (fst r) (snd r) []]) (m_fs m), GRet (Ok (length (m_heap m))))));
      d* _ <- d_lift (g_enter id p);
      DRet (Ok id).

  (** application.go:700-713 (Close). *)
  Definition d_close (id : Z) : dprog unit :=
    d* p <- d_lift (g_find id);
    d* conn <- d_lift (g_field p x_conn);
    d* _ <- d_close_file conn;
    d_lift (GStep (fun m => (Mem (ptr_del (m_ctxs m) id) (m_heap m) (m_fs m), GRet (Ok tt)))).
End WithSha.

(** ** Two goroutines of the process *)
Record dteam (A B : Type) : Type := DTeam { u_one : dprog A; u_two : dprog B; u_proc : proc }.
Arguments DTeam {A B}.
Arguments u_one {A B}.
Arguments u_two {A B}.
Arguments u_proc {A B}.

Inductive d_goes {A B} : dteam A B -> dteam A B -> Prop :=
| d_goes_now w : d_goes w w
| d_goes_one f p q q' p' w : f q = (q', p') -> d_goes (DTeam p' p q') w -> d_goes (DTeam (DStep f) p q) w
| d_goes_two p f q q' p' w : f q = (q', p') -> d_goes (DTeam p p' q') w -> d_goes (DTeam p (DStep f) q) w.
