(** Model of the paths of libs/databases/infrastructure/files: names of databases below a directory. *)
From Coq Require Import List ZArith NArith Lia Bool.
From Coq Require Import Init.Byte Strings.Byte.
From Verif Require Import Base HashModel HashTreeModel RefModel DbModel.
Import ListNotations.

(** ** path/filepath of the standard library on Unix *)

Definition slash : byte := x2f.
Definition dot : byte := x2e.
Definition is_slash (b : byte) : bool := Byte.eqb b slash.

(** The bytes at the reading position end an element. *)
Definition at_end (p : bytes) : bool :=
  match p with [] => true | b :: _ => is_slash b end.

(** filepath.Clean, "can backtrack": out.w is decremented once, and then as long as it is above
    dotdot and the byte it points to is no separator. [out] is kept in reverse. *)
Fixpoint back (dotdot : nat) (out : bytes) : bytes :=
  match out with
  | [] => []
  | c :: o => if (dotdot <? length o)%nat && negb (is_slash c) then back dotdot o else o
  end.

(** filepath.Clean, the loop. [fresh]: at the start of an element (the switch);
    otherwise inside of the loop that copies a real element. *)
Fixpoint clean_loop (rooted fresh : bool) (p out : bytes) (dotdot : nat) : bytes :=
  match p with
  | [] => out
  | b :: p1 =>
    if is_slash b then clean_loop rooted true p1 out dotdot
    else if fresh then
      if Byte.eqb b dot && at_end p1 then clean_loop rooted true p1 out dotdot
      else
        match p1 with
        | c :: p2 =>
          if Byte.eqb b dot && Byte.eqb c dot && at_end p2 then
            if (dotdot <? length out)%nat then clean_loop rooted true p2 (back dotdot out) dotdot
            else if rooted then clean_loop rooted true p2 out dotdot
            else
              let out' := dot :: dot :: (if (0 <? length out)%nat then slash :: out else out) in
              clean_loop rooted true p2 out' (length out')
          else
            clean_loop rooted false p1
              (b :: (if (if rooted then negb (length out =? 1)%nat else negb (length out =? 0)%nat) then slash :: out else out)) dotdot
        | [] =>
          clean_loop rooted false p1
            (b :: (if (if rooted then negb (length out =? 1)%nat else negb (length out =? 0)%nat) then slash :: out else out)) dotdot
        end
    else clean_loop rooted false p1 (b :: out) dotdot
  end.

(** filepath.Clean. *)
Definition clean (p : bytes) : bytes :=
  match p with
  | [] => [dot]
  | b :: p1 =>
    let out := if is_slash b then clean_loop true true p1 [slash] 1 else clean_loop false true p [] 0 in
    match out with [] => [dot] | _ => rev out end
  end.

(** filepath.Join of two elements: empty elements in front are left out. *)
Definition join (a b : bytes) : bytes :=
  match a, b with
  | [], [] => []
  | [], _ => clean b
  | _, _ => clean (a ++ slash :: b)
  end.

(** ** Directories *)

(** The elements of a path: strings.Split at the separator. *)
Fixpoint elements (p : bytes) : list bytes :=
  match p with
  | [] => [[]]
  | b :: p' =>
    if is_slash b then [] :: elements p'
    else match elements p' with e :: es => (b :: e) :: es | [] => [[b]] end
  end.

(** One step of the kernel from a directory, given by the names from the root. *)
Definition go (loc : list bytes) (e : bytes) : list bytes :=
  if bytes_eqb e [] || bytes_eqb e [dot] then loc
  else if bytes_eqb e [dot; dot] then removelast loc
  else loc ++ [e].

(** Where a path leads for a process in the directory [cwd]. There are no symbolic links.
    Simplified: the directories on the way are not looked at; paths from Clean have their
    ".." in front, so the way goes up before it goes down. *)
Definition resolve (cwd : list bytes) (p : bytes) : list bytes :=
  fold_left go (elements p) (match p with b :: _ => if is_slash b then [] else cwd | [] => cwd end).

(** The name of a place in the file system [fsys], whose names stand for places from the root here. *)
Definition render (loc : list bytes) : bytes := concat (map (cons slash) loc).

(** What is at a place; the root is a directory. *)
Definition entry_at (s : fsys) (loc : list bytes) : option entry :=
  match loc with [] => Some EDir | _ => dir_get (f_dir s) (render loc) end.

(** A name can be made in a directory only. *)
Definition creatable (s : fsys) (loc : list bytes) : bool :=
  match loc with
  | [] => false
  | _ => match entry_at s (removelast loc) with Some EDir => true | _ => false end
  end.

(** os.MkdirAll: the directories from the root to [loc], those that are not there are made.
    It stops at a name that is not a directory. *)
Fixpoint mkdir_all (from : list bytes) (es : list bytes) (s : fsys) : fsys * outcome unit :=
  match es with
  | [] => (s, Ok tt)
  | e :: es' =>
    let loc := from ++ [e] in
    match entry_at s loc with
    | Some EDir => mkdir_all loc es' s
    | Some (EFile _) => (s, Err)
    | None => mkdir_all loc es' (with_dir s (dir_set (f_dir s) (render loc) EDir))
    end
  end.

Section InDirectory.
  Variable H : bytes -> bytes.
  Variable mv : byte.
  Variable behind : bytes -> bytes.
  (** The working directory of the process, and app.dirPath. *)
  Variable cwd : list bytes.
  Variable dir : bytes.

  (** filepath.Join(app.dirPath, name), and what the kernel makes of it. *)
  Definition place_of (n : bytes) : list bytes := resolve cwd (join dir n).
  Definition at_name (n : bytes) : bytes := render (place_of n).

  (** System calls on a path. The empty path does not exist; the root is a directory. *)
  Definition nowhere (n : bytes) : bool :=
    match join dir n with [] => true | _ => match place_of n with [] => true | _ => false end end.
  Definition path_stat (s : fsys) (n : bytes) : option entry :=
    match join dir n with [] => None | _ => entry_at s (place_of n) end.
  Definition path_create (n : bytes) (s : fsys) : fsys * outcome nat :=
    if negb (nowhere n) && creatable s (place_of n) then sys_create (at_name n) s else (s, Err).
  Definition path_open (n : bytes) (s : fsys) : fsys * outcome nat :=
    if nowhere n then (s, Err) else sys_open (at_name n) s.
  Definition path_remove (n : bytes) (s : fsys) : fsys * outcome unit :=
    if nowhere n then (s, Err) else sys_remove (at_name n) s.
  Definition path_rename (a b : bytes) (s : fsys) : fsys * outcome unit :=
    if negb (nowhere a) && negb (nowhere b) && creatable s (place_of b)
    then sys_rename (at_name a) (at_name b) s else (s, Err).
  Definition path_trylock (n : bytes) (s : fsys) : fsys * outcome nat :=
    if negb (nowhere n) && creatable s (place_of n) then sys_trylock (at_name n) s else (s, Err).

  (** application.go:79-87 (Exists). *)
  Definition path_exists (s : fsys) (n : bytes) : bool :=
    match path_stat s n with Some (EFile _) => true | _ => false end.

  (** application.go:90-97: the directory is made if it does not exist. The empty path is none,
      so that MkdirAll fails on it. Simplified: for a path that goes down and up again, like "a/../b",
      only the directories on the way from the root to the place are looked at and made; the kernel
      also wants "a". There are no symbolic links and no permissions. *)
  Definition make_dir (s : fsys) : fsys * outcome unit :=
    match dir with
    | [] => (s, Err)
    | _ =>
      match entry_at s (resolve cwd dir) with
      | Some _ => (s, Ok tt)
      | None => mkdir_all [] (resolve cwd dir) s
      end
    end.

  (** application.go:90-111 (New). *)
  Definition path_new (n : bytes) (s : fsys) : fsys * outcome unit :=
    match make_dir s with
    | (s1, Ok _) =>
      match path_stat s1 n with
      | Some _ => (s1, Err)
      | None => let (s', o) := path_create n s1 in (s', do _ <- o; Ok tt)
      end
    | (s1, o) => (s1, o)
    end.

  (** application.go:114-127 (Delete). *)
  Definition path_delete (n : bytes) (s : fsys) : fsys * outcome unit :=
    match path_stat s n with
    | None => (s, Err)
    | Some EDir => (s, Err)
    | Some (EFile _) => path_remove n s
    end.

  (** application.go:130-166 (Open): the contexts are compared by name, not by path. *)
  Definition path_open_db (n : bytes) (a : dbapp) (s : fsys) : fsys * dbapp * outcome Z :=
    if existsb (fun x => bytes_eqb (x_name (snd x)) n) (a_ctxs a) then (s, a, Err)
    else
      match path_stat s n with
      | Some (EFile i) =>
        match retrieve_reference H mv behind (a_chunk a) (data_of s i) with
        | Ok (ref, off) =>
          match path_open n s with
          | (s', Ok h) =>
            let id := zlen (a_ctxs a) in
            let c := Ctx id n h ref off [] in
            (s', with_ctxs a (ctx_set (a_ctxs a) id c), Ok id)
          | (s', _) => (s', a, Err)
          end
        | Err => (s, a, Err)
        | Panic => (s, a, Panic)
        | Fuel => (s, a, Fuel)
        end
      | _ => (s, a, Err)
      end.

  (** application.go:578-656 (writeDataAndReferenceOnDestinationFile). *)
  Definition path_write_destination (fuel : nat) (a : dbapp) (c : ctx) (r : reference) : prog Z :=
    let* dst <- call (path_create (side (x_name c) (a_dst a)));
    let ref_data := reference_to_content r in
    let* _ <- p_write dst 0 ref_data;
    let* woff <-
      match x_ref c with
      | None => Ret (Ok (length ref_data))
      | Some _ =>
        let* size <- call (fun s => (s,
          match nth_error (f_handles s) (x_conn c) with
          | Some (Handle i _ true) => Ok (zlen (data_of s i))
          | _ => Panic
          end));
        let chunk := make_chunk (a_chunk a) (u64 (size - x_off c)) in
        if (two63 <=? chunk)%Z then Ret Panic
        else copy_loop fuel (x_conn c) chunk (x_off c) dst (length ref_data)
      end;
    let* _ <- write_pending dst woff (x_pending c);
    Ret (Ok (zlen ref_data)).

  (** application.go:513-547. *)
  Definition path_prepare_files (fuel : nat) (a : dbapp) (c : ctx) (r : reference) : prog Z :=
    let* off <- path_write_destination fuel a c r;
    let* bck <- call (path_create (side (x_name c) (a_bck a)));
    let* _ <- p_copy bck (x_conn c);
    let* _ <- call (sys_close (x_conn c));
    Ret (Ok off).

  (** application.go:549-575. *)
  Definition path_replace_files (a : dbapp) (c : ctx) (off : Z) : prog (nat * Z) :=
    let* _ <- call (path_remove (x_name c));
    let* _ <- call (path_rename (side (x_name c) (a_dst a)) (x_name c));
    let* _ <- call (path_remove (side (x_name c) (a_bck a)));
    let* conn <- call (path_open (x_name c));
    Ret (Ok (conn, off)).

  (** application.go:503-576 (updateDatabaseOnFile). *)
  Definition path_update_database (fuel : nat) (a : dbapp) (c : ctx) (r : reference) : prog (nat * Z) :=
    let* lock <- call (path_trylock (x_name c));
    catch (let* off <- path_prepare_files fuel a c r; path_replace_files a c off) (fun o =>
      Step (fun s => (sys_unlock lock s, Ret o))).

  (** application.go:391-414 (Commit). *)
  Definition path_commit (now : Z) (a : dbapp) (s : fsys) (id : Z) : fsys * dbapp * outcome unit :=
    match ctx_get (a_ctxs a) id with
    | None => (s, a, Err)
    | Some c =>
      match update_reference H mv c now with
      | Ok r =>
        match run (path_update_database (S (conn_size s c)) a c r) s with
        | (s', Ok (conn, off)) =>
          let c' := Ctx (x_id c) (x_name c) conn (Some r) off (x_pending c) in
          (s', with_ctxs a (ctx_set (a_ctxs a) id c'), Ok tt)
        | (s', Err) => (s', a, Err)
        | (s', Panic) => (s', a, Panic)
        | (s', Fuel) => (s', a, Fuel)
        end
      | Err => (s, a, Err)
      | Panic => (s, a, Panic)
      | Fuel => (s, a, Fuel)
      end
    end.
End InDirectory.

(** ** The calls of the application, with the names in one directory and with paths *)
Inductive api : Type :=
| CNew (n : bytes)
| CExists (n : bytes)
| CDelete (n : bytes)
| COpen (n : bytes)
| CKeys (id kind : Z)
| CCommits (id : Z)
| CCommitByHash (id : Z) (h : bytes)
| CRead (id : Z) (p : pointer)
| CReadByHash (id : Z) (h : bytes)
| CReadAll (id : Z) (ps : list pointer)
| CReadAllByHashes (id : Z) (hs : list bytes)
| CWrite (id : Z) (h data : bytes) (kind : Z)
| CCancel (id : Z)
| CCommit (now id : Z)
| CClose (id : Z).

Inductive answer : Type :=
| AUnit (o : outcome unit)
| ABool (b : bool)
| AId (o : outcome Z)
| AKeys (o : outcome (list content_key))
| ACommits (o : outcome (list commit))
| ACommit (o : outcome commit)
| ABytes (o : outcome bytes)
| AMany (o : outcome (list bytes)).

Section Calls.
  Variable H : bytes -> bytes.
  Variable mv : byte.
  Variable behind : bytes -> bytes.
  Variable cwd : list bytes.
  Variable dir : bytes.

  (** The calls that do not use names. *)
  Definition nameless_call (c : api) (a : dbapp) (s : fsys) : dbapp * fsys * answer :=
    match c with
    | CKeys id kind => (a, s, AKeys (content_keys_by_kind a id kind))
    | CCommits id => (a, s, ACommits (commits_db a id))
    | CCommitByHash id h => (a, s, ACommit (commit_by_hash a id h))
    | CRead id p => (a, s, ABytes (read_db a s id p))
    | CReadByHash id h => (a, s, ABytes (read_by_hash a s id h))
    | CReadAll id ps => (a, s, AMany (read_all a s id ps))
    | CReadAllByHashes id hs => (a, s, AMany (read_all_by_hashes a s id hs))
    | CWrite id h d k => let (a', o) := write_db a id h d k in (a', s, AUnit o)
    | CCancel id => let (a', o) := cancel_db a id in (a', s, AUnit o)
    | CClose id => let '(s', a', o) := close_db a s id in (a', s', AUnit o)
    | _ => (a, s, AUnit Err)
    end.

  (** A call of the application of DbModel.v. *)
  Definition name_call (c : api) (a : dbapp) (s : fsys) : dbapp * fsys * answer :=
    match c with
    | CNew n => let (s', o) := new_db n s in (a, s', AUnit o)
    | CExists n => (a, s, ABool (exists_db s n))
    | CDelete n => let (s', o) := delete_db n s in (a, s', AUnit o)
    | COpen n => let '(s', a', o) := open_db H mv behind n a s in (a', s', AId o)
    | CCommit now id => let '(s', a', o) := commit_db H mv now a s id in (a', s', AUnit o)
    | _ => nameless_call c a s
    end.

  (** A call of the application with paths. *)
  Definition path_call (c : api) (a : dbapp) (s : fsys) : dbapp * fsys * answer :=
    match c with
    | CNew n => let (s', o) := path_new cwd dir n s in (a, s', AUnit o)
    | CExists n => (a, s, ABool (path_exists cwd dir s n))
    | CDelete n => let (s', o) := path_delete cwd dir n s in (a, s', AUnit o)
    | COpen n => let '(s', a', o) := path_open_db H mv behind cwd dir n a s in (a', s', AId o)
    | CCommit now id => let '(s', a', o) := path_commit H mv cwd dir now a s id in (a', s', AUnit o)
    | _ => nameless_call c a s
    end.

  (** Calls one after the other, with all answers. *)
  Fixpoint run_calls (call : api -> dbapp -> fsys -> dbapp * fsys * answer) (cs : list api) (a : dbapp) (s : fsys)
    : dbapp * fsys * list answer :=
    match cs with
    | [] => (a, s, [])
    | c :: cs' =>
      let '(a1, s1, r) := call c a s in
      let '(a2, s2, rs) := run_calls call cs' a1 s1 in
      (a2, s2, r :: rs)
    end.
End Calls.
