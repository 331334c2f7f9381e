(** Model of goroutines that share one application value. *)
From Coq Require Import List ZArith NArith Lia Bool.
From Coq Require Import Init.Byte Strings.Byte.
From Verif Require Import Base HashModel HashTreeModel RefModel DbModel DbConcurrent.
Import ListNotations.

(** ** Memory
    application.go:36: the map of the application holds pointers to contexts. [m_ctxs] is the map,
    [m_heap] has the contexts the pointers lead to, [m_fs] is the file system with the open files of the process.
    Simplified: each access is one step and steps happen one after the other (the Go memory model promises this
    only without data races, and the runtime may stop a program that changes a map while another goroutine uses it). *)
Record mem : Type := Mem { m_ctxs : list (Z * nat); m_heap : list ctx; m_fs : fsys }.

Definition on_fs (m : mem) (s : fsys) : mem := Mem (m_ctxs m) (m_heap m) s.

Fixpoint ptr_get (l : list (Z * nat)) (id : Z) : option nat :=
  match l with
  | [] => None
  | (i, p) :: l' => if (i =? id)%Z then Some p else ptr_get l' id
  end.

Definition ptr_del (l : list (Z * nat)) (id : Z) : list (Z * nat) :=
  filter (fun x => negb (fst x =? id)%Z) l.

Definition ptr_set (l : list (Z * nat)) (id : Z) (p : nat) : list (Z * nat) := (id, p) :: ptr_del l id.

(** ** Programs of one goroutine *)
Inductive gprog (A : Type) : Type :=
| GRet (o : outcome A)
| GStep (f : mem -> mem * gprog A).
Arguments GRet {A} o.
Arguments GStep {A} f.

Fixpoint g_catch {A B} (p : gprog A) (k : outcome A -> gprog B) : gprog B :=
  match p with
  | GRet o => k o
  | GStep f => GStep (fun m => let (m', p') := f m in (m', g_catch p' k))
  end.

Definition g_then {A B} (p : gprog A) (k : A -> gprog B) : gprog B :=
  g_catch p (fun o => match o with Ok a => k a | Err => GRet Err | Panic => GRet Panic | Fuel => GRet Fuel end).

Notation "'go*' x <- m ; k" := (g_then m (fun x => k))
  (at level 200, x name, m at level 100, k at level 200, right associativity).

(** A goroutine alone: the memory and the result at the end, and all memories on the way. *)
Fixpoint g_run {A} (p : gprog A) (m : mem) : mem * outcome A :=
  match p with
  | GRet o => (m, o)
  | GStep f => let (m', p') := f m in g_run p' m'
  end.

Fixpoint g_states {A} (p : gprog A) (m : mem) : list mem :=
  match p with
  | GRet _ => [m]
  | GStep f => m :: (let (m', p') := f m in g_states p' m')
  end.

(** Steps on the file system alone. *)
Fixpoint lift {A} (p : prog A) : gprog A :=
  match p with
  | Ret o => GRet o
  | Step f => GStep (fun m => let (s', p') := f (m_fs m) in (on_fs m s', lift p'))
  end.

(** app.contexts[id]: one look into the map. *)
Definition g_lookup (id : Z) : gprog (option nat) :=
  GStep (fun m => (m, GRet (Ok (ptr_get (m_ctxs m) id)))).

(** if pContext, ok := app.contexts[id]; ok: an error if there is none. *)
Definition g_find (id : Z) : gprog nat :=
  go* o <- g_lookup id;
  match o with Some p => GRet (Ok p) | None => GRet Err end.

(** Reading a field of a context. A pointer that leads nowhere does not occur. *)
Definition g_field {A} (p : nat) (f : ctx -> A) : gprog A :=
  GStep (fun m => (m, GRet (match nth_error (m_heap m) p with Some c => Ok (f c) | None => Panic end))).

(** Changing a field of a context. *)
Definition g_store (p : nat) (f : ctx -> ctx) : gprog unit :=
  GStep (fun m =>
    match nth_error (m_heap m) p with
    | Some c => (Mem (m_ctxs m) (set_nth (m_heap m) p (f c)) (m_fs m), GRet (Ok tt))
    | None => (m, GRet Panic)
    end).

(** app.contexts[id] = pContext *)
Definition g_enter (id : Z) (p : nat) : gprog unit :=
  GStep (fun m => (Mem (ptr_set (m_ctxs m) id p) (m_heap m) (m_fs m), GRet (Ok tt))).

(** pContext.reference used after it was seen not to be nil: a method of a nil interface panics. *)
Definition g_reference {A} (p : nat) (nothing : A) (f : reference -> outcome A) : gprog A :=
  go* seen <- g_field p x_ref;
  match seen with
  | None => GRet (Ok nothing)
  | Some _ =>
    go* used <- g_field p x_ref;
    match used with
    | None => GRet Panic
    | Some r => GRet (f r)
    end
  end.

Definition set_ref (r : reference) (c : ctx) := Ctx (x_id c) (x_name c) (x_conn c) (Some r) (x_off c) (x_pending c).
Definition set_off (o : Z) (c : ctx) := Ctx (x_id c) (x_name c) (x_conn c) (x_ref c) o (x_pending c).
Definition set_conn (h : nat) (c : ctx) := Ctx (x_id c) (x_name c) h (x_ref c) (x_off c) (x_pending c).

Section WithSha.
  Variable H : bytes -> bytes.
  Variable mv : byte.
  Variable behind : bytes -> bytes.
  (** The configuration of the application. Its contexts are not used. *)
  Variable a : dbapp.

  (** application.go:130-166 (Open). The names of the contexts never change. Simplified: the iteration over
      the map is one step. Then the file is read and opened, the identifier is the size of the map at that
      moment, and the context is put into the map in another step. *)
  Definition g_open (n : bytes) : gprog Z :=
    go* taken <- GStep (fun m => (m, GRet (Ok (existsb (fun x =>
      match nth_error (m_heap m) (snd x) with Some c => bytes_eqb (x_name c) n | None => false end) (m_ctxs m)))));
    if taken : bool then GRet Err
    else
      go* r <- lift (p_retrieve H mv behind (a_chunk a) n);
      go* conn <- lift (call (sys_open n));
      go* id <- GStep (fun m => (m, GRet (Ok (zlen (m_ctxs m)))));
      go* p <- GStep (fun m => (Mem (m_ctxs m) (m_heap m ++ [Ctx id n conn (fst r) (snd r) []]) (m_fs m), GRet (Ok (length (m_heap m)))));
      go* _ <- g_enter id p;
      GRet (Ok id).

  (** application.go:250-262 (contentKeys): the reference is read twice. *)
  Definition g_content_keys (id : Z) : gprog (list content_key) :=
    go* p <- g_find id;
    go* ks <- g_reference p None (fun r => Ok (Some (r_keys r)));
    match ks with None => GRet Err | Some l => GRet (Ok l) end.

  (** application.go:275-287 (Commits). *)
  Definition g_commits (id : Z) : gprog (list commit) :=
    go* p <- g_find id;
    go* cs <- g_reference p None (fun r => Ok (Some (r_commits r)));
    match cs with None => GRet Err | Some l => GRet (Ok l) end.

  (** application.go:290-310 (Read): the offset is read first, then the connection, then the file. *)
  Definition g_read (id : Z) (q : pointer) : gprog bytes :=
    go* p <- g_find id;
    go* off <- g_field p x_off;
    if (two63 <=? p_length q)%Z then GRet Panic
    else
      go* conn <- g_field p x_conn;
      lift (p_read conn (p_length q) (i64 (u64 (off + p_from q)))).

  (** application.go:313-329 (ReadByHash). *)
  Definition g_read_by_hash (id : Z) (h : bytes) : gprog bytes :=
    go* ks <- g_content_keys id;
    go* k <- GRet (keys_fetch ks h);
    g_read id (k_content k).

  (** application.go:235-248 (ContentKeysByKind), 265-272 (CommitByHash). *)
  Definition g_keys_by_kind (id kind : Z) : gprog (list content_key) :=
    go* ks <- g_content_keys id; GRet (keys_now (keys_by_kind ks kind)).
  Definition g_commit_by_hash (id : Z) (h : bytes) : gprog commit :=
    go* cs <- g_commits id; GRet (commits_fetch cs h).

  (** application.go:332-344 (ReadAll), 347-359 (ReadAllByHashes): one after the other. *)
  Fixpoint g_read_all (id : Z) (ps : list pointer) : gprog (list bytes) :=
    match ps with
    | [] => GRet (Ok [])
    | p :: ps' => go* b <- g_read id p; go* r <- g_read_all id ps'; GRet (Ok (b :: r))
    end.
  Fixpoint g_read_all_by_hashes (id : Z) (hs : list bytes) : gprog (list bytes) :=
    match hs with
    | [] => GRet (Ok [])
    | h :: hs' => go* b <- g_read_by_hash id h; go* r <- g_read_all_by_hashes id hs'; GRet (Ok (b :: r))
    end.

  (** application.go:362-376 (Write): the list is read, then stored with one more content. *)
  Definition g_write (id : Z) (h data : bytes) (kind : Z) : gprog unit :=
    go* p <- g_find id;
    match content_now h data kind with
    | Ok ct =>
      go* l <- g_field p x_pending;
      go* _ <- g_store p (fun c => with_pending c (l ++ [ct]));
      g_enter id p
    | _ => GRet Err
    end.

  (** application.go:379-388 (Cancel). *)
  Definition g_cancel (id : Z) : gprog unit :=
    go* p <- g_find id;
    go* _ <- g_store p (fun c => with_pending c []);
    g_enter id p.

  (** application.go:416-501 (updateReference): each use of a field of the context is a read of its own.
      Simplified: the lists are values; in Go two Commits append to the same slices, into their spare capacity. *)
  Definition g_update_reference (id now : Z) : gprog reference :=
    go* p <- g_find id;
    go* parent <- g_reference p None (fun r => do l <- commits_latest (r_commits r); Ok (Some (c_hash l)));
    go* blocks <- g_field p x_pending;
    go* values <- GRet (build_tree H (Some (map ct_hash blocks)));
    let commit := commit_now H mv values now parent None in
    go* old <- g_reference p [] (fun r => Ok (r_commits r));
    go* commits <- GRet (commits_now (old ++ [commit]));
    go* older <- g_reference p [] (fun r => Ok (r_keys r));
    go* offset <- g_reference p 0%Z (fun r => Ok (keys_next (r_keys r)));
    go* pending <- g_field p x_pending;
    go* new <- GRet (pending_keys (c_hash commit) offset pending);
    go* keys <- GRet (keys_now (older ++ new));
    GRet (Ok (Reference keys commits)).

  (** application.go:617-639: the connection is read in each round. *)
  Fixpoint g_copy_loop (fuel : nat) (p : nat) (chunk roff : Z) (dst woff : nat) : gprog nat :=
    match fuel with
    | O => GRet Fuel
    | S fuel' =>
      go* conn <- g_field p x_conn;
      g_catch (lift (p_read conn chunk roff)) (fun o =>
        match o with
        | Ok b =>
          g_catch (lift (p_write dst woff b)) (fun o' =>
            match o' with
            | Ok _ => g_copy_loop fuel' p chunk (roff + zlen b) dst (woff + length b)
            | _ => GRet (Ok woff)
            end)
        | _ => GRet (Ok woff)
        end)
    end.

  (** application.go:578-656 (writeDataAndReferenceOnDestinationFile). *)
  Definition g_write_destination (fuel : nat) (p : nat) (r : reference) : gprog Z :=
    go* name <- g_field p x_name;
    go* dst <- lift (call (sys_create (side name (a_dst a))));
    let ref_data := reference_to_content r in
    go* _ <- lift (p_write dst 0 ref_data);
    go* roff <- g_field p x_off;
    go* seen <- g_field p x_ref;
    go* woff <-
      match seen with
      | None => GRet (Ok (length ref_data))
      | Some _ =>
        go* conn <- g_field p x_conn;
        go* size <- lift (call (fun s => (s,
          match nth_error (f_handles s) conn with
          | Some (Handle i _ true) => Ok (zlen (data_of s i))
          | _ => Panic
          end)));
        go* off <- g_field p x_off;
        let chunk := make_chunk (a_chunk a) (u64 (size - off)) in
        if (two63 <=? chunk)%Z then GRet Panic
        else g_copy_loop fuel p chunk roff dst (length ref_data)
      end;
    go* pending <- g_field p x_pending;
    go* _ <- lift (write_pending dst woff pending);
    GRet (Ok (zlen ref_data)).

  (** application.go:503-576 (updateDatabaseOnFile). The name of a context never changes; it is read once here. *)
  Definition g_prepare_files (fuel : nat) (p : nat) (name : bytes) (r : reference) : gprog Z :=
    go* off <- g_write_destination fuel p r;
    go* bck <- lift (call (sys_create (side name (a_bck a))));
    go* conn <- g_field p x_conn;
    go* _ <- lift (p_copy bck conn);
    go* conn' <- g_field p x_conn;
    go* _ <- lift (call (sys_close conn'));
    GRet (Ok off).

  Definition g_replace_files (name : bytes) (off : Z) : gprog (nat * Z) :=
    go* _ <- lift (call (sys_remove name));
    go* _ <- lift (call (sys_rename (side name (a_dst a)) name));
    go* _ <- lift (call (sys_remove (side name (a_bck a))));
    go* new <- lift (call (sys_open name));
    GRet (Ok (new, off)).

  Definition g_swap_files (fuel : nat) (p : nat) (name : bytes) (r : reference) : gprog (nat * Z) :=
    go* off <- g_prepare_files fuel p name r;
    g_replace_files name off.

  Definition g_update_database (fuel : nat) (p : nat) (r : reference) : gprog (nat * Z) :=
    go* name <- g_field p x_name;
    go* lock <- lift (call (sys_trylock name));
    g_catch (g_swap_files fuel p name r) (fun o =>
      GStep (fun m => (on_fs m (sys_unlock lock (m_fs m)), GRet o))).

  (** application.go:406-408: app.contexts[id].field = v. A pointer that is not there is nil, and panics. *)
  Definition g_assign (id : Z) (f : ctx -> ctx) : gprog unit :=
    go* o <- g_lookup id;
    match o with Some p => g_store p f | None => GRet Panic end.

  (** application.go:391-414 (Commit): the new reference, the file, then three fields one after the other. *)
  Definition g_commit (fuel : nat) (now : Z) (id : Z) : gprog unit :=
    go* r <- g_update_reference id now;
    go* p <- g_find id;
    go* x <- g_update_database fuel p r;
    go* _ <- g_assign id (set_ref r);
    go* _ <- g_assign id (set_off (snd x));
    g_assign id (set_conn (fst x)).

  (** application.go:700-713 (Close). *)
  Definition g_close (id : Z) : gprog unit :=
    go* p <- g_find id;
    go* conn <- g_field p x_conn;
    go* _ <- lift (call (sys_close conn));
    GStep (fun m => (Mem (ptr_del (m_ctxs m) id) (m_heap m) (m_fs m), GRet (Ok tt))).
End WithSha.

(** ** Goroutines together *)
Record team (A B : Type) : Type := Team { t_one : gprog A; t_two : gprog B; t_mem : mem }.
Arguments Team {A B}.
Arguments t_one {A B}.
Arguments t_two {A B}.
Arguments t_mem {A B}.

(** [goes w w']: some steps of the one and some of the other, in any order. *)
Inductive goes {A B} : team A B -> team A B -> Prop :=
| goes_now w : goes w w
| goes_one f q m m' p' w : f m = (m', p') -> goes (Team p' q m') w -> goes (Team (GStep f) q m) w
| goes_two p f m m' q' w : f m = (m', q') -> goes (Team p q' m') w -> goes (Team p (GStep f) m) w.

(** Any number of goroutines, with results of any types. *)
Definition thread : Type := {B : Type & gprog B}.
Definition thread_of {B} (q : gprog B) : thread := existT gprog B q.

(** One step of a goroutine that has not finished. *)
Definition move (t : thread) (m : mem) : option (thread * mem) :=
  match projT2 t with
  | GRet _ => None
  | GStep f => let (m', q') := f m in Some (existT gprog (projT1 t) q', m')
  end.

(** [together ts m ts' m']: some of them make steps, in any order. *)
Inductive together : list thread -> mem -> list thread -> mem -> Prop :=
| together_now ts m : together ts m ts m
| together_step ts m k t t' m1 ts' m' : nth_error ts k = Some t -> move t m = Some (t', m1) ->
    together (set_nth ts k t') m1 ts' m' -> together ts m ts' m'.

(** ** The application of the sequential model
    [app_of a m]: the contexts the map leads to. *)
Definition app_of (a : dbapp) (m : mem) : dbapp :=
  with_ctxs a (flat_map (fun x => match nth_error (m_heap m) (snd x) with Some c => [(fst x, c)] | None => [] end) (m_ctxs m)).
