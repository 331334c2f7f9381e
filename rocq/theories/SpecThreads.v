(** Specification for goroutines that share one application. *)
From Coq Require Import List ZArith NArith Lia Bool.
From Coq Require Import Init.Byte Strings.Byte.
From Verif Require Import Base HashModel HashTreeModel RefModel SpecRef DbModel DbConcurrent SpecDb DbSession DbThreads.
Import ListNotations.

(** [in_memory a s m]: the memory [m] has the application [a] over the file system [s]. Each identifier leads to
    a context of its own. *)
Definition in_memory (a : dbapp) (s : fsys) (m : mem) : Prop :=
  m_fs m = s /\ NoDup (map fst (a_ctxs a)) /\ NoDup (map fst (m_ctxs m)) /\ NoDup (map snd (m_ctxs m)) /\
  length (m_ctxs m) = length (a_ctxs a) /\ Forall (fun x => snd x < length (m_heap m)) (m_ctxs m) /\
  forall id, ctx_get (a_ctxs a) id = match ptr_get (m_ctxs m) id with Some p => nth_error (m_heap m) p | None => None end.

(** [reading a s id call answer]: the call only reads, with the identifier [id], and answers this on its own. *)
Inductive reading (a : dbapp) (s : fsys) (id : Z) : forall B, gprog B -> outcome B -> Prop :=
| reading_pointer q : reading a s id bytes (g_read id q) (read_db a s id q)
| reading_hash h : reading a s id bytes (g_read_by_hash id h) (read_by_hash a s id h)
| reading_keys : reading a s id (list content_key) (g_content_keys id) (content_keys a id)
| reading_kind k : reading a s id (list content_key) (g_keys_by_kind id k) (content_keys_by_kind a id k)
| reading_commits : reading a s id (list commit) (g_commits id) (commits_db a id)
| reading_commit h : reading a s id commit (g_commit_by_hash id h) (commit_by_hash a id h)
| reading_all ps : reading a s id (list bytes) (g_read_all id ps) (read_all a s id ps)
| reading_hashes hs : reading a s id (list bytes) (g_read_all_by_hashes id hs) (read_all_by_hashes a s id hs).

(** Enough rounds for the loop that copies the old contents. *)
Definition rounds (a : dbapp) (s : fsys) (id : Z) : nat :=
  match ctx_get (a_ctxs a) id with Some c => S (conn_size s c) | None => 0 end.

(** [acting H mv behind a s id call o a' s']: the call uses the identifier [id], or opens the database that gets it,
    and on its own it answers [o] and leaves [a'] and [s']. *)
Inductive acting (H : bytes -> bytes) (mv : byte) (behind : bytes -> bytes) (a : dbapp) (s : fsys) (id : Z) :
  forall B, gprog B -> outcome B -> dbapp -> fsys -> Prop :=
| acting_write h d k : acting H mv behind a s id unit (g_write id h d k) (snd (write_db a id h d k)) (fst (write_db a id h d k)) s
| acting_cancel : acting H mv behind a s id unit (g_cancel id) (snd (cancel_db a id)) (fst (cancel_db a id)) s
| acting_commit now s' a' o : commit_db H mv now a s id = (s', a', o) ->
    acting H mv behind a s id unit (g_commit H mv a (rounds a s id) now id) o a' s'
| acting_close s' a' o : close_db a s id = (s', a', o) -> acting H mv behind a s id unit (g_close id) o a' s'
| acting_open n s' o : id = zlen (a_ctxs a) -> run (p_open H mv behind a n) s = (s', o) ->
    acting H mv behind a s id Z (g_open H mv behind a n) (do x <- o; Ok (snd x)) (match o with Ok x => fst x | _ => a end) s'.

(** [readers a s ok ts es]: goroutines that read, with an identifier that is [ok] each, and their answers. *)
Definition readers (a : dbapp) (s : fsys) (ok : Z -> Prop) : list thread -> list {B : Type & outcome B} -> Prop :=
  Forall2 (fun t e => exists id B q o, ok id /\ reading a s id B q o /\ t = existT gprog B q /\ e = existT outcome B o).

(** What a goroutine that has finished came to. *)
Definition came_to (t : thread) : option {B : Type & outcome B} :=
  match projT2 t with GRet o => Some (existT outcome (projT1 t) o) | GStep _ => None end.

(** Several databases: New and Open of each name, then operations on them, one at a time. *)
Definition several (H : bytes -> bytes) (mv : byte) (behind : bytes -> bytes)
  (a0 : dbapp) (names : list bytes) (s0 : fsys) (os : list (bytes * op)) (a : dbapp) (s : fsys) : Prop :=
  good_config a0 /\ calm s0 /\ a_ctxs a0 = [] /\ separate a0 names /\
  (forall n, In n names -> clear a0 s0 n /\ dir_get (f_dir s0) n = None) /\
  Forall (fun x => In (fst x) names /\ match snd x with OReopen => False | _ => True end) os /\
  (forall n, In n names -> all_allowed H mv (a_chunk a0) ([], []) (ops_on n os)) /\
  exists a1 s1, start_all H mv behind a0 s0 names = Ok (a1, s1) /\
    exec_all H mv behind (position names) a1 s1 os = Ok (a, s).
