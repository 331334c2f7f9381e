(** Model of two processes working in one database directory at the same time. *)
From Coq Require Import List ZArith NArith Lia Bool.
From Coq Require Import Init.Byte Strings.Byte.
From Verif Require Import Base HashModel HashTreeModel RefModel DbModel.
Import ListNotations.

(** ** Operations as sequences of steps
    DbModel.v has Commit as a program of steps already; here are Open and New. *)

(** os.File.ReadAt, one step. *)
Definition p_read (h : nat) (n off : Z) : prog bytes := call (fun s => (s, read_at s h n off)).

(** application.go:209-223: reading the reference in chunks, one step per read. *)
Fixpoint p_read_chunks (h : nat) (k : nat) (chunk last off : Z) : prog (bytes * Z) :=
  match k with
  | O => Ret (Ok ([], off))
  | S k' =>
    let n := if Nat.eqb k 1 then last else chunk in
    if (n <? 0)%Z then Ret Panic
    else
      let* b <- p_read h n off;
      let* r <- p_read_chunks h k' chunk last (off + n);
      Ret (Ok (b ++ fst r, snd r))
  end.

(** application.go:90-111 (New): Stat and Create are two steps. Closing the new file does nothing here. *)
Definition p_new (n : bytes) : prog unit :=
  let* there <- call (fun s => (s, Ok (sys_stat s n)));
  match there with
  | Some _ => Ret Err
  | None => let* _ <- call (sys_create n); Ret (Ok tt)
  end.

Section WithSha.
  Variable H : bytes -> bytes.
  Variable mv : byte.
  Variable behind : bytes -> bytes.

  (** application.go:186-231: retrieveReference after opening the file. A read of the length that fails
      means that there is no reference. *)
  Definition p_reference (chunk : Z) (h : nat) : prog (option reference * Z) :=
    catch (p_read h 8 0) (fun o =>
      match o with
      | Ok b =>
        let len := i64 (unle b) in
        let size := i64 (make_chunk chunk (u64 len)) in
        if (size =? 0)%Z then Ret Panic
        else
          let amount := (Z.quot len size + 1)%Z in
          let last := (len - size * (amount - 1))%Z in
          let* r <- p_read_chunks h (Z.to_nat amount) size last 8;
          Ret (do ref <- reference_of_content H mv (GSlice (fst r) (behind (fst r)));
               Ok (Some ref, u64 (snd r)))
      | _ => Ret (Ok (None, 0%Z))
      end).

  (** application.go:176-232 (retrieveReference): the file is closed in any case. *)
  Definition p_retrieve (chunk : Z) (n : bytes) : prog (option reference * Z) :=
    let* h <- call (sys_open n);
    catch (p_reference chunk h) (fun o => Step (fun s => (fst (sys_close h s), Ret o))).

  (** application.go:130-166 (Open): the file is opened a second time after reading the reference.
      The result is the application with the new context, and its identifier. *)
  Definition p_open (b : dbapp) (n : bytes) : prog (dbapp * Z) :=
    if existsb (fun x => bytes_eqb (x_name (snd x)) n) (a_ctxs b) then Ret Err
    else
      let* r <- p_retrieve (a_chunk b) n;
      let* conn <- call (sys_open n);
      let id := zlen (a_ctxs b) in
      Ret (Ok (with_ctxs b (ctx_set (a_ctxs b) id (Ctx id n conn (fst r) (snd r) [])), id)).

  (** application.go:391-414 (Commit) as a program. [s] only gives the bound on the copy loop. *)
  Definition p_commit (now : Z) (a : dbapp) (s : fsys) (id : Z) : prog dbapp :=
    match ctx_get (a_ctxs a) id with
    | None => Ret Err
    | Some c =>
      match update_reference H mv c now with
      | Ok r =>
        let* x <- update_database (S (conn_size s c)) a c r;
        Ret (Ok (with_ctxs a (ctx_set (a_ctxs a) id (Ctx (x_id c) (x_name c) (fst x) (Some r) (snd x) (x_pending c)))))
      | Err => Ret Err
      | Panic => Ret Panic
      | Fuel => Ret Fuel
      end
    end.
End WithSha.

(** ** Two processes
    Each process has its own open files; names, contents of files, locks and faults are shared.
    [World p h1 q h2 s]: the first process still has to do [p] and has the open files [h1], the second
    [q] and [h2]. The open files in [s] itself do not matter. *)
Record world (A B : Type) : Type := World {
  w_first : prog A; w_files1 : list handle; w_second : prog B; w_files2 : list handle; w_shared : fsys }.
Arguments World {A B}.
Arguments w_first {A B}.
Arguments w_files1 {A B}.
Arguments w_second {A B}.
Arguments w_files2 {A B}.
Arguments w_shared {A B}.

(** [later w w']: some steps of the one and some of the other, in any order. A process that makes no
    further steps may have been stopped. *)
Inductive later {A B} : world A B -> world A B -> Prop :=
| later_now w : later w w
| later_first f h1 q h2 s s' p' w :
    f (with_handles s h1) = (s', p') -> later (World p' (f_handles s') q h2 s') w ->
    later (World (Step f) h1 q h2 s) w
| later_second p h1 f h2 s s' q' w :
    f (with_handles s h2) = (s', q') -> later (World p h1 q' (f_handles s') s') w ->
    later (World p h1 (Step f) h2 s) w.
