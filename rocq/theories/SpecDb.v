(** Specification of databases: what a history of commits should look like on disk and to readers. *)
From Coq Require Import List ZArith Bool.
From Coq Require Import Init.Byte.
From Verif Require Import Base HashModel HashTreeModel RefModel SpecHash SpecRef DbModel.
Import ListNotations.

(** A batch: the contents given to Write before one Commit, and the time of the Commit. *)
Definition batch : Type := list content * Z.

(** All bytes written by the batches, one content after the other. *)
Definition batch_data (cs : list content) : bytes := concat (map ct_data cs).
Definition history_data (bs : list batch) : bytes := concat (map (fun b => batch_data (fst b)) bs).

(** The contents of all batches in order. *)
Definition history_contents (bs : list batch) : list content := concat (map fst bs).

(** One key per content, at increasing positions without gaps. *)
Fixpoint place (commit_hash : bytes) (from : Z) (cs : list content) : list content_key :=
  match cs with
  | [] => []
  | c :: cs' =>
    ContentKey (ct_hash c) (ct_kind c) (Pointer from (zlen (ct_data c))) commit_hash
      :: place commit_hash (from + zlen (ct_data c)) cs'
  end.

Section WithSha.
  Variable H : bytes -> bytes.
  Variable mv : byte.

  (** The hash tree over the hashes of a batch. *)
  Definition batch_tree (cs : list content) : hashtree :=
    match build_tree H (Some (map ct_hash cs)) with
    | Ok t => t
    | _ => HashTree [] (LHead []) (LHead [])
    end.

  Definition batch_commit (parent : option bytes) (b : batch) : commit :=
    commit_now H mv (batch_tree (fst b)) (snd b) parent None.

  (** The hash of the last commit. *)
  Definition tip (parent : option bytes) (bs : list batch) : option bytes :=
    fold_left (fun p b => Some (c_hash (batch_commit p b))) bs parent.

  (** The commits, each with the one before as its parent. *)
  Fixpoint chain (parent : option bytes) (bs : list batch) : list commit :=
    match bs with
    | [] => []
    | b :: bs' =>
      let c := batch_commit parent b in c :: chain (Some (c_hash c)) bs'
    end.

  (** The content keys of all batches. *)
  Fixpoint history_keys (parent : option bytes) (from : Z) (bs : list batch) : list content_key :=
    match bs with
    | [] => []
    | b :: bs' =>
      let h := c_hash (batch_commit parent b) in
      place h from (fst b) ++ history_keys (Some h) (from + zlen (batch_data (fst b))) bs'
    end.

  (** The reference of a history; a database without commits has none. *)
  Definition history_ref (bs : list batch) : option reference :=
    match bs with
    | [] => None
    | _ => Some (Reference (history_keys None 0 bs) (chain None bs))
    end.

  (** The part of the file before the data: length and encoded reference. *)
  Definition header (r : option reference) : bytes :=
    match r with
    | None => []
    | Some r => put_u64 (zlen (reference_content r)) ++ reference_content r
    end.

  (** The database file of a history. *)
  Definition history_file (bs : list batch) : bytes :=
    header (history_ref bs) ++ history_data bs.
End WithSha.

(** Data and kinds that can be stored: 64-byte hashes, non-empty data, 64-bit kinds, int64 times. *)
Definition ok_content (c : content) : Prop :=
  length (ct_hash c) = 64 /\ ct_data c <> [] /\ (0 <= ct_kind c < two64)%Z.

Definition ok_batch (b : batch) : Prop :=
  fst b <> [] /\ Forall ok_content (fst b) /\ (- two63 <= snd b < two63)%Z.

(** A file that fits in an int64. *)
Definition fits (H : bytes -> bytes) (mv : byte) (bs : list batch) : Prop :=
  (zlen (history_file H mv bs) < two63)%Z.

(** The old data is copied without loss: it fits one chunk or is a whole number of chunks. *)
Definition chunk_ok (chunk : Z) (data : bytes) : Prop :=
  (0 < chunk)%Z /\ ((zlen data <= chunk)%Z \/ exists k, zlen data = (k * chunk)%Z).

(** ** What files hold *)
Definition file_at (s : fsys) (n : bytes) : option bytes :=
  match dir_get (f_dir s) n with
  | Some (EFile i) => Some (nth i (f_data s) [])
  | _ => None
  end.

Definition nothing_at (s : fsys) (n : bytes) : Prop :=
  dir_get (f_dir s) n = None.

(** ** The commits a user should see *)

(** [c] is the commit of one batch after a commit with hash [parent]: its tree is the Merkle
    tree over the hashes of the batch, padded with the hash of the empty string. *)
Definition commit_of (H : bytes -> bytes) (parent : option bytes) (b : batch) (c : commit) : Prop :=
  c_parent c = parent /\ c_time c = snd b /\ c_mine c = None /\
  exists pad, map leaf_head (ht_leaves (c_values c)) = map ct_hash (fst b) ++ repeat (H []) pad /\
              merkle H (map ct_hash (fst b) ++ repeat (H []) pad) (ht_head (c_values c)).

(** One commit per batch, each with the hash of the one before as its parent. *)
Inductive linked (H : bytes -> bytes) : option bytes -> list batch -> list commit -> Prop :=
| linked_nil p : linked H p [] []
| linked_cons p b bs c cs :
    commit_of H p b c -> linked H (Some (c_hash c)) bs cs -> linked H p (b :: bs) (c :: cs).

(** The string a commit without proof is the SHA-512 of: root, time and parent. *)
Definition commit_input (c : commit) (x : bytes) : Prop :=
  exists d, decimal (c_time c) d /\
    x = ht_head (c_values c) ++ d ++ match c_parent c with Some p => p | None => [] end.

(** [all] does [one] for each element in order: it gives all results, or what the first
    element gave that has no result. *)
Definition in_turn {A B} (one : A -> outcome B) (all : list A -> outcome (list B)) : Prop :=
  (forall l rs, all l = Ok rs <-> Forall2 (fun x r => one x = Ok r) l rs) /\
  (forall before x after, Forall (fun y => exists r, one y = Ok r) before ->
     (one x = Err -> all (before ++ x :: after) = Err) /\
     (one x = Panic -> all (before ++ x :: after) = Panic)).

(** The same batches with other bytes in the contents: hashes, kinds, lengths and times are kept. *)
Definition same_but_bytes (bs bs' : list batch) : Prop :=
  Forall2 (fun b b' => snd b' = snd b /\
    Forall2 (fun c c' => ct_hash c' = ct_hash c /\ ct_kind c' = ct_kind c /\
                         length (ct_data c') = length (ct_data c)) (fst b) (fst b')) bs bs'.

(** The hash of a commit is that of its fields and of the proof if it was mined: a big-endian number
    added at the end. The result of mining is the hash of the two; for the proof 0, which has no
    bytes, it is the hash of the commit itself. *)
Definition hashed_by (H : bytes -> bytes) (c : commit) : Prop :=
  exists x, commit_input c x /\
    match c_mine c with
    | None => c_hash c = H x
    | Some m => exists p, big_set p = m_proof m /\ c_hash c = H (x ++ p) /\
                  m_result m = (match p with [] => c_hash c | _ => H (c_hash c ++ p) end)
    end.
