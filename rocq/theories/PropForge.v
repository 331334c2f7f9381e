(** Property theorems for what decoding and Open do not check (C124 - C126). *)
From Coq Require Import List ZArith NArith Lia Bool.
From Coq Require Import Init.Byte Strings.Byte.
From Verif Require Import Base BaseLemmas HashModel HashProofs SpecHash HashTreeModel HashTreeProofs
  RefModel RefProofs SpecRef DbModel SpecDb DbRefProofs DbFsProofs DbCommitProofs DbOpenProofs DbApiProofs
  DbSession DbSessionProofs DbMoreProofs DbHistoryProofs DbForgeProofs PropHash PropRef PropDb.
Import ListNotations.

(** *** C124 *)
(** The bytes of the contents are replaced by others in the closed file; a new application opens it,
    lists the same commits and keys, and reads the other bytes under the old hashes. *)
Theorem C124_changed_data_is_noticed_refuted : forall H mv behind, sha_ok H ->
  forall a0 n s0 os a s id, session H mv behind a0 n s0 os (a, s, id) ->
  exists s1 a1 i front,
    close_db a s id = (s1, a1, Ok tt) /\
    dir_get (f_dir s1) n = Some (EFile i) /\
    data_of s1 i = front ++ history_data (committed os) /\
    forall other, length other = length (history_data (committed os)) ->
    exists s2 a2 id2 changed,
      open_db H mv behind n (with_ctxs a1 []) (set_data s1 i (front ++ other)) = (s2, a2, Ok id2) /\
      commits_db a2 id2 = commits_db a id /\
      content_keys a2 id2 = content_keys a id /\
      same_but_bytes (committed os) changed /\ history_data changed = other /\
      shows H (a2, s2, id2) changed.
Proof.
  intros H mv behind HL a0 n s0 os a s id S.
  destruct (session_synced H mv behind HL _ _ _ _ _ _ _ S) as (Sy & _).
  destruct (close_ok H mv _ _ _ _ _ _ Sy) as (s1 & a1 & i & Ec & D & _ & Ea & _).
  exists s1, a1, i, (header (history_ref H mv (committed os))).
  split; [exact Ec|]. split; [apply D|]. split; [apply D|].
  intros other L. destruct (cut_history _ _ L) as (changed & Sb & Eo).
  assert (D' : db_file H mv (with_ctxs a1 []) (set_data s1 i (header (history_ref H mv (committed os)) ++ other)) n i changed).
  { rewrite <- Eo. apply (forged_file H mv (with_ctxs a1 []) s1 n i (committed os) changed); auto. }
  destruct (open_ok H mv behind HL _ _ _ _ _ D') as (s2 & a2 & Eopen & S2 & _); [reflexivity|].
  eexists s2, a2, _, changed. split; [exact Eopen|].
  assert (Ch : chain H mv None changed = chain H mv None (committed os)) by now apply alike_chain.
  assert (Ks : history_keys H mv None 0 changed = history_keys H mv None 0 (committed os)) by now apply alike_keys.
  split; [|split; [|split; [exact Sb|split; [exact Eo|]]]].
  - rewrite (synced_commits _ _ _ _ _ _ _ _ S2), (synced_commits _ _ _ _ _ _ _ _ Sy), Ch. now destruct Sb.
  - rewrite (synced_keys _ _ _ _ _ _ _ _ S2), (synced_keys _ _ _ _ _ _ _ _ Sy), Ks. now destruct Sb.
  - eapply synced_shows; eauto.
Qed.
Print Assumptions C124_changed_data_is_noticed_refuted.

(** The example session; the seven bytes of its contents are replaced by zeros. *)
Definition ex_forged : fsys * dbapp * outcome Z :=
  let '(a, s, id) := ex_state (ex_run 100 ex_ops) in
  let '(s1, a1, _) := close_db a s id in
  match dir_get (f_dir s1) ex_name with
  | Some (EFile i) =>
    let d := data_of s1 i in
    open_db toy_sha x00 no_behind ex_name (with_ctxs a1 [])
      (set_data s1 i (firstn (length d - 7) d ++ repeat x00 7))
  | _ => (s1, a1, Err)
  end.
Example C124_ex : length (history_data (committed ex_ops)) = 7 /\
  let '(a, s, id) := ex_state (ex_run 100 ex_ops) in
  let '(s2, a2, r) := ex_forged in
  match r with
  | Ok id2 =>
    commits_db a2 id2 = commits_db a id /\
    read_by_hash a s id (ex_h x01) = Ok [x1a; x1b] /\ read_by_hash a2 s2 id2 (ex_h x01) = Ok [x00; x00]
  | _ => False
  end.
Proof. unfold ex_forged. rewrite ex_at. vm_compute. repeat split. Qed.

(** *** C125 *)
(** The first 64 bytes of an encoded tree are taken as its head, whatever the leaves are. *)
Theorem C125_decoded_head_is_checked_refuted : forall H, sha_ok H ->
  forall blocks t head behind, build_tree H (Some blocks) = Ok t -> (zlen (ht_content t) < two63)%Z ->
  length head = 64 -> head <> ht_head t ->
  exists t', ht_of_content H (GSlice (head ++ skipn 64 (ht_content t)) behind) = Ok t' /\
    ht_head t' = head /\ ht_leaves t' = ht_leaves t /\
    merkle H (map leaf_head (ht_leaves t')) (ht_head t) /\
    ~ merkle H (map leaf_head (ht_leaves t')) (ht_head t').
Proof.
  intros H HL blocks t head behind E L Lh N.
  pose proof (build_tree_wf H HL blocks t E) as W. pose proof (C06_head_is_merkle_root H HL _ _ E) as M.
  destruct W as (W1 & W2 & W3). exists (HashTree head (ht_left t) (ht_right t)).
  assert (Es : head ++ skipn 64 (ht_content t) = ht_content (HashTree head (ht_left t) (ht_right t))).
  { unfold ht_content at 1. rewrite <- W1, skipn_app, skipn_all, Nat.sub_diag. reflexivity. }
  split.
  - rewrite Es. apply ht_roundtrip.
    + repeat split; auto.
    + unfold ht_content, zlen in *. cbn [ht_head ht_left ht_right]. rewrite app_length in *. lia.
  - split; [reflexivity|]. split; [reflexivity|]. split; [exact M|].
    intros M'. apply N. exact (C06_merkle_root_unique H _ _ _ M' M).
Qed.
Print Assumptions C125_decoded_head_is_checked_refuted.

(** The hash of a commit is not stored: every decoded commit has the hash of its decoded fields. *)
Theorem C125_decoded_commits_have_the_hash_of_their_fields : forall H mv, sha_ok H ->
  forall s c, commit_of_content H mv s = Ok c -> hashed_by H c.
Proof. intros H mv HL s c. now apply decoded_commit_hashed. Qed.
Print Assumptions C125_decoded_commits_have_the_hash_of_their_fields.

(** So has every commit of a database that was opened, whatever file it was opened from. *)
Theorem C125_opened_commits_have_the_hash_of_their_fields : forall H mv behind, sha_ok H ->
  forall n a s s' a' id cs, open_db H mv behind n a s = (s', a', Ok id) ->
  commits_db a' id = Ok cs -> Forall (hashed_by H) cs.
Proof. intros H mv behind HL n a s s' a' id cs. now apply opened_commits_hashed. Qed.
Print Assumptions C125_opened_commits_have_the_hash_of_their_fields.

Example C125_ex : ex_hash x09 <> ht_head ex_tree /\
  match ht_of_content toy_sha (sl (ex_hash x09 ++ skipn 64 (ht_content ex_tree))) with
  | Ok t => ht_head t = ex_hash x09 /\ map leaf_head (ht_leaves t) = [ex_hash x01; ex_hash x02]
  | _ => False
  end.
Proof. split; [discriminate|]. vm_compute. split; reflexivity. Qed.
Example C125_mined :
  match commit_of_content toy_sha x00 (sl (commit_content (commit_now toy_sha x00 ex_tree (-5) (Some (ex_hash x09)) (Some 0%Z)))) with
  | Ok c => match c_mine c with Some m => m_result m = c_hash c | None => False end
  | _ => False
  end.
Proof. vm_compute. reflexivity. Qed.

(** *** C126 *)
(** Any keys and commits, with any bytes after them, make a file that Open accepts and lists as it is. *)
Theorem C126_open_checks_the_history_refuted : forall H mv behind, sha_ok H ->
  forall keys cs area, keys <> [] -> cs <> [] ->
  Forall (fun k => length (k_hash k) = 64 /\ (0 <= k_kind k < two64)%Z /\ (0 <= p_from (k_content k) < two64)%Z /\
                   (0 < p_length (k_content k) < two64)%Z /\ length (k_commit k) = 64) keys ->
  Forall (fun c => exists blocks values t parent, build_tree H (Some blocks) = Ok values /\
                   c = commit_now H mv values t parent None /\ (- two63 <= t < two63)%Z /\
                   (forall p, parent = Some p -> length p = 64)) cs ->
  let rc := reference_content (Reference keys cs) in
  (zlen (put_u64 (zlen rc) ++ rc ++ area) < two63)%Z ->
  forall n a s i, (0 < a_chunk a)%Z -> a_ctxs a = [] ->
  dir_get (f_dir s) n = Some (EFile i) -> data_of s i = put_u64 (zlen rc) ++ rc ++ area ->
  exists s' a' id, open_db H mv behind n a s = (s', a', Ok id) /\
    commits_db a' id = Ok cs /\ content_keys a' id = Ok keys.
Proof.
  intros H mv behind HL keys cs area Nk Nc Fk Fc rc L n a s i P Ea En Ed.
  assert (W : wf_reference H mv (Reference keys cs)).
  { repeat split; auto; cbn [r_keys r_commits].
    - eapply Forall_impl; [|exact Fk]. intros k (A & B & C & D & E). repeat split; auto; try apply B; try apply C; try apply D.
    - eapply Forall_impl; [|exact Fc]. intros c (bl & v & t & p & Eb & -> & Rt & Lp). exists v, t, p, None.
      repeat split; try apply Rt; auto; try (eapply build_tree_wf; eauto; fail); try discriminate. }
  assert (Er : retrieve_reference H mv behind (a_chunk a) (data_of s i) =
               Ok (Some (Reference keys cs), zlen (header (Some (Reference keys cs))))).
  { rewrite Ed. unfold rc. rewrite app_assoc. apply retrieve_some; auto. }
  unfold open_db. rewrite Ea, En, Er. unfold sys_open. rewrite En. cbn [existsb].
  eexists _, _, _. split; [reflexivity|]. split; reflexivity.
Qed.
Print Assumptions C126_open_checks_the_history_refuted.

(** A commit whose parent is nowhere, and a key of another commit that points behind the end of the file. *)
Definition ex_bad_keys : list content_key := [ContentKey (ex_hash x01) 7 (Pointer 1000 5) (ex_hash xaa)].
Definition ex_bad_commits : list commit := [commit_now toy_sha x00 ex_tree 5 (Some (ex_hash x09)) None].
Definition ex_bad_file : bytes :=
  let rc := reference_content (Reference ex_bad_keys ex_bad_commits) in put_u64 (zlen rc) ++ rc ++ [x0a].
Definition ex_bad_fs : fsys :=
  let (s, _) := new_db ex_name ex_fs in
  match dir_get (f_dir s) ex_name with Some (EFile i) => set_data s i ex_bad_file | _ => s end.
Example C126_ex :
  let '(s, a, r) := open_db toy_sha x00 no_behind ex_name (ex_app 100) ex_bad_fs in
  r = Ok 0%Z /\ commits_db a 0 = Ok ex_bad_commits /\ content_keys a 0 = Ok ex_bad_keys /\
  commit_by_hash a 0 (ex_hash x09) = Err /\ commit_by_hash a 0 (ex_hash xaa) = Err /\
  read_by_hash a s 0 (ex_hash x01) = Err.
Proof. vm_compute. repeat split. Qed.
