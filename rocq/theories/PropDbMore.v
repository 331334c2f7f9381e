(** Further property theorems for the file database (C76 - C87). *)
From Coq Require Import List ZArith NArith Lia Bool.
From Coq Require Import Init.Byte Strings.Byte.
From Verif Require Import Base BaseLemmas HashModel HashProofs SpecHash HashTreeModel HashTreeProofs
  RefModel RefProofs SpecRef DbModel SpecDb DbRefProofs DbFsProofs DbCommitProofs DbOpenProofs DbApiProofs
  DbSession DbSessionProofs DbMoreProofs DbMultiProofs DbFrameProofs PropHash PropDb.
Import ListNotations.

(** *** C76 *)
(** Whatever the state of the application, the locks, the failing writes and the moment of a crash. *)
Theorem C76_commit_changes_three_names_only : forall H mv now a s id c,
  (forall n i, dir_get (f_dir s) n = Some (EFile i) -> i < length (f_data s)) ->
  (forall n m i, dir_get (f_dir s) n = Some (EFile i) -> dir_get (f_dir s) m = Some (EFile i) -> n = m) ->
  ctx_get (a_ctxs a) id = Some c ->
  In (fst (fst (commit_db H mv now a s id))) (commit_states H mv now a s id) /\
  forall x, In x (commit_states H mv now a s id) ->
  forall m, m <> x_name c -> m <> x_name c ++ [x2e] ++ a_dst a -> m <> x_name c ++ [x2e] ++ a_bck a ->
  dir_get (f_dir x) m = dir_get (f_dir s) m /\ file_at x m = file_at s m.
Proof.
  intros H mv now a s id c V I Ec. split; [apply commit_states_last|]. intros x Ix.
  pose proof (commit_frame_all H mv now a s id c (conj V I) Ec) as F. rewrite Forall_forall in F. exact (F x Ix).
Qed.
Print Assumptions C76_commit_changes_three_names_only.

(** A database with another file beside it; the second write of the commit fails. *)
Definition ex_other : fsys :=
  let '(a, s, id) := ex_state (ex_run 100 [ex_write x01 [x0a; x0b]]) in
  FSys ((([x6f], EFile 1)) :: f_dir s) (f_data s ++ [[x2a]]) (f_handles s) (f_locks s) [None; Some 1].
Example C76_ex : let '(a, s, id) := ex_state (ex_run 100 [ex_write x01 [x0a; x0b]]) in
  (length (commit_states toy_sha x00 9 a ex_other id) > 300) /\
  file_at (fst (fst (commit_db toy_sha x00 9 a ex_other id))) [x6f] = Some [x2a] /\
  snd (commit_db toy_sha x00 9 a ex_other id) = Ok tt.
Proof. vm_compute. repeat split. apply Nat.leb_le. vm_compute. reflexivity. Qed.

(** *** C77: false: the two other names are not reserved. *)
Theorem C77_commit_destroys_databases_named_like_its_copies_refuted : forall H mv behind, sha_ok H ->
  forall a0 n s0 os now a s id, session H mv behind a0 n s0 os (a, s, id) ->
  allowed H mv (a_chunk a0) (committed os, pending os) (OCommit now) ->
  exists s' a', commit_db H mv now a s id = (s', a', Ok tt) /\
    nothing_at s' (n ++ [x2e] ++ a_dst a0) /\ nothing_at s' (n ++ [x2e] ++ a_bck a0).
Proof.
  intros H mv behind HL a0 n s0 os now a s id S (Np & T & Ft & Ck). cbn [fst snd] in *.
  destruct (session_synced H mv behind HL _ _ _ _ _ _ _ S) as (Sy & F & Ch & Ed & Eb).
  pose proof Sy as (i & h & (A1 & A2 & A3 & A4 & A5 & A6 & A7 & A8 & A9 & A10 & A11) & Ec & Eh).
  assert (W : ok_batch (pending os, now)) by (split; auto).
  destruct (commit_general H mv HL a s n id (committed os) (pending os) h i i (history_data (committed os)) now)
    as (s' & a' & E & Ea & (d & D1 & _) & _); auto.
  - now rewrite A8.
  - exact (proj1 A3 _ _ A5).
  - intros X. apply (side_neq n (a_dst a)). exact (proj2 A3 _ _ _ X A5).
  - intros X. apply (side_neq n (a_bck a)). exact (proj2 A3 _ _ _ X A5).
  - rewrite A9. exact A11.
  - intros Nb. split; [rewrite Ch; apply Ck|]. intros X. pose proof (history_data_pos _ Nb A10) as Y. rewrite X in Y. cbn in Y. lia.
  - exact (fits_data H mv _ Ft).
  - exists s', a'. split; [exact E|]. unfold nothing_at.
    change (n ++ [x2e] ++ a_dst a0) with (side n (a_dst a0)). change (n ++ [x2e] ++ a_bck a0) with (side n (a_bck a0)).
    rewrite <- Ed, <- Eb. split; rewrite D1.
    + rewrite bytes_eqb_neq by (intros X; symmetry in X; now apply side_neq in X). now rewrite bytes_eqb_refl.
    + rewrite bytes_eqb_neq by (intros X; symmetry in X; now apply side_neq in X).
      destruct (bytes_eqb (side n (a_dst a)) (side n (a_bck a))); [reflexivity|]. now rewrite bytes_eqb_refl.
Qed.
Print Assumptions C77_commit_destroys_databases_named_like_its_copies_refuted.

(** The database db.d exists before and is gone after a commit of db. *)
Definition ex_dst_fs : fsys := FSys [(ex_name ++ [x2e; x64], EFile 0)] [[x2a]] [] [] [].
Example C77_ex :
  exists st, start toy_sha x00 no_behind (ex_app 100) ex_name ex_dst_fs = Ok st /\
  exists a s id, exec toy_sha x00 no_behind ex_name st [ex_write x01 [x0a]] = Ok (a, s, id) /\
    file_at s (ex_name ++ [x2e; x64]) = Some [x2a] /\
    calm ex_dst_fs /\ clear (ex_app 100) ex_dst_fs ex_name.
Proof.
  eexists. split; [vm_compute; reflexivity|]. eexists _, _, _. split; [vm_compute; reflexivity|].
  split; [vm_compute; reflexivity|]. split; [|split; discriminate].
  repeat split; cbn [ex_dst_fs f_dir f_data dir_get].
  - intros m j. destruct (bytes_eqb _ m); [|discriminate]. intros [= <-]. cbn. lia.
  - intros m m' j. destruct (bytes_eqb _ m) eqn:E1; [|discriminate]. destruct (bytes_eqb _ m') eqn:E2; [|discriminate].
    apply bytes_eqb_true in E1, E2. congruence.
Qed.

(** *** C78 *)
(** Another application's commit does not change what an open context reads. *)
Theorem C78_open_contexts_read_a_snapshot : forall H mv behind, sha_ok H ->
  forall a0 n s0 os a s id, session H mv behind a0 n s0 os (a, s, id) ->
  forall t1, allowed H mv (a_chunk a0) (committed os, pending os) (OCommit t1) ->
  exists s1 b1 id2 s2 a2,
    open_db H mv behind n (with_ctxs a0 []) s = (s1, b1, Ok id2) /\
    commit_db H mv t1 a s1 id = (s2, a2, Ok tt) /\
    shows H (b1, s1, id2) (committed os) /\ shows H (b1, s2, id2) (committed os) /\
    (forall p, read_db b1 s2 id2 p = read_db b1 s1 id2 p) /\
    (forall h, read_by_hash b1 s2 id2 h = read_by_hash b1 s1 id2 h).
Proof.
  intros H mv behind HL a0 n s0 os a s id S t1 Al.
  pose proof Al as (Np & T & Ft & Ck). cbn [fst snd] in *.
  destruct (session_synced H mv behind HL _ _ _ _ _ _ _ S) as (Sy & F & Ch & Ed & Eb).
  destruct (second_opener H mv behind HL a0 n a s id (committed os) (pending os) Sy Ch Ed Eb)
    as (s1 & b1 & E1 & Sy1 & Sb & (C1 & C2 & C3) & Nc).
  destruct (writes_synced H mv (pending os) b1 s1 n 0%Z (committed os) [] Sb F) as (Sb2 & (C4 & C5 & C6) & Nw). cbn [app] in Sb2.
  destruct (commit_other H mv HL a (writes b1 0 (pending os)) s1 n id 0%Z (committed os) (pending os) (pending os) t1 t1)
    as (s2 & a2 & s3 & b3 & Q1 & Q2 & Q3 & _); auto.
  - congruence.
  - congruence.
  - intros c1 c2 Y1 Y2. destruct (Nw _ Y2) as (c2' & Y2' & ->). eauto.
  - split; auto.
  - split; auto.
  - now rewrite Ch.
  - now rewrite C6, C3.
  - assert (R : forall p, read_db b1 s2 0 p = read_db b1 s1 0 p).
    { intros p. specialize (Q3 p). now rewrite !writes_read in Q3. }
    assert (RH : forall h, read_by_hash b1 s2 0 h = read_by_hash b1 s1 0 h).
    { intros h. unfold read_by_hash. destruct (content_keys b1 0) as [ks| | |]; auto. cbn [bind].
      destruct (keys_fetch ks h) as [k| | |]; auto. cbn [bind]. apply R. }
    assert (Sh : shows H (b1, s1, 0%Z) (committed os)) by (eapply synced_shows; eauto).
    exists s1, b1, 0%Z, s2, a2. split; [exact E1|]. split; [exact Q1|]. split; [exact Sh|]. split; [|split; [exact R|exact RH]].
    destruct Sh as (X1 & (keys & X2 & X3) & X4 & X5). split; [exact X1|]. split.
    + exists keys. split; [|exact X3]. eapply Forall2_impl'; [|exact X2]. intros ct k (Y1 & Y2 & Y3). rewrite R. auto.
    + split; intros h; [intros ct; rewrite RH; apply X4|rewrite RH; apply X5].
Qed.
Print Assumptions C78_open_contexts_read_a_snapshot.

(** The state of [ex_session] satisfies the hypotheses: a commit of what is pending. *)
Example C78_ex : pending ex_ops = [Content (ex_h x04) [x1c] 7] /\
  allowed toy_sha x00 100 (committed ex_ops, pending ex_ops) (OCommit 8).
Proof. split; [reflexivity|]. vm_compute committed. allowed. Qed.

(** *** C79: false for a read chunk size of zero. *)
Theorem C79_chunk_size_zero_crashes_open_refuted : forall H mv behind a n s d,
  a_chunk a = 0%Z -> Forall (fun x => x_name (snd x) <> n) (a_ctxs a) ->
  file_at s n = Some d -> (8 <= zlen d)%Z ->
  open_db H mv behind n a s = (s, a, Panic).
Proof.
  intros H mv behind a n s d Ch F E L. unfold open_db.
  replace (existsb (fun x => bytes_eqb (x_name (snd x)) n) (a_ctxs a)) with false.
  2:{ symmetry. induction F as [|x l Fx F IH]; cbn [existsb]; auto. rewrite IH, bytes_eqb_neq by auto. reflexivity. }
  unfold file_at in E. destruct (dir_get (f_dir s) n) as [[i|]|]; try discriminate. injection E as E.
  unfold data_of. rewrite E, Ch, retrieve_zero by auto. reflexivity.
Qed.
Print Assumptions C79_chunk_size_zero_crashes_open_refuted.

(** A later Commit never returns: every bound on the iterations of the copy loop is reached. *)
Theorem C79_chunk_size_zero_hangs_commit_refuted : forall H mv now a s id c r r' i p,
  a_chunk a = 0%Z -> ctx_get (a_ctxs a) id = Some c -> x_ref c = Some r -> (0 <= x_off c)%Z ->
  nth_error (f_handles s) (x_conn c) = Some (Handle i p true) -> f_faults s = [] -> f_locks s = [] ->
  dir_get (f_dir s) (x_name c) <> Some EDir -> dir_get (f_dir s) (side (x_name c) (a_dst a)) <> Some EDir ->
  update_reference H mv c now = Ok r' ->
  forall fuel, snd (commit_fuel H mv fuel now a s id) = Fuel.
Proof. intros. eapply commit_zero; eauto. Qed.
Print Assumptions C79_chunk_size_zero_hangs_commit_refuted.

(** After New, Open, Write and Commit with chunk size zero: the next Commit hangs, the next Open panics. *)
Example C79_ex : exists a s id c r r' i p d,
  ex_run 0 [ex_write x01 [x0a]; OCommit 5] = Ok (a, s, id) /\
  (a_chunk a = 0%Z /\ ctx_get (a_ctxs a) id = Some c /\ x_ref c = Some r /\ (0 <=? x_off c)%Z = true /\
   nth_error (f_handles s) (x_conn c) = Some (Handle i p true) /\ f_faults s = [] /\ f_locks s = [] /\
   dir_get (f_dir s) (x_name c) <> Some EDir /\ dir_get (f_dir s) (side (x_name c) (a_dst a)) <> Some EDir /\
   update_reference toy_sha x00 c 6 = Ok r') /\
  file_at s ex_name = Some d /\ (8 <=? zlen d)%Z = true.
Proof.
  do 9 eexists. split; [vm_compute; reflexivity|]. split.
  - split; [reflexivity|]. split; [vm_compute; reflexivity|]. split; [reflexivity|]. split; [reflexivity|].
    split; [reflexivity|]. split; [reflexivity|]. split; [reflexivity|]. split; [discriminate|]. split; [discriminate|].
    vm_compute. reflexivity.
  - split; [vm_compute; reflexivity|]. reflexivity.
Qed.

(** *** C80: false. *)
(** The disk fails while a content is written: Commit reports success, the content cannot be read. *)
Theorem C80_failed_content_write_is_not_reported_refuted : forall H mv behind, sha_ok H ->
  forall a0 n s0 os now a s id, session H mv behind a0 n s0 os (a, s, id) -> committed os = [] ->
  allowed H mv (a_chunk a0) (committed os, pending os) (OCommit now) ->
  forall before ct after k, pending os = before ++ ct :: after -> (k < length (ct_data ct)) ->
  let s1 := with_faults s (None :: map (fun _ => None) before ++ [Some k]) in
  exists s2 a2 ks1 key ks2, commit_db H mv now a s1 id = (s2, a2, Ok tt) /\
    content_keys a2 id = Ok (ks1 ++ key :: ks2) /\ length ks1 = length before /\ length ks2 = length after /\
    k_hash key = ct_hash ct /\ p_length (k_content key) = zlen (ct_data ct) /\
    Forall (fun key => read_db a2 s2 id (k_content key) = Err) (key :: ks2).
Proof.
  intros H mv behind HL a0 n s0 os now a s id S C0 (Np & T & Ft & Ck) before ct after k Ep Lk s1. cbn [fst snd] in *.
  destruct (session_synced H mv behind HL _ _ _ _ _ _ _ S) as (Sy & F & Ch & Ed & Eb).
  rewrite C0, Ep in *. cbn [app] in Ft.
  assert (W : ok_batch (before ++ ct :: after, now)) by (split; auto).
  destruct (commit_fault H mv HL a s n id before ct after k now Sy W Ft) as (s2 & a2 & d & h & E & Eg & Eh & En & Ed' & _).
  assert (Es : s1 = with_faults s (None :: repeat None (length before) ++ [Some k])).
  { unfold s1. f_equal. f_equal. f_equal. clear. induction before; cbn; f_equal; auto. }
  rewrite <- Es in E.
  set (hc := c_hash (batch_commit H mv None (before ++ ct :: after, now))).
  assert (Ek : content_keys a2 id = Ok (place hc 0 (before ++ ct :: after))).
  { unfold content_keys. rewrite Eg. cbn [x_ref history_ref r_keys history_keys fst]. rewrite app_nil_r. reflexivity. }
  rewrite place_app in Ek. cbn [place] in Ek.
  eexists s2, a2, _, _, _. split; [exact E|]. split; [exact Ek|]. split; [apply place_length|]. split; [apply place_length|].
  split; [reflexivity|]. split; [reflexivity|].
  set (hd := header (history_ref H mv [(before ++ ct :: after, now)])) in *.
  pose proof (zlen_nonneg hd) as Zh. pose proof (zlen_nonneg (batch_data before)) as Zb.
  assert (Lt : (zlen hd + zlen (batch_data before) + zlen (ct_data ct) + zlen (batch_data after) < two63)%Z).
  { unfold fits, history_file in Ft. fold hd in Ft. rewrite zlen_app in Ft.
    change (history_data [(before ++ ct :: after, now)]) with (batch_data (before ++ ct :: after) ++ []) in Ft.
    rewrite app_nil_r, batch_data_app in Ft. change (batch_data (ct :: after)) with (ct_data ct ++ batch_data after) in Ft.
    rewrite !zlen_app in Ft. lia. }
  assert (R : forall from len, (zlen (batch_data before) <= from)%Z -> (0 < len)%Z ->
             (zlen (batch_data before) + zlen (ct_data ct) <= from + len)%Z ->
             (zlen hd + from + len < two63)%Z -> read_db a2 s2 id (Pointer from len) = Err).
  { intros from len P1 P2 P3 P4. unfold read_db. rewrite Eg. cbn [p_length p_from x_conn x_off].
    replace (two63 <=? len)%Z with false by (symmetry; apply Z.leb_gt; lia).
    assert (U : i64 (u64 (zlen hd + from)) = (zlen hd + from)%Z).
    { rewrite u64_small by (rewrite two63_val, two64_val in *; lia). apply i64_small. lia. }
    rewrite U. unfold read_at. rewrite Eh, Ed'.
    replace (zlen hd + from <? 0)%Z with false by (symmetry; apply Z.ltb_ge; lia).
    replace (len =? 0)%Z with false by (symmetry; apply Z.eqb_neq; lia).
    rewrite !zlen_app. replace (zlen (firstn k (ct_data ct))) with (Z.of_nat k) by (unfold zlen; rewrite firstn_length; lia).
    match goal with |- context [(?x <=? ?y)%Z] => replace (x <=? y)%Z with false by (symmetry; apply Z.leb_gt; unfold zlen in *; lia) end.
    reflexivity. }
  destruct W as (_ & Fo & _). cbn [fst] in Fo. apply Forall_app in Fo as (_ & Fo). inversion Fo as [|? ? Fc Fa]; subst.
  assert (Pc : (0 < zlen (ct_data ct))%Z).
  { destruct Fc as (_ & Nc & _). unfold zlen. destruct (ct_data ct); [congruence|]. cbn [length]. lia. }
  constructor.
  - cbn [k_content]. pose proof (zlen_nonneg (batch_data after)). apply R; lia.
  - assert (G : forall l from, Forall ok_content l -> (zlen (batch_data before) + zlen (ct_data ct) <= from)%Z ->
        (zlen hd + from + zlen (batch_data l) < two63)%Z ->
        Forall (fun key => read_db a2 s2 id (k_content key) = Err) (place hc from l)).
    { induction l as [|x l IH]; intros from Fl P1 P2; cbn [place]; constructor.
      - cbn [k_content]. change (batch_data (x :: l)) with (ct_data x ++ batch_data l) in P2. rewrite zlen_app in P2.
        inversion Fl as [|? ? (_ & Nx & _) _]; subst. pose proof (zlen_nonneg (batch_data l)).
        assert (0 < zlen (ct_data x))%Z by (unfold zlen; destruct (ct_data x); [congruence|cbn [length]; lia]).
        apply R; lia.
      - change (batch_data (x :: l)) with (ct_data x ++ batch_data l) in P2. rewrite zlen_app in P2.
        inversion Fl; subst. apply IH; auto.
        + pose proof (zlen_nonneg (ct_data x)). lia.
        + lia. }
    apply G; auto; lia.
Qed.
Print Assumptions C80_failed_content_write_is_not_reported_refuted.

Definition ex_ops1 : list op := [ex_write x01 [x0a; x0b; x0c]; ex_write x02 [x0d; x0e]].
Example C80_ex : allowed toy_sha x00 100 (committed ex_ops1, pending ex_ops1) (OCommit 5) /\
  committed ex_ops1 = [] /\
  pending ex_ops1 = [Content (ex_h x01) [x0a; x0b; x0c] 7] ++ Content (ex_h x02) [x0d; x0e] 7 :: [].
Proof. split; [vm_compute committed; allowed|split; reflexivity]. Qed.

(** *** C81: false: the lock does not keep others out during the swap. *)
Theorem C81_lock_does_not_exclude_during_swap_refuted : forall H mv behind, sha_ok H ->
  forall a0 n s0 os now a s id, session H mv behind a0 n s0 os (a, s, id) ->
  allowed H mv (a_chunk a0) (committed os, pending os) (OCommit now) ->
  exists x i, In x (commit_states H mv now a s id) /\
    dir_get (f_dir s) n = Some (EFile i) /\ In i (f_locks x) /\
    (exists y j, sys_trylock n x = (y, Ok j) /\ j <> i /\ In i (f_locks y) /\ In j (f_locks y)) /\
    (exists y, new_db n x = (y, Ok tt)).
Proof.
  intros H mv behind HL a0 n s0 os now a s id S (Np & T & Ft & Ck). cbn [fst snd] in *.
  destruct (session_synced H mv behind HL _ _ _ _ _ _ _ S) as (Sy & F & Ch & _).
  assert (W : ok_batch (pending os, now)) by (split; auto).
  pose proof (commit_crash H mv HL a s n id _ _ now Sy W (fits_data H mv _ Ft)) as (_ & x & i & I & N & _ & _ & Ei & Li & O).
  pose proof Sy as (i' & h & (_ & _ & V & _ & A5 & _) & _).
  exists x, i. split; [exact I|]. split; [exact Ei|]. split; [exact Li|]. unfold nothing_at in N. split.
  - unfold sys_trylock. rewrite N. eexists _, _. split; [reflexivity|].
    cbn [with_locks f_locks]. split; [|split; [right; exact Li|left; reflexivity]].
    intros X. pose proof (commit_grows H mv now a s id x V I) as G. apply (proj1 V) in Ei. lia.
  - unfold new_db, sys_stat, sys_create. rewrite N. eauto.
Qed.
Print Assumptions C81_lock_does_not_exclude_during_swap_refuted.

Example C81_ex : allowed toy_sha x00 100 (committed ex_ops1, pending ex_ops1) (OCommit 5).
Proof. vm_compute committed. allowed. Qed.

(** *** C82: false. *)
Theorem C82_commit_revives_a_deleted_database_refuted : forall H mv behind, sha_ok H ->
  forall a0 n s0 os now a s id, session H mv behind a0 n s0 os (a, s, id) ->
  allowed H mv (a_chunk a0) (committed os, pending os) (OCommit now) ->
  exists s1 s2 a2, delete_db n s = (s1, Ok tt) /\ exists_db s1 n = false /\
    commit_db H mv now a s1 id = (s2, a2, Ok tt) /\ exists_db s2 n = true /\
    file_at s2 n = Some (history_file H mv (committed os ++ [(pending os, now)])) /\
    shows H (a2, s2, id) (committed os ++ [(pending os, now)]).
Proof.
  intros H mv behind HL a0 n s0 os now a s id S (Np & T & Ft & Ck). cbn [fst snd] in *.
  destruct (session_synced H mv behind HL _ _ _ _ _ _ _ S) as (Sy & F & Ch & Ed & Eb).
  destruct (commit_deleted H mv HL a s n id (committed os) (pending os) now Sy) as (s1 & s2 & a2 & E1 & N & E2 & Sy2); auto.
  - split; auto.
  - now rewrite Ch.
  - exists s1, s2, a2. split; [exact E1|]. unfold nothing_at in N. split; [unfold exists_db, sys_stat; now rewrite N|].
    split; [exact E2|]. pose proof Sy2 as (i & h & (_ & _ & _ & _ & A5 & _ & _ & _ & A9 & _) & _).
    split; [unfold exists_db, sys_stat; now rewrite A5|].
    split; [unfold file_at; rewrite A5; f_equal; exact A9|]. eapply synced_shows; eauto.
Qed.
Print Assumptions C82_commit_revives_a_deleted_database_refuted.

Example C82_ex : allowed toy_sha x00 100 (committed ex_ops, pending ex_ops) (OCommit 8).
Proof. exact C36_ex. Qed.

(** *** C83: false. *)
Theorem C83_open_of_a_zeroed_file_panics_refuted : forall H mv behind a n s d,
  (0 <= a_chunk a)%Z -> Forall (fun x => x_name (snd x) <> n) (a_ctxs a) ->
  file_at s n = Some (repeat x00 8 ++ d) ->
  open_db H mv behind n a s = (s, a, Panic).
Proof.
  intros H mv behind a n s d Ch F E. unfold open_db.
  replace (existsb (fun x => bytes_eqb (x_name (snd x)) n) (a_ctxs a)) with false.
  2:{ symmetry. induction F as [|x l Fx F IH]; cbn [existsb]; auto. rewrite IH, bytes_eqb_neq by auto. reflexivity. }
  unfold file_at in E. destruct (dir_get (f_dir s) n) as [[i|]|]; try discriminate.
  assert (Ed : data_of s i = repeat x00 8 ++ d) by exact (f_equal (fun o => match o with Some x => x | None => [] end) E). rewrite Ed, retrieve_zeros by auto. reflexivity.
Qed.
Print Assumptions C83_open_of_a_zeroed_file_panics_refuted.

Example C83_ex : file_at (FSys [(ex_name, EFile 0)] [repeat x00 12] [] [] []) ex_name = Some (repeat x00 8 ++ repeat x00 4).
Proof. reflexivity. Qed.

(** *** C84 *)
(** Read gives the bytes of the file at one place, all of them, or fails. *)
Theorem C84_read_is_exact_or_fails : forall a s id p b, (0 <= p_length p)%Z ->
  read_db a s id p = Ok b ->
  zlen b = p_length p /\
  exists c h i pos, ctx_get (a_ctxs a) id = Some c /\ nth_error (f_handles s) (x_conn c) = Some h /\
    h_open h = true /\ h_ino h = i /\
    ((0 < p_length p)%Z -> exists before after, data_of s i = before ++ b ++ after /\ zlen before = pos /\
                             pos = (((x_off c + p_from p) mod two64 + two63) mod two64 - two63)%Z).
Proof.
  intros a s id p b P. unfold read_db. destruct (ctx_get (a_ctxs a) id) as [c|]; [|discriminate].
  destruct (Z.leb_spec two63 (p_length p)); [discriminate|].
  set (off := i64 _). unfold read_at. destruct (nth_error (f_handles s) (x_conn c)) as [[i q [|]]|] eqn:Eh; try discriminate.
  destruct (Z.ltb_spec off 0); [discriminate|].
  destruct (Z.eqb_spec (p_length p) 0) as [Z0|Nz].
  - intros [= <-]. split; [symmetry; exact Z0|]. exists c, (Handle i q true), i, off.
    split; [reflexivity|]. split; [exact Eh|]. split; [reflexivity|]. split; [reflexivity|]. lia.
  - destruct (Z.leb_spec (off + p_length p) (zlen (data_of s i))) as [L|L]; [|discriminate]. intros [= <-].
    assert (Lb : length (firstn (Z.to_nat (p_length p)) (skipn (Z.to_nat off) (data_of s i))) = Z.to_nat (p_length p)).
    { rewrite firstn_length, skipn_length. unfold zlen in L. lia. }
    split; [unfold zlen; rewrite Lb; lia|].
    exists c, (Handle i q true), i, off. split; [reflexivity|]. split; [exact Eh|]. split; [reflexivity|]. split; [reflexivity|].
    intros _. exists (firstn (Z.to_nat off) (data_of s i)), (skipn (Z.to_nat (p_length p)) (skipn (Z.to_nat off) (data_of s i))).
    split; [now rewrite firstn_skipn, firstn_skipn|]. split.
    + unfold zlen in *. rewrite firstn_length. lia.
    + unfold off, u64. rewrite i64_mod. unfold i64. set (z := (x_off c + p_from p)%Z).
      pose proof (Z.mod_pos_bound z two64 ltac:(reflexivity)) as B. rewrite two63_val, two64_val in *.
      destruct (Z.ltb_spec (z mod 18446744073709551616) 9223372036854775808) as [Hl|Hl].
      * set (y := (z mod 18446744073709551616)%Z) in *. rewrite (Z.mod_small (y + _)); lia.
      * set (y := (z mod 18446744073709551616)%Z) in *.
        rewrite <- (Z.mod_add (y + 9223372036854775808) (-1)) by lia.
        rewrite (Z.mod_small (y + 9223372036854775808 + _)); lia.
Qed.
Print Assumptions C84_read_is_exact_or_fails.

(** But the place need not be in the data area: pointers wrap around to the header. *)
Theorem C84_read_reaches_the_header_refuted : forall H mv behind, sha_ok H ->
  forall a0 n s0 os a s id, session H mv behind a0 n s0 os (a, s, id) -> committed os <> [] ->
  exists from hd, (0 <= from < two64)%Z /\ file_at s n = Some (hd ++ history_data (committed os)) /\
    (8 < zlen hd)%Z /\
    forall len, (0 <= len <= zlen hd)%Z -> read_db a s id (Pointer from len) = Ok (firstn (Z.to_nat len) hd).
Proof.
  intros H mv behind HL a0 n s0 os a s id S Nb.
  destruct (session_synced H mv behind HL _ _ _ _ _ _ _ S) as (Sy & _).
  pose proof Sy as (i & h & (A1 & A2 & A3 & A4 & A5 & A6 & A7 & A8 & A9 & A10 & A11) & Ec & Eh).
  set (hd := header (history_ref H mv (committed os))) in *.
  assert (L8 : (8 < zlen hd)%Z).
  { unfold hd, history_ref. destruct (committed os) as [|b bs] eqn:E; [congruence|]. unfold header. rewrite zlen_app.
    assert (zlen (put_u64 (zlen (reference_content (Reference (history_keys H mv None 0 (b :: bs)) (chain H mv None (b :: bs))))) ) = 8)%Z by reflexivity.
    assert (0 < zlen (reference_content (Reference (history_keys H mv None 0 (b :: bs)) (chain H mv None (b :: bs)))))%Z; [|lia].
    unfold reference_content. rewrite zlen_app.
    match goal with |- (0 < zlen (put_u64 ?z) + _)%Z => change (zlen (put_u64 z)) with 8%Z end.
    match goal with |- (0 < 8 + zlen ?l)%Z => pose proof (zlen_nonneg l) end. lia. }
  assert (Lf : (zlen hd + zlen (history_data (committed os)) < two63)%Z).
  { unfold fits, history_file in A11. fold hd in A11. now rewrite zlen_app in A11. }
  pose proof (zlen_nonneg (history_data (committed os))) as Zd.
  exists (two64 - zlen hd)%Z, hd. split; [unfold two63, two64 in *; lia|].
  split. { unfold file_at. rewrite A5. f_equal. exact A9. }
  split; [exact L8|]. intros len Ll. unfold read_db. rewrite Ec. cbn [p_length p_from x_conn x_off]. fold hd.
  replace (two63 <=? len)%Z with false by (symmetry; apply Z.leb_gt; lia).
  replace (zlen hd + (two64 - zlen hd))%Z with two64 by lia. change (i64 (u64 two64)) with 0%Z.
  unfold read_at. rewrite Eh. cbn [Z.ltb Z.compare]. destruct (Z.eqb_spec len 0) as [->|Nl]; [reflexivity|].
  rewrite A9. unfold history_file. fold hd. rewrite zlen_app.
  replace (0 + len <=? zlen hd + zlen (history_data (committed os)))%Z with true by (symmetry; apply Z.leb_le; lia).
  cbn [Z.to_nat skipn]. f_equal. rewrite firstn_app. unfold zlen in Ll.
  replace (Z.to_nat len - length hd) with 0 by lia. cbn [firstn]. now rewrite app_nil_r.
Qed.
Print Assumptions C84_read_reaches_the_header_refuted.

Example C84_ex : committed ex_ops <> [].
Proof. discriminate. Qed.

(** *** C85 *)
(** The states of one application, reached by any calls while anything happens to the file system. *)
Inductive reached (H : bytes -> bytes) (mv : byte) (behind : bytes -> bytes) : dbapp -> Prop :=
| reached_new dst bck chunk : reached H mv behind (App dst bck chunk [])
| reached_open a n s : reached H mv behind a -> reached H mv behind (snd (fst (open_db H mv behind n a s)))
| reached_write a id h d k : reached H mv behind a -> reached H mv behind (fst (write_db a id h d k))
| reached_cancel a id : reached H mv behind a -> reached H mv behind (fst (cancel_db a id))
| reached_commit a s id now : reached H mv behind a -> reached H mv behind (snd (fst (commit_db H mv now a s id)))
| reached_close a s id : reached H mv behind a -> reached H mv behind (snd (fst (close_db a s id))).

Theorem C85_a_database_is_open_once : forall H mv behind a, reached H mv behind a ->
  (forall id1 id2 c1 c2, ctx_get (a_ctxs a) id1 = Some c1 -> ctx_get (a_ctxs a) id2 = Some c2 ->
     x_name c1 = x_name c2 -> id1 = id2) /\
  (forall id c s, ctx_get (a_ctxs a) id = Some c -> open_db H mv behind (x_name c) a s = (s, a, Err)).
Proof.
  intros H mv behind a R.
  assert (G : forall l id c, ctx_get l id = Some c -> In (id, c) l).
  { induction l as [|[k x] l IH]; cbn [ctx_get]; [discriminate|]. intros id c.
    destruct (Z.eqb_spec k id) as [->|]; [intros [= <-]; now left|]. right. auto. }
  split.
  - assert (Up : forall l id c c', (forall id1 id2 c1 c2, ctx_get l id1 = Some c1 -> ctx_get l id2 = Some c2 ->
        x_name c1 = x_name c2 -> id1 = id2) -> ctx_get l id = Some c -> x_name c' = x_name c ->
        forall id1 id2 c1 c2, ctx_get (ctx_set l id c') id1 = Some c1 -> ctx_get (ctx_set l id c') id2 = Some c2 ->
        x_name c1 = x_name c2 -> id1 = id2).
    { intros l id c c' U E En id1 id2 c1 c2. rewrite !ctx_get_set.
      destruct (Z.eqb_spec id id1), (Z.eqb_spec id id2); intros E1 E2 Ex; try congruence.
      - injection E1 as <-. subst. eapply U; eauto. congruence.
      - injection E2 as <-. subst. eapply U; eauto. congruence.
      - eapply U; eauto. }
    induction R as [dst bck chunk|a n s R IH|a id h d k R IH|a id R IH|a s id now R IH|a s id R IH].
    + intros id1 id2 c1 c2 E. discriminate.
    + unfold open_db. destruct (existsb _ _) eqn:Ex; [exact IH|].
      destruct (dir_get (f_dir s) n) as [[i|]|]; [|exact IH|exact IH].
      destruct (retrieve_reference _ _ _ _ _) as [[ref off]| | |]; try exact IH.
      destruct (sys_open n s) as [s' [h| | |]]; try exact IH.
      cbn [fst snd with_ctxs a_ctxs]. intros id1 id2 c1 c2. rewrite !ctx_get_set.
      assert (N : forall id c, ctx_get (a_ctxs a) id = Some c -> x_name c <> n).
      { intros id c Eg En. apply G in Eg. assert (X : existsb (fun x => bytes_eqb (x_name (snd x)) n) (a_ctxs a) = true).
        { apply existsb_exists. exists (id, c). split; auto. cbn [snd]. rewrite En. apply bytes_eqb_refl. }
        congruence. }
      destruct (Z.eqb_spec (zlen (a_ctxs a)) id1), (Z.eqb_spec (zlen (a_ctxs a)) id2); intros E1 E2 En; try congruence.
      * injection E1 as <-. cbn [x_name] in En. exfalso. eapply N; eauto.
      * injection E2 as <-. cbn [x_name] in En. exfalso. eapply N; eauto.
      * eapply IH; eauto.
    + unfold write_db. destruct (ctx_get (a_ctxs a) id) as [c|] eqn:E; [|exact IH].
      destruct (content_now h d k); try exact IH. eapply Up; eauto.
    + unfold cancel_db. destruct (ctx_get (a_ctxs a) id) as [c|] eqn:E; [|exact IH]. eapply Up; eauto.
    + unfold commit_db, commit_fuel. destruct (ctx_get (a_ctxs a) id) as [c|] eqn:E; [|exact IH].
      destruct (update_reference H mv c now) as [r| | |]; try exact IH.
      destruct (run _ s) as [s' [[conn off]| | |]]; try exact IH. eapply Up; eauto.
    + unfold close_db. destruct (ctx_get (a_ctxs a) id) as [c|] eqn:E; [|exact IH].
      destruct (sys_close (x_conn c) s) as [s' [u| | |]]; try exact IH.
      cbn [fst snd with_ctxs a_ctxs]. intros id1 id2 c1 c2. rewrite !ctx_get_del.
      destruct (id =? id1)%Z, (id =? id2)%Z; try discriminate. apply IH.
  - intros id c s E. unfold open_db. replace (existsb _ (a_ctxs a)) with true; [reflexivity|].
    symmetry. apply existsb_exists. exists (id, c). split; [now apply G|]. apply bytes_eqb_refl.
Qed.
Print Assumptions C85_a_database_is_open_once.

Example C85_ex : let '(a, s, id) := ex_state (ex_run 100 ex_ops) in
  open_db toy_sha x00 no_behind ex_name a s = (s, a, Err) /\ length (a_ctxs a) = 1.
Proof. rewrite ex_at. vm_compute. auto. Qed.

(** *** C86 *)
(** Databases open in one application do not disturb each other. *)
Theorem C86_open_databases_are_independent : forall H mv behind, sha_ok H ->
  forall a0 names s0 os,
  good_config a0 -> calm s0 -> a_ctxs a0 = [] -> separate a0 names ->
  (forall n, In n names -> clear a0 s0 n /\ nothing_at s0 n) ->
  Forall (fun x => In (fst x) names /\ match snd x with OReopen => False | _ => True end) os ->
  (forall n, In n names -> all_allowed H mv (a_chunk a0) ([], []) (ops_on n os)) ->
  exists a1 s1 a s,
    start_all H mv behind a0 s0 names = Ok (a1, s1) /\
    exec_all H mv behind (position names) a1 s1 os = Ok (a, s) /\
    forall n, In n names -> shows H (a, s, position names n) (committed (ops_on n os)).
Proof.
  intros H mv behind HL a0 names s0 os G C E0 (Nd & Sp) Cl F A.
  destruct (start_all_ok H mv behind HL names a0 s0 []) as (a1 & s1 & E1 & Sc & Sy & _); auto.
  - unfold ids_low. rewrite E0. constructor.
  - unfold names_of. now rewrite E0.
  - intros n m In1 In2. rewrite app_nil_r in In2. now apply Sp.
  - rewrite E0 in Sy. change (zlen (@nil (Z * ctx))) with 0%Z in Sy.
    pose proof Sc as (S1 & S2 & S3).
    destruct (exec_all_ok H mv behind HL (position names) names (position_inj names) os a1 s1 (fun _ => ([], [])))
      as (a & s & E2 & Sa).
    + split; auto. rewrite S1, S2. exact Sp.
    + intros n In1. split; [|constructor]. exact (Sy n In1).
    + eapply Forall_impl; [|exact F]. intros [m o] (I1 & I2). split; [exact I1|]. exact I2.
    + rewrite S3. exact A.
    + exists a1, s1, a, s. split; [exact E1|]. split; [exact E2|]. intros n In1.
      destruct (Sa n In1) as (Sn & _). eapply synced_shows; eauto.
Qed.
Print Assumptions C86_open_databases_are_independent.

Definition ex_two : list (bytes * op) :=
  [([x61], ex_write x01 [x0a]); ([x62], ex_write x02 [x0b; x0c]); ([x62], OCommit 3); ([x61], OCommit 4);
   ([x62], OCancel); ([x62], ex_write x03 [x0d]); ([x62], OCommit 5)].
Example C86_ex : separate (ex_app 100) [[x61]; [x62]] /\
  all_allowed toy_sha x00 100 ([], []) (ops_on [x61] ex_two) /\
  all_allowed toy_sha x00 100 ([], []) (ops_on [x62] ex_two).
Proof.
  split.
  - split; [repeat constructor; cbn; intuition discriminate|].
    intros n m [<-|[<-|[]]] [<-|[<-|[]]]; split; discriminate.
  - split; [change (ops_on [x61] ex_two) with [ex_write x01 [x0a]; OCommit 4]
           |change (ops_on [x62] ex_two) with [ex_write x02 [x0b; x0c]; OCommit 3; OCancel; ex_write x03 [x0d]; OCommit 5]];
    unfold ex_write; allowed.
Qed.

(** *** C87 *)
(** A commit that returns an error changes nothing: the database file, what every context reads
    and the pending writes are as before, whatever writes failed; the lock is free again. *)
Theorem C87_failed_commit_changes_nothing : forall H mv behind, sha_ok H ->
  forall a0 n s0 os now a s id, session H mv behind a0 n s0 os (a, s, id) ->
  forall faults s' a', commit_db H mv now a (with_faults s faults) id = (s', a', Err) ->
  a' = a /\ file_at s' n = file_at s n /\
  (forall m, m <> side n (a_dst a0) -> m <> side n (a_bck a0) -> file_at s' m = file_at s m) /\
  (forall p, read_db a s' id p = read_db a s id p) /\
  (forall h, read_by_hash a s' id h = read_by_hash a s id h) /\
  shows H (a', s', id) (committed os) /\ f_locks s' = [].
Proof.
  intros H mv behind HL a0 n s0 os now a s id Ss faults s' a' E.
  destruct (session_synced H mv behind HL _ _ _ _ _ _ _ Ss) as (Sy & _ & _ & Ed & Eb).
  pose proof Sy as (i & h & (A1 & A2 & A3 & A4 & A5 & A6 & A7 & A8 & A9 & A10 & A11) & Ec & Eh).
  set (c := Ctx id n h (history_ref H mv (committed os)) (zlen (header (history_ref H mv (committed os)))) (pending os)) in *.
  unfold commit_db, commit_fuel in E. rewrite Ec in E.
  assert (X : exists r, a' = a /\ run (update_database (S (conn_size (with_faults s faults) c)) a c r) (with_faults s faults) = (s', Err) \/
              (a' = a /\ s' = with_faults s faults)).
  { destruct (update_reference H mv c now) as [r| | |]; try discriminate.
    - exists r. destruct (run _ _) as [y [[conn off]| | |]]; try discriminate. injection E as <- <-. auto.
    - exists (Reference [] []). injection E as <- <-. auto. }
  assert (Y : a' = a /\ (forall m, m <> side n (a_dst a0) -> m <> side n (a_bck a0) -> file_at s' m = file_at s m) /\
              (forall p, read_db a s' id p = read_db a s id p) /\ f_locks s' = []).
  { destruct X as (r & [(Ea & X)|(Ea & X)]); split; auto.
    - destruct (update_any a c (with_faults s faults) i) with (fuel := S (conn_size (with_faults s faults) c)) (r := r) (y := s')
        as (F & ((p & C1) & C2) & L); auto.
      + cbn [x_name c]. intros X1. apply A1. eapply side_inj; eauto.
      + split; [exists 0; exact Eh|auto].
      + assert (Fr : forall m, m <> side n (a_dst a0) -> m <> side n (a_bck a0) -> file_at s' m = file_at s m).
        { intros m M1 M2. change (file_at s m) with (file_at (with_faults s faults) m).
          apply (frame_file (two a c)); auto. unfold two. cbn [x_name c]. rewrite Ed, Eb. rewrite !bytes_eqb_neq; auto. }
        split; [exact Fr|]. split; [|exact L].
        intros q. unfold read_db. rewrite Ec. cbn [x_conn c] in *. destruct (two63 <=? p_length q)%Z; auto.
        unfold read_at. rewrite C1, Eh.
        assert (Ei : data_of s' i = data_of s i).
        { destruct F as (_ & F & _). apply (F n i); auto. unfold two. cbn [x_name c]. rewrite !bytes_eqb_neq; auto using side_neq. }
        now rewrite Ei.
    - rewrite X. split; [reflexivity|]. split; [reflexivity|]. exact A8. }
  destruct Y as (-> & Y2 & Y3 & Y4).
  assert (RH : forall x, read_by_hash a s' id x = read_by_hash a s id x).
  { intros x. unfold read_by_hash. destruct (content_keys a id) as [ks| | |]; auto. cbn [bind].
    destruct (keys_fetch ks x) as [k| | |]; auto. cbn [bind]. apply Y3. }
  split; [reflexivity|]. split; [apply Y2; intros X1; symmetry in X1; now apply side_neq in X1|].
  split; [exact Y2|]. split; [exact Y3|]. split; [exact RH|]. split; [|exact Y4].
  assert (Sh : shows H (a, s, id) (committed os)) by (eapply synced_shows; eauto).
  destruct Sh as (X1 & (keys & X2 & X3) & X4 & X5). split; [exact X1|]. split.
  - exists keys. split; [|exact X3]. eapply Forall2_impl'; [|exact X2]. intros ct k (Z1 & Z2 & Z3). rewrite Y3. auto.
  - split; intros x; [intros ct; rewrite RH; apply X4|rewrite RH; apply X5].
Qed.
Print Assumptions C87_failed_commit_changes_nothing.

(** The write of the reference fails; or the write of the backup. *)
Example C87_ex : let '(a, s, id) := ex_state (ex_run 100 ex_ops) in
  snd (commit_db toy_sha x00 9 a (with_faults s [Some 3]) id) = Err /\
  snd (commit_db toy_sha x00 9 a (with_faults s [None; None; None; Some 5]) id) = Err.
Proof. rewrite ex_at. vm_compute. auto. Qed.

(** *** C88 *)
(** A database locked by someone else is not committed to, and nothing changes at any moment. *)
Theorem C88_locked_database_is_not_committed : forall H mv now a s id c i,
  ctx_get (a_ctxs a) id = Some c ->
  dir_get (f_dir s) (x_name c) = Some (EFile i) -> In i (f_locks s) ->
  snd (commit_db H mv now a s id) <> Ok tt /\ fst (commit_db H mv now a s id) = (s, a) /\
  (forall x, In x (commit_states H mv now a s id) -> x = s).
Proof.
  intros H mv now a s id c i Ec Ei Li. unfold commit_db, commit_fuel, commit_states. rewrite Ec.
  destruct (update_reference H mv c now) as [r| | |].
  2-4: split; [discriminate|split; [reflexivity|intros x [<-|[]]; reflexivity]].
  assert (T : sys_trylock (x_name c) s = (s, Err)).
  { unfold sys_trylock. rewrite Ei. replace (existsb (Nat.eqb i) (f_locks s)) with true; [reflexivity|].
    symmetry. apply existsb_exists. exists i. split; auto. apply Nat.eqb_refl. }
  unfold update_database, andthen, call. cbn [catch run states]. rewrite T. cbn [run states catch fst snd].
  split; [discriminate|]. split; [reflexivity|]. intros x [<-|[<-|[]]]; reflexivity.
Qed.
Print Assumptions C88_locked_database_is_not_committed.

(** With something to commit it is an error, not a crash. *)
Theorem C88_locked_commit_is_an_error : forall H mv behind, sha_ok H ->
  forall a0 n s0 os now a s id, session H mv behind a0 n s0 os (a, s, id) ->
  allowed H mv (a_chunk a0) (committed os, pending os) (OCommit now) ->
  exists i, dir_get (f_dir s) n = Some (EFile i) /\
  forall l, In i l -> commit_db H mv now a (with_locks s l) id = (with_locks s l, a, Err).
Proof.
  intros H mv behind HL a0 n s0 os now a s id Ss (Np & T & Ft & Ck). cbn [fst snd] in *.
  destruct (session_synced H mv behind HL _ _ _ _ _ _ _ Ss) as (Sy & F & Ch & Ed & Eb).
  pose proof Sy as (i & h & (A1 & A2 & A3 & A4 & A5 & A6 & A7 & A8 & A9 & A10 & A11) & Ec & Eh).
  exists i. split; [exact A5|]. intros l Il.
  destruct (update_reference_spec H mv HL _ (committed os) now (ltac:(reflexivity) : x_ref (Ctx id n h (history_ref H mv (committed os)) (zlen (header (history_ref H mv (committed os)))) (pending os)) = _))
    as (r & Er & _); auto.
  - split; auto.
  - now apply fits_data in Ft.
  - unfold commit_db, commit_fuel. rewrite Ec, Er.
    assert (X : sys_trylock n (with_locks s l) = (with_locks s l, Err)).
    { unfold sys_trylock. cbn [with_locks f_dir f_locks]. rewrite A5. replace (existsb (Nat.eqb i) l) with true; [reflexivity|].
      symmetry. apply existsb_exists. exists i. split; auto. apply Nat.eqb_refl. }
    unfold update_database, andthen, call. cbn [catch run x_name]. rewrite X. reflexivity.
Qed.
Print Assumptions C88_locked_commit_is_an_error.

Example C88_ex : let '(a, s, id) := ex_state (ex_run 100 ex_ops) in
  match dir_get (f_dir s) ex_name with
  | Some (EFile i) => snd (commit_db toy_sha x00 9 a s id) = Ok tt /\
                      snd (commit_db toy_sha x00 9 a (with_locks s [i]) id) = Err
  | _ => False
  end.
Proof. rewrite ex_at. vm_compute. auto. Qed.
