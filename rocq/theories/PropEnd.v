(** Property theorems for whether Commit returns (C149). *)
From Coq Require Import List ZArith NArith Lia Bool.
From Coq Require Import Init.Byte Strings.Byte.
From Verif Require Import Base BaseLemmas HashModel HashProofs SpecHash HashTreeModel HashTreeProofs
  RefModel RefProofs SpecRef DbModel SpecDb DbRefProofs DbFsProofs DbCommitProofs DbOpenProofs DbApiProofs
  DbSession DbSessionProofs DbMoreProofs DbFrameProofs DbEndProofs PropHash PropRef PropDb PropDbMore PropForge.
Import ListNotations.

(** *** C149 *)
(** A context on an open file whose size is not the position where its data starts: Commit returns, whatever
    the disk does to its writes, whatever is locked and whatever the directory holds. The copy loop ends
    within as many steps as the file has bytes. The name of the new file must not be another name of the file. *)
Theorem C149_commit_returns : forall H mv, sha_ok H ->
  forall a s id c i p now, (0 < a_chunk a)%Z ->
  ctx_get (a_ctxs a) id = Some c ->
  nth_error (f_handles s) (x_conn c) = Some (Handle i p true) -> i < length (f_data s) ->
  dir_get (f_dir s) (side (x_name c) (a_dst a)) <> Some (EFile i) ->
  (0 <= x_off c < two63)%Z -> (zlen (data_of s i) < two63)%Z ->
  (x_ref c = None \/ zlen (data_of s i) <> x_off c) ->
  forall fuel, length (data_of s i) < fuel -> snd (commit_fuel H mv fuel now a s id) <> Fuel.
Proof.
  intros H mv HL a s id c i p now Pc Ec Eh Li Nd (O1 & O2) Ls D fuel L.
  eapply commit_ends; eauto. intros Nr E. destruct D as [D|D]; [congruence|].
  pose proof (zlen_nonneg (data_of s i)). apply D. clear - E O1 O2 Ls H0.
  destruct (Z.leb_spec (x_off c) (zlen (data_of s i))).
  - rewrite u64_small in E by (rewrite two63_val, two64_val in *; lia). lia.
  - exfalso. assert (u64 (zlen (data_of s i) - x_off c) = zlen (data_of s i) - x_off c + two64)%Z.
    { rewrite <- (u64_small (zlen (data_of s i) - x_off c + two64)) by (rewrite two63_val, two64_val in *; lia).
      unfold u64. rewrite <- (Z.mod_add (zlen (data_of s i) - x_off c) 1) by (rewrite two64_val; lia). f_equal. }
    rewrite two63_val, two64_val in *. lia.
Qed.
Print Assumptions C149_commit_returns.

(** After any session Commit returns, with any failures of the disk and any locks of others. *)
Theorem C149_commit_returns_in_sessions : forall H mv behind, sha_ok H ->
  forall a0 n s0 os a s id, session H mv behind a0 n s0 os (a, s, id) ->
  forall faults locks now, snd (commit_db H mv now a (with_locks (with_faults s faults) locks) id) <> Fuel.
Proof.
  intros H mv behind HL a0 n s0 os a s id S faults locks now.
  destruct (session_synced H mv behind HL _ _ _ _ _ _ _ S) as (Sy & _).
  destruct Sy as (i & h & (A1 & A2 & A3 & A4 & A5 & A6 & A7 & A8 & A9 & A10 & A11) & Ec & Eh).
  set (s1 := with_locks _ _). unfold commit_db. rewrite Ec. unfold conn_size. cbn [x_conn].
  change (f_handles s1) with (f_handles s). rewrite Eh. cbn [h_ino]. change (data_of s1 i) with (data_of s i).
  pose proof (zlen_nonneg (header (history_ref H mv (committed os)))) as Z0.
  pose proof A11 as Fz. unfold fits in Fz. rewrite <- A9 in Fz.
  assert (Zl : zlen (data_of s i) = (zlen (header (history_ref H mv (committed os))) + zlen (history_data (committed os)))%Z)
    by (rewrite A9; unfold history_file; apply zlen_app).
  pose proof (zlen_nonneg (history_data (committed os))) as Z1.
  eapply (C149_commit_returns H mv HL a s1 id _ i 0 now A2 Ec Eh); cbn [x_name x_off x_ref].
  - apply (proj1 A3) in A5. exact A5.
  - intros X. apply (side_neq n (a_dst a)). eapply (proj2 A3); eauto.
  - lia.
  - exact Fz.
  - change (data_of s1 i) with (data_of s i). rewrite Zl. destruct (committed os) as [|b bs] eqn:Eb; [now left|right].
    inversion A10 as [|? ? (Nb & Fb & _) _]; subst. destruct (fst b) as [|ct l] eqn:Ef; [congruence|].
    inversion Fb as [|? ? (_ & Nc & _) _]; subst. change (history_data (b :: bs)) with (batch_data (fst b) ++ history_data bs). rewrite Ef.
    change (batch_data (ct :: l)) with (ct_data ct ++ batch_data l). rewrite !zlen_app. pose proof (zlen_nonneg (batch_data l)).
    pose proof (zlen_nonneg (history_data bs)).
    assert (0 < zlen (ct_data ct))%Z by (unfold zlen; destruct (ct_data ct); [congruence|cbn [length]; lia]). lia.
  - change (data_of s1 i) with (data_of s i). lia.
Qed.
Print Assumptions C149_commit_returns_in_sessions.

(** The writing of the first content fails before its first byte: Commit reports success (C80), and calling it again never returns. *)
Theorem C149_commit_after_a_lost_write_returns_refuted : forall H mv behind, sha_ok H ->
  forall a0 n s0 os now a s id, session H mv behind a0 n s0 os (a, s, id) -> committed os = [] ->
  allowed H mv (a_chunk a0) (committed os, pending os) (OCommit now) ->
  exists s2 a2, commit_db H mv now a (with_faults s [None; Some 0]) id = (s2, a2, Ok tt) /\ f_faults s2 = [] /\
    forall now2 fuel, snd (commit_fuel H mv fuel now2 a2 s2 id) = Fuel.
Proof.
  intros H mv behind HL a0 n s0 os now a s id S C0 (Np & T & Ft & Ck). cbn [fst snd] in *.
  destruct (session_synced H mv behind HL _ _ _ _ _ _ _ S) as (Sy & F & Ch & Ed & Eb).
  rewrite C0 in *. cbn [app] in Ft. destruct (pending os) as [|ct after] eqn:Ep; [congruence|].
  assert (W : ok_batch ([] ++ ct :: after, now)) by (split; auto).
  assert (Pa : (0 < a_chunk a)%Z) by (destruct Sy as (? & ? & (_ & X & _) & _); exact X).
  destruct (commit_fault H mv HL a s n id [] ct after 0 now Sy W Ft)
    as (s2 & a2 & d & h & E & Eg & Eh & En & Ed' & Ff & El & Ld & Es & Edst & Echk).
  exists s2, a2. split; [exact E|]. split; [exact Ff|]. intros now2 fuel.
  cbn [app] in *. cbn [firstn app batch_data map concat] in Ed'. change (batch_data []) with (@nil byte) in Ed'. rewrite !app_nil_r in Ed'.
  assert (D : forall ct0, In ct0 (ct :: after) -> (0 < zlen (ct_data ct0) < two63)%Z).
  { intros c0 I. rewrite Forall_forall in F. destruct (F c0 I) as (_ & Nc & _). split.
    - unfold zlen. destruct (ct_data c0); [congruence|cbn [length]; lia].
    - apply fits_data in Ft. apply in_split in I as (l1 & l2 & I). unfold history_data in Ft. cbn [map concat fst] in Ft.
      rewrite I in Ft. unfold batch_data in Ft. rewrite map_app, concat_app in Ft. cbn [map concat] in Ft. rewrite !zlen_app in Ft.
      pose proof (zlen_nonneg (concat (map ct_data l1))). pose proof (zlen_nonneg (concat (map ct_data l2))).
      pose proof (zlen_nonneg (@nil byte)). lia. }
  edestruct (update_reference_ok H mv HL) as (r' & Eu); cycle 3.
  - eapply commit_hangs; try exact Eg; try exact Eu; cbn [x_ref x_off x_conn x_name]; eauto.
    + discriminate.
    + apply zlen_nonneg.
    + lia.
    + now rewrite Ed'.
    + congruence.
    + rewrite Edst, Es. discriminate.
    + rewrite Edst, Es. discriminate.
  - cbn [x_pending]. discriminate.
  - cbn [x_pending]. exact D.
  - cbn [x_ref history_ref]. intros r X. injection X as <-. cbn [r_commits chain]. discriminate.
Qed.
Print Assumptions C149_commit_after_a_lost_write_returns_refuted.

(** A file that holds a history and no data (a database cut off behind its header): it is opened, a content is written,
    and Commit never returns. *)
Theorem C149_commit_on_a_cut_off_file_returns_refuted : forall H mv behind, sha_ok H ->
  forall keys cs, keys <> [] -> cs <> [] ->
  Forall (fun k => length (k_hash k) = 64 /\ (0 <= k_kind k < two64)%Z /\ (0 <= p_from (k_content k) < two64)%Z /\
                   (0 < p_length (k_content k) < two64)%Z /\ length (k_commit k) = 64) keys ->
  Forall (fun c => exists blocks values t parent, build_tree H (Some blocks) = Ok values /\
                   c = commit_now H mv values t parent None /\ (- two63 <= t < two63)%Z /\
                   (forall p, parent = Some p -> length p = 64)) cs ->
  let rc := reference_content (Reference keys cs) in
  (zlen (put_u64 (zlen rc) ++ rc) < two63)%Z ->
  forall n a s i, (0 < a_chunk a)%Z -> a_ctxs a = [] -> f_faults s = [] -> f_locks s = [] -> i < length (f_data s) ->
  dir_get (f_dir s) n = Some (EFile i) -> data_of s i = put_u64 (zlen rc) ++ rc ->
  dir_get (f_dir s) (side n (a_dst a)) = None ->
  forall h data kind, data <> [] -> (zlen data < two63)%Z ->
  exists s1 a1 a2 id, open_db H mv behind n a s = (s1, a1, Ok id) /\
    write_db a1 id h data kind = (a2, Ok tt) /\
    forall now fuel, snd (commit_fuel H mv fuel now a2 s1 id) = Fuel.
Proof.
  intros H mv behind HL keys cs Nk Nc Fk Fc rc L n a s i P Ea Ff El Li En Ed Nd h data kind Ndt Ld.
  assert (W : wf_reference H mv (Reference keys cs)).
  { repeat split; auto; cbn [r_keys r_commits].
    - eapply Forall_impl; [|exact Fk]. intros k (A & B & C & D & E). repeat split; auto; try apply B; try apply C; try apply D.
    - eapply Forall_impl; [|exact Fc]. intros c (bl & v & t & p & Eb & -> & Rt & Lp). exists v, t, p, None.
      repeat split; try apply Rt; auto; try (eapply build_tree_wf; eauto; fail); try discriminate. }
  assert (Er : retrieve_reference H mv behind (a_chunk a) (data_of s i) =
               Ok (Some (Reference keys cs), zlen (header (Some (Reference keys cs))))).
  { rewrite Ed. rewrite <- (app_nil_r (put_u64 (zlen rc) ++ rc)). unfold rc. apply retrieve_some; auto.
    rewrite app_nil_r. exact L. }
  unfold open_db. rewrite Ea, En, Er. unfold sys_open. rewrite En. cbn [existsb].
  eexists _, _, _, _. split; [reflexivity|]. unfold write_db. cbn [a_ctxs with_ctxs]. rewrite ctx_get_set.
  assert (Cn : content_now h data kind = Ok (Content h data kind)).
  { unfold content_now. destruct data; [congruence|reflexivity]. }
  rewrite Cn. split; [reflexivity|]. intros now fuel.
  set (c := with_pending _ _).
  destruct (update_reference_ok H mv HL c now) as (r' & Eu).
  - discriminate.
  - cbn [c x_pending with_pending app]. intros c0 [<-|[]]. cbn [ct_data]. split; [|exact Ld].
    unfold zlen. destruct data; [congruence|cbn [length]; lia].
  - cbn [c x_ref with_pending]. intros r X. injection X as <-. exact Nc.
  - eapply (commit_hangs H mv) with (c := c) (i := i); [cbn [a_ctxs with_ctxs]; apply ctx_get_set|..];
      cbn [c x_ref x_off x_conn x_name with_pending with_ctxs a_chunk a_dst with_handles f_handles f_data f_dir f_faults f_locks]; eauto.
    + discriminate.
    + apply zlen_nonneg.
    + lia.
    + rewrite nth_error_app2, Nat.sub_diag by auto. reflexivity.
    + change (data_of (with_handles s (f_handles s ++ [Handle i 0 true])) i) with (data_of s i). rewrite Ed. reflexivity.
    + congruence.
    + rewrite Nd. discriminate.
    + rewrite Nd. discriminate.
Qed.
Print Assumptions C149_commit_on_a_cut_off_file_returns_refuted.

(** Commits after the example session: one that succeeds, one whose first write fails, one against a lock. *)
Example C149_ex : let '(a, s, id) := ex_state (ex_run 100 ex_ops) in
  snd (commit_db toy_sha x00 9 a s id) = Ok tt /\
  snd (commit_db toy_sha x00 9 a (with_faults s [Some 3]) id) = Err /\
  snd (commit_db toy_sha x00 9 a (with_locks s [0; 1; 2; 3; 4; 5; 6; 7; 8; 9]) id) = Err.
Proof. rewrite ex_at. vm_compute. repeat split. Qed.

(** The write of the first content fails before its first byte; then Commit again. *)
Definition ex_again (k : nat) : outcome unit * outcome unit :=
  match ex_run 100 ex_ops1 with
  | Ok (a, s, id) =>
    match commit_db toy_sha x00 5 a (with_faults s [None; Some k]) id with
    | (s2, a2, r) => (r, snd (commit_fuel toy_sha x00 40 6 a2 s2 id))
    end
  | _ => (Err, Err)
  end.
Example C149_ex_lost_write : ex_again 0 = (Ok tt, Fuel) /\ ex_again 1 = (Ok tt, Ok tt) /\
  committed ex_ops1 = [] /\ allowed toy_sha x00 100 (committed ex_ops1, pending ex_ops1) (OCommit 5).
Proof. split; [vm_compute; reflexivity|]. split; [vm_compute; reflexivity|]. split; [reflexivity|vm_compute committed; allowed]. Qed.

(** The same file with and without one byte behind its header. *)
Definition ex_cut (rest : bytes) : outcome Z * outcome unit :=
  let rc := reference_content (Reference ex_bad_keys ex_bad_commits) in
  let (s, _) := new_db ex_name ex_fs in
  let s := match dir_get (f_dir s) ex_name with Some (EFile i) => set_data s i (put_u64 (zlen rc) ++ rc ++ rest) | _ => s end in
  match open_db toy_sha x00 no_behind ex_name (ex_app 100) s with
  | (s1, a1, r) => (r, snd (commit_fuel toy_sha x00 40 6 (fst (write_db a1 0 (ex_h x05) [x0a] 7)) s1 0))
  end.
Example C149_ex_cut_off : ex_cut [] = (Ok 0%Z, Fuel) /\ ex_cut [x0a] = (Ok 0%Z, Ok tt).
Proof. split; vm_compute; reflexivity. Qed.
