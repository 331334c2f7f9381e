(** Property theorems for the file database (C24 - C38 and C76 - C88). *)
From Coq Require Import List ZArith NArith Lia Bool.
From Coq Require Import Init.Byte Strings.Byte.
From Verif Require Import Base BaseLemmas HashModel HashProofs SpecHash HashTreeModel HashTreeProofs
  RefModel RefProofs SpecRef DbModel SpecDb DbRefProofs DbFsProofs DbCommitProofs DbOpenProofs DbApiProofs
  DbSession DbSessionProofs DbMoreProofs DbMultiProofs PropHash.
Import ListNotations.

(** ** Values used in the examples *)
Definition ex_h (b : byte) : bytes := repeat b 64.
Definition ex_fs : fsys := FSys [] [] [] [] [].
Definition ex_name : bytes := [x64; x62].
Definition ex_app (chunk : Z) : dbapp := App [x64] [x62] chunk [].
Definition no_behind (b : bytes) : bytes := [].
Definition ex_write (b : byte) (data : bytes) : op := OWrite (ex_h b) data 7.
Definition ex_run (chunk : Z) (os : list op) : outcome state :=
  match start toy_sha x00 no_behind (ex_app chunk) ex_name ex_fs with
  | Ok st => exec toy_sha x00 no_behind ex_name st os
  | _ => Err
  end.
Definition ex_state (o : outcome state) : state :=
  match o with Ok st => st | _ => (ex_app 0, ex_fs, 0%Z) end.

Lemma ex_good chunk : (0 < chunk)%Z -> good_config (ex_app chunk).
Proof. intros P. split; [discriminate|exact P]. Qed.
Lemma ex_calm : calm ex_fs.
Proof. repeat split; intros; discriminate. Qed.
Lemma ex_clear chunk : clear (ex_app chunk) ex_fs ex_name.
Proof. split; discriminate. Qed.

(** A session: two commits, a cancelled write, a reopening and a third commit. *)
Definition ex_ops : list op :=
  [ex_write x01 [x0a; x0b; x0c]; ex_write x02 [x0d]; OCommit 5; ex_write x03 [x0e; x0f]; OCancel;
   ex_write x01 [x1a; x1b]; OCommit 6; OReopen; ex_write x04 [x1c]; OCommit 7].

Lemma ex_run_app chunk os os' : ex_run chunk (os ++ os') =
  (do st <- ex_run chunk os; exec toy_sha x00 no_behind ex_name st os').
Proof.
  unfold ex_run. destruct (start toy_sha x00 no_behind (ex_app chunk) ex_name ex_fs) as [st| | |]; try reflexivity.
  revert st. induction os as [|o os IH]; intros st; [reflexivity|]. cbn [app exec].
  destruct (exec_step toy_sha x00 no_behind ex_name st o); cbn [bind]; auto.
Qed.
Lemma ex_reached chunk os st : ex_run chunk os = Ok st ->
  exists st0, start toy_sha x00 no_behind (ex_app chunk) ex_name ex_fs = Ok st0 /\
    exec toy_sha x00 no_behind ex_name st0 os = Ok st.
Proof.
  unfold ex_run. destruct (start toy_sha x00 no_behind (ex_app chunk) ex_name ex_fs) as [st0| | |]; try discriminate.
  eauto.
Qed.

(** Where that session is before its last commit and at its end, computed once. *)
Definition ex_almost : state := Eval vm_compute in ex_state (ex_run 100 (removelast ex_ops)).
Definition ex_final : state := Eval vm_compute in ex_state (ex_run 100 ex_ops).
Lemma ex_almost_finished : ex_run 100 (removelast ex_ops) = Ok ex_almost.
Proof. vm_compute. reflexivity. Qed.
Lemma ex_finished : ex_run 100 ex_ops = Ok ex_final.
Proof.
  change ex_ops with (removelast ex_ops ++ [OCommit 7]). rewrite ex_run_app, ex_almost_finished.
  vm_compute. reflexivity.
Qed.
Lemma ex_at : ex_state (ex_run 100 ex_ops) = ex_final.
Proof. rewrite ex_finished. reflexivity. Qed.

Ltac decide_z := vm_compute; first [reflexivity | (intros X; discriminate X)].
Ltac allowed_step :=
  match goal with
  | |- True => exact I
  | |- all_allowed _ _ _ _ [] => exact I
  | |- all_allowed _ _ _ _ (_ :: _) => refine (conj _ _); [|cbn [spec_step fst snd app]]
  | |- _ /\ _ => refine (conj _ _)
  | |- length _ = _ => reflexivity
  | |- _ <> _ => discriminate
  | |- fits _ _ _ => unfold fits; decide_z
  | |- chunk_ok _ _ => refine (conj _ _); [decide_z|left; decide_z]
  | |- (_ <= _)%Z => decide_z
  | |- (_ < _)%Z => decide_z
  | |- allowed _ _ _ _ _ => cbn [allowed spec_step fst snd app]
  end.
Ltac allowed := repeat allowed_step.

Example ex_allowed : all_allowed toy_sha x00 100 ([], []) ex_ops.
Proof. unfold ex_ops, ex_write. allowed. Qed.

Example ex_session : session toy_sha x00 no_behind (ex_app 100) ex_name ex_fs ex_ops (ex_state (ex_run 100 ex_ops)).
Proof.
  unfold session. change (a_chunk (ex_app 100)) with 100%Z.
  refine (conj (ex_good 100 eq_refl) (conj ex_calm (conj (ex_clear 100) (conj eq_refl (conj ex_allowed _))))).
  rewrite ex_at. exact (ex_reached 100 ex_ops ex_final ex_finished).
Qed.

(** *** C24 *)
(** Any session can be carried out and shows exactly the committed batches. *)
Theorem C24_sessions_show_what_was_committed : forall H mv behind, sha_ok H ->
  forall a0 n s0 os, good_config a0 -> calm s0 -> clear a0 s0 n -> nothing_at s0 n ->
  all_allowed H mv (a_chunk a0) ([], []) os ->
  exists st, session H mv behind a0 n s0 os st /\ shows H st (committed os).
Proof.
  intros H mv behind HL a0 n s0 os G C Cl N A.
  destruct (session_exists H mv behind HL a0 n s0 os G C Cl N A) as ([[a s] id] & S).
  exists (a, s, id). split; [exact S|]. destruct (session_synced H mv behind HL _ _ _ _ _ _ _ S) as (Sy & _).
  eapply synced_shows; eauto.
Qed.
Print Assumptions C24_sessions_show_what_was_committed.

(** The contents of the last batch, in terms of the calls. *)
Theorem C24_written_and_committed_is_read_back : forall H mv behind, sha_ok H ->
  forall a0 n s0 os now a s id, session H mv behind a0 n s0 (os ++ [OCommit now]) (a, s, id) ->
  (forall before ct after, pending os = before ++ ct :: after ->
     Forall (fun c => ct_hash c <> ct_hash ct) after ->
     read_by_hash a s id (ct_hash ct) = Ok (ct_data ct)) /\
  (exists older ks, content_keys a id = Ok (older ++ ks) /\
     Forall2 (fun ct k => k_hash k = ct_hash ct /\ k_kind k = ct_kind ct /\
                          read_db a s id (k_content k) = Ok (ct_data ct)) (pending os) ks).
Proof.
  intros H mv behind HL a0 n s0 os now a s id S.
  destruct (session_synced H mv behind HL _ _ _ _ _ _ _ S) as (Sy & _).
  assert (E : committed (os ++ [OCommit now]) = committed os ++ [(pending os, now)]).
  { unfold committed, pending, spec_run. rewrite fold_left_app. cbn [fold_left spec_step].
    destruct (fold_left spec_step os ([], [])). reflexivity. }
  rewrite E in Sy. split.
  - intros before ct after Ep F. eapply read_hash_found; [exact behind|exact Sy|].
    rewrite history_contents_app. unfold history_contents at 2. cbn [map fst concat]. rewrite app_nil_r, Ep.
    exists (history_contents (committed os) ++ before), after. rewrite <- app_assoc. auto.
  - pose proof (read_keys H mv a s n id _ _ Sy) as R. rewrite history_contents_app in R.
    unfold history_contents at 2 in R. cbn [map fst concat] in R. rewrite app_nil_r in R.
    apply Forall2_app_inv_l in R as (k1 & k2 & _ & R2 & Ek). exists k1, k2. split; auto.
    rewrite (synced_keys _ _ _ _ _ _ _ _ Sy), Ek. destruct (committed os); reflexivity.
Qed.
Print Assumptions C24_written_and_committed_is_read_back.

Example C24_ex : let '(a, s, id) := ex_state (ex_run 100 ex_ops) in
  read_by_hash a s id (ex_h x04) = Ok [x1c] /\ read_by_hash a s id (ex_h x01) = Ok [x1a; x1b].
Proof. rewrite ex_at. vm_compute. auto. Qed.

(** *** C25 *)
Theorem C25_committed_data_survives_reopening : forall H mv behind, sha_ok H ->
  forall a0 n s0 os a s id, session H mv behind a0 n s0 os (a, s, id) ->
  exists a' s' id', exec_step H mv behind n (a, s, id) OReopen = Ok (a', s', id') /\
    session H mv behind a0 n s0 (os ++ [OReopen]) (a', s', id') /\
    shows H (a', s', id') (committed os) /\
    commits_db a' id' = commits_db a id /\ content_keys a' id' = content_keys a id /\
    (forall p, read_db a' s' id' p = read_db a s id p) /\
    (forall h, read_by_hash a' s' id' h = read_by_hash a s id h).
Proof.
  intros H mv behind HL a0 n s0 os a s id S.
  destruct (session_synced H mv behind HL _ _ _ _ _ _ _ S) as (Sy & F & _).
  destruct (session_step H mv behind HL a s n id _ _ OReopen Sy F I) as (a' & s' & id' & E & Sy' & _).
  cbn [spec_step fst snd] in Sy'. exists a', s', id'. split; [exact E|]. split.
  - destruct S as (G & C & Cl & N & A & st0 & E0 & E1). repeat (split; auto).
    + clear - A. revert A. generalize (@nil batch, @nil content). generalize (a_chunk a0).
      intros c st. revert st. induction os as [|o os IH]; intros st; cbn [app all_allowed]; [auto|].
      intros (A1 & A2). split; auto.
    + exists st0. split; auto. clear - E E1. revert st0 E1. induction os as [|o os IH]; intros st0 E1; cbn [exec app] in *.
      * injection E1 as ->. rewrite E. reflexivity.
      * destruct (exec_step H mv behind n st0 o); try discriminate. cbn [bind] in *. auto.
  - split; [eapply synced_shows; eauto|]. eapply synced_same; eauto.
Qed.
Print Assumptions C25_committed_data_survives_reopening.

Example C25_ex : let '(a, s, id) := ex_state (ex_run 100 (ex_ops ++ [OReopen])) in
  read_by_hash a s id (ex_h x02) = Ok [x0d] /\
  (exists cs, commits_db a id = Ok cs /\ length cs = 3).
Proof. rewrite ex_run_app, ex_finished. vm_compute. eauto. Qed.

(** *** C26: false. *)
Theorem C26_commit_loses_data_refuted : forall H mv behind, sha_ok H ->
  forall a0 n s0 os now a s id, session H mv behind a0 n s0 os (a, s, id) ->
  pending os <> [] -> (- two63 <= now < two63)%Z -> fits H mv (committed os ++ [(pending os, now)]) ->
  let size := zlen (history_data (committed os)) in
  (a_chunk a0 < size)%Z -> (size mod a_chunk a0 <> 0)%Z ->
  exists s' a' ks, commit_db H mv now a s id = (s', a', Ok tt) /\
    content_keys a' id = Ok ks /\
    Forall2 (fun ct k => k_hash k = ct_hash ct /\ k_kind k = ct_kind ct /\ p_length (k_content k) = zlen (ct_data ct))
            (history_contents (committed os ++ [(pending os, now)])) ks /\
    (forall from len, (0 <= from)%Z -> (0 < len)%Z -> (from + len <= size - size mod a_chunk a0)%Z ->
       read_db a' s' id (Pointer from len) = read_db a s id (Pointer from len)) /\
    (exists k before, ks = before ++ [k] /\ read_db a' s' id (k_content k) = Err).
Proof.
  intros H mv behind HL a0 n s0 os now a s id S Np T Ft size L M.
  destruct (session_synced H mv behind HL _ _ _ _ _ _ _ S) as (Sy & F & Ch & _). rewrite <- Ch in *.
  apply (commit_lossy H mv HL a s n id _ _ now Sy); auto. split; auto.
Qed.
Print Assumptions C26_commit_loses_data_refuted.

(** Chunks of 2 bytes: after three bytes and one more commit, the content written last cannot be read
    and the first one has changed. *)
Example C26_ex : let os := [ex_write x01 [x0a; x0b; x0c]; OCommit 5; OCancel; ex_write x02 [x0d]; OCommit 6] in
  let '(a, s, id) := ex_state (ex_run 2 os) in
  read_by_hash a s id (ex_h x02) = Err /\ read_by_hash a s id (ex_h x01) = Ok [x0a; x0b; x0d].
Proof. vm_compute. auto. Qed.

(** *** C27 *)
Theorem C27_commit_appends_one_linked_commit : forall H mv, sha_ok H ->
  forall now a s id s' a' c, commit_db H mv now a s id = (s', a', Ok tt) ->
  ctx_get (a_ctxs a) id = Some c -> x_pending c <> [] ->
  Forall (fun ct => length (ct_hash ct) = 64) (x_pending c) ->
  match commits_db a id with
  | Ok old => exists before last new, old = before ++ [last] /\ commits_db a' id = Ok (old ++ [new]) /\
                commit_of H (Some (c_hash last)) (x_pending c, now) new
  | _ => exists new, commits_db a' id = Ok [new] /\ commit_of H None (x_pending c, now) new
  end.
Proof.
  intros H mv HL now a s id s' a' c E Ec Np F.
  destruct (commit_inv H mv _ _ _ _ _ _ E) as (c' & r & conn & off & Ec' & Er & ->).
  rewrite Ec in Ec'. injection Ec' as <-.
  destruct (update_reference_inv H mv c now r Er) as (t & parent & new & Et & Ep & Ecs & _ & _).
  pose proof (tree_commit_of H mv HL parent (x_pending c) t now F Np Et) as Co.
  unfold commits_db. rewrite Ec. cbn [with_ctxs a_ctxs]. rewrite ctx_get_set, Z.eqb_refl. cbn [x_ref].
  destruct (x_ref c) as [r0|].
  - destruct Ep as (cs & l & El & ->). exists cs, l, (commit_now H mv t now (Some (c_hash l)) None).
    split; [exact El|]. split; [now rewrite Ecs|exact Co].
  - subst parent. exists (commit_now H mv t now None None). split; [now rewrite Ecs|exact Co].
Qed.
Print Assumptions C27_commit_appends_one_linked_commit.

(** *** C28 *)
Theorem C28_commit_appends_one_key_per_content : forall H mv, sha_ok H ->
  forall now a s id s' a' c, commit_db H mv now a s id = (s', a', Ok tt) ->
  ctx_get (a_ctxs a) id = Some c -> Forall ok_content (x_pending c) ->
  let old := match content_keys a id with Ok ks => ks | _ => [] end in
  let ends := map (fun k => p_from (k_content k) + p_length (k_content k))%Z old in
  Forall (fun k => 0 <= p_from (k_content k) /\ 0 < p_length (k_content k))%Z old ->
  (forall e, In e (0%Z :: ends) -> e + zlen (batch_data (x_pending c)) < two63)%Z ->
  exists next new cs, greatest ends next /\ commits_db a' id = Ok (cs ++ [new]) /\
    content_keys a' id = Ok (old ++ place (c_hash new) next (x_pending c)).
Proof.
  intros H mv HL now a s id s' a' c E Ec Fp old ends Fo Le.
  destruct (commit_inv H mv _ _ _ _ _ _ E) as (c' & r & conn & off & Ec' & Er & ->).
  rewrite Ec in Ec'. injection Ec' as <-.
  destruct (update_reference_inv H mv c now r Er) as (t & parent & new & Et & Ep & Ecs & En & Ek).
  pose proof (zlen_nonneg (batch_data (x_pending c))) as Zb.
  assert (Eo : old = match x_ref c with Some r0 => r_keys r0 | None => [] end).
  { unfold old, content_keys. rewrite Ec. destruct (x_ref c); reflexivity. }
  assert (Ex : match x_ref c with Some r0 => keys_next (r_keys r0) | None => 0%Z end = keys_next old).
  { rewrite Eo. destruct (x_ref c); reflexivity. }
  assert (G : greatest ends (keys_next old)).
  { unfold ends, keys_next. apply keys_next_from_spec; [lia|].
    rewrite Forall_forall in *. intros k Ik. destruct (Fo k Ik). split; [lia|]. split; [lia|].
    assert (In (p_from (k_content k) + p_length (k_content k))%Z ends).
    { unfold ends. now apply (in_map (fun k => p_from (k_content k) + p_length (k_content k))%Z). }
    specialize (Le _ (or_intror H2)). lia. }
  rewrite Ex in En. rewrite pending_keys_place in En.
  - injection En as <-. eexists (keys_next old), _, _. split; [exact G|].
    unfold commits_db, content_keys. cbn [with_ctxs a_ctxs]. rewrite ctx_get_set, Z.eqb_refl. cbn [x_ref].
    rewrite Ecs, Ek, Eo. split; reflexivity.
  - apply G.
  - exact Fp.
  - apply Le. destruct G as ([->|I] & _); [now left|now right].
Qed.
Print Assumptions C28_commit_appends_one_key_per_content.

Example C27_C28_ex : let os := [ex_write x01 [x0a; x0b; x0c]; OCommit 5; OCancel; ex_write x02 [x0d]; ex_write x03 [x0e; x0f]] in
  let '(a, s, id) := ex_state (ex_run 100 os) in
  exists s' a' c1 c2 ks, commit_db toy_sha x00 9 a s id = (s', a', Ok tt) /\
    commits_db a' id = Ok [c1; c2] /\ c_parent c2 = Some (c_hash c1) /\
    content_keys a' id = Ok ks /\ map k_content ks = [Pointer 0 3; Pointer 3 1; Pointer 4 2].
Proof. vm_compute. repeat eexists. Qed.

(** *** C29 *)
Theorem C29_cancel_discards_pending_writes : forall a id l,
  fst (cancel_db (writes a id l) id) = fst (cancel_db a id) /\
  (forall c, ctx_get (a_ctxs a) id = Some c ->
     snd (cancel_db (writes a id l) id) = Ok tt /\
     exists c', ctx_get (a_ctxs (fst (cancel_db (writes a id l) id))) id = Some c' /\ x_pending c' = []).
Proof.
  intros a id l. pose proof (writes_cancel l a id) as E. split; [exact E|].
  intros c Ec. split.
  - assert (W : exists c', ctx_get (a_ctxs (writes a id l)) id = Some c').
    { unfold writes. revert a c Ec E. induction l as [|x l IH]; intros a c Ec E; cbn [fold_left]; [eauto|].
      pose proof (write_get a id (ct_hash x) (ct_data x) (ct_kind x) id) as G. rewrite Ec in G.
      destruct (ctx_get (a_ctxs (fst (write_db a id (ct_hash x) (ct_data x) (ct_kind x)))) id) as [c'|] eqn:E'; [|destruct G].
      eapply IH; [exact E'|]. apply writes_cancel. }
    destruct W as (c' & W). unfold cancel_db. now rewrite W.
  - rewrite E. unfold cancel_db. rewrite Ec. cbn [fst with_ctxs a_ctxs]. rewrite ctx_get_set, Z.eqb_refl. eauto.
Qed.
Print Assumptions C29_cancel_discards_pending_writes.

(** In sessions: the writes before a Cancel are in no later commit. *)
Theorem C29_cancelled_writes_are_never_committed : forall H mv behind, sha_ok H ->
  forall a0 n s0 before ws after st,
  Forall (fun o => match o with OWrite _ _ _ => True | _ => False end) ws ->
  session H mv behind a0 n s0 (before ++ ws ++ OCancel :: after) st ->
  shows H st (committed (before ++ OCancel :: after)).
Proof.
  intros H mv behind HL a0 n s0 before ws after [[a s] id] F S.
  destruct (session_synced H mv behind HL _ _ _ _ _ _ _ S) as (Sy & _). apply synced_shows in Sy; auto.
  replace (committed (before ++ OCancel :: after)) with (committed (before ++ ws ++ OCancel :: after)); [exact Sy|].
  clear - F. unfold committed, spec_run. rewrite !fold_left_app. cbn [fold_left].
  f_equal. f_equal. destruct (fold_left spec_step before ([], [])) as [bs pd].
  revert pd. induction F as [|o ws Fo F IH]; intros pd; [reflexivity|].
  destruct o; try contradiction. cbn [fold_left spec_step fst snd]. apply IH.
Qed.
Print Assumptions C29_cancelled_writes_are_never_committed.

Example C29_ex : let '(a, s, id) := ex_state (ex_run 100 ex_ops) in read_by_hash a s id (ex_h x03) = Err.
Proof. rewrite ex_at. vm_compute. reflexivity. Qed.

(** *** C30: false. *)
Theorem C30_batch_is_committed_again_refuted : forall H mv behind, sha_ok H ->
  forall a0 n s0 os t1 t2 a s id,
  session H mv behind a0 n s0 (os ++ [OCommit t1; OCommit t2]) (a, s, id) ->
  pending os <> [] /\
  shows H (a, s, id) (committed os ++ [(pending os, t1); (pending os, t2)]) /\
  history_contents (committed (os ++ [OCommit t1; OCommit t2])) =
    history_contents (committed os) ++ pending os ++ pending os.
Proof.
  intros H mv behind HL a0 n s0 os t1 t2 a s id S.
  destruct (session_synced H mv behind HL _ _ _ _ _ _ _ S) as (Sy & _).
  assert (E : committed (os ++ [OCommit t1; OCommit t2]) = committed os ++ [(pending os, t1); (pending os, t2)]).
  { unfold committed, pending, spec_run. rewrite fold_left_app. cbn [fold_left spec_step].
    destruct (fold_left spec_step os ([], [])). cbn [fst snd]. now rewrite <- app_assoc. }
  split; [|split].
  - destruct S as (_ & _ & _ & _ & A & _). clear - A. unfold pending, spec_run. revert A.
    generalize (@nil batch, @nil content). generalize (a_chunk a0). intros c st. revert st.
    induction os as [|o os IH]; intros st; cbn [app all_allowed fold_left]; intros (A1 & A2); [|auto].
    apply A1.
  - rewrite <- E. eapply synced_shows; eauto.
  - rewrite E, history_contents_app. f_equal. unfold history_contents. cbn [map fst concat]. now rewrite app_nil_r.
Qed.
Print Assumptions C30_batch_is_committed_again_refuted.

Example C30_ex : let '(a, s, id) := ex_state (ex_run 100 [ex_write x01 [x0a; x0b]; OCommit 5; OCommit 6]) in
  exists ks, content_keys a id = Ok ks /\ map k_hash ks = [ex_h x01; ex_h x01].
Proof. vm_compute. eauto. Qed.

(** *** C31: false. *)
Theorem C31_commit_of_nothing_panics_refuted : forall H mv now a s id c,
  ctx_get (a_ctxs a) id = Some c -> x_pending c = [] -> commit_db H mv now a s id = (s, a, Panic).
Proof.
  intros H mv now a s id c E P. unfold commit_db, commit_fuel. rewrite E.
  replace (update_reference H mv c now) with (@Panic reference); [reflexivity|].
  unfold update_reference. rewrite P. destruct (x_ref c) as [r|]; [|reflexivity].
  unfold commits_latest. destruct (rev (r_commits r)); reflexivity.
Qed.
Print Assumptions C31_commit_of_nothing_panics_refuted.

Example C31_ex : let '(a, s, id) := ex_state (ex_run 100 [ex_write x01 [x0a]; OCommit 5; OReopen]) in
  exists c, ctx_get (a_ctxs a) id = Some c /\ x_pending c = [] /\ x_ref c <> None.
Proof. vm_compute. eexists. repeat split. discriminate. Qed.

(** *** C32 *)
(** Write has no access to the file system at all: its type is [dbapp -> ... -> dbapp * outcome unit]. *)
Theorem C32_uncommitted_writes_are_invisible : forall a id h data kind s j,
  let a' := fst (write_db a id h data kind) in
  commits_db a' j = commits_db a j /\
  (forall k, content_keys_by_kind a' j k = content_keys_by_kind a j k) /\
  (forall p, read_db a' s j p = read_db a s j p) /\
  (forall x, read_by_hash a' s j x = read_by_hash a s j x) /\
  (forall x, commit_by_hash a' j x = commit_by_hash a j x).
Proof.
  intros a id h data kind s j a'. pose proof (write_get a id h data kind j) as G. fold a' in G.
  assert (C : commits_db a' j = commits_db a j).
  { unfold commits_db. destruct (ctx_get (a_ctxs a') j), (ctx_get (a_ctxs a) j); try contradiction; auto.
    destruct G as (_ & _ & _ & -> & _). reflexivity. }
  assert (K : content_keys a' j = content_keys a j).
  { unfold content_keys. destruct (ctx_get (a_ctxs a') j), (ctx_get (a_ctxs a) j); try contradiction; auto.
    destruct G as (_ & _ & _ & -> & _). reflexivity. }
  assert (R : forall p, read_db a' s j p = read_db a s j p).
  { intros p. unfold read_db. destruct (ctx_get (a_ctxs a') j), (ctx_get (a_ctxs a) j); try contradiction; auto.
    destruct G as (_ & _ & -> & _ & ->). reflexivity. }
  split; [exact C|]. split; [intros k; unfold content_keys_by_kind; now rewrite K|]. split; [exact R|]. split.
  - intros x. unfold read_by_hash. rewrite K. destruct (content_keys a j); cbn [bind]; auto.
    match goal with |- context [keys_fetch ?l x] => destruct (keys_fetch l x) end; cbn [bind]; auto.
  - intros x. unfold commit_by_hash. now rewrite C.
Qed.
Print Assumptions C32_uncommitted_writes_are_invisible.

(** *** C33 *)
Theorem C33_unknown_context_is_an_error : forall H mv a s id,
  ctx_get (a_ctxs a) id = None ->
  (forall k, content_keys_by_kind a id k = Err) /\ commits_db a id = Err /\
  (forall h, commit_by_hash a id h = Err) /\
  (forall p, read_db a s id p = Err) /\ (forall h, read_by_hash a s id h = Err) /\
  (forall p ps, read_all a s id (p :: ps) = Err) /\ (forall h hs, read_all_by_hashes a s id (h :: hs) = Err) /\
  read_all a s id [] = Ok [] /\ read_all_by_hashes a s id [] = Ok [] /\
  (forall h d k, write_db a id h d k = (a, Err)) /\ cancel_db a id = (a, Err) /\
  (forall now, commit_db H mv now a s id = (s, a, Err)) /\ close_db a s id = (s, a, Err).
Proof.
  intros H mv a s id E.
  unfold content_keys_by_kind, commits_db, commit_by_hash, read_by_hash, content_keys, commits_db, write_db, cancel_db,
    commit_db, commit_fuel, close_db. cbn [read_all read_all_by_hashes].
  unfold read_by_hash, content_keys, read_db. rewrite E. repeat split.
Qed.
Print Assumptions C33_unknown_context_is_an_error.

(** A context is unknown after a successful Close. *)
Theorem C33_closed_context_is_unknown : forall a s id s' a',
  close_db a s id = (s', a', Ok tt) ->
  ctx_get (a_ctxs a') id = None /\ f_dir s' = f_dir s /\ f_data s' = f_data s /\
  (forall j, j <> id -> ctx_get (a_ctxs a') j = ctx_get (a_ctxs a) j).
Proof.
  intros a s id s' a'. unfold close_db. destruct (ctx_get (a_ctxs a) id) as [c|]; [|discriminate].
  unfold sys_close. destruct (nth_error (f_handles s) (x_conn c)) as [[i p [|]]|]; try discriminate.
  injection 1 as <- <-. cbn [with_ctxs a_ctxs with_handles f_dir f_data]. rewrite ctx_get_del, Z.eqb_refl.
  repeat split. intros j N. rewrite ctx_get_del. now replace (id =? j)%Z with false by (symmetry; apply Z.eqb_neq; auto).
Qed.
Print Assumptions C33_closed_context_is_unknown.

(** Reading nothing is a success even then: the only operation that does not look at the context. *)
Example C33_ex : read_all (ex_app 1) ex_fs 3 [] = Ok [].
Proof. reflexivity. Qed.

(** *** C34: false in general. *)
Theorem C34_identifiers_are_reused_refuted : forall H mv behind,
  exists s a n1 n2 n3, NoDup [n1; n2; n3] /\ a_ctxs a = [] /\
  exists s1 a1 s2 a2 s3 a3 s4 a4,
    open_db H mv behind n1 a s = (s1, a1, Ok 0%Z) /\
    open_db H mv behind n2 a1 s1 = (s2, a2, Ok 1%Z) /\
    close_db a2 s2 0 = (s3, a3, Ok tt) /\
    open_db H mv behind n3 a3 s3 = (s4, a4, Ok 1%Z) /\
    (exists c, ctx_get (a_ctxs a3) 1 = Some c /\ x_name c = n2) /\
    (exists c, ctx_get (a_ctxs a4) 1 = Some c /\ x_name c = n3) /\
    length (a_ctxs a4) = 1.
Proof.
  intros. exists (FSys [([x61], EFile 0); ([x62], EFile 1); ([x63], EFile 2)] [[]; []; []] [] [] []),
    (ex_app 5), [x61], [x62], [x63].
  split. { repeat constructor; cbn; intuition discriminate. }
  split; [reflexivity|].
  do 8 eexists.
  split; [reflexivity|]. split; [reflexivity|]. split; [reflexivity|]. split; [reflexivity|].
  split; [eexists; split; reflexivity|]. split; [eexists; split; reflexivity|]. reflexivity.
Qed.
Print Assumptions C34_identifiers_are_reused_refuted.

(** Without Close they are unique: 0, 1, 2, ... *)
Theorem C34_identifiers_are_unique_without_close : forall H mv behind a s n s' a' id,
  Forall (fun x => 0 <= fst x < zlen (a_ctxs a))%Z (a_ctxs a) ->
  open_db H mv behind n a s = (s', a', Ok id) ->
  ctx_get (a_ctxs a) id = None /\
  (exists c, a_ctxs a' = (id, c) :: a_ctxs a /\ x_name c = n) /\
  Forall (fun x => 0 <= fst x < zlen (a_ctxs a'))%Z (a_ctxs a').
Proof.
  intros H mv behind a s n s' a' id L E.
  destruct (open_low H mv behind n a s s' a' id L E) as (_ & G0 & G1 & _ & _ & _ & G5). auto.
Qed.
Print Assumptions C34_identifiers_are_unique_without_close.

(** *** C35 *)
Theorem C35_new_exists_delete : forall s n,
  (exists_db s n = true <-> file_at s n <> None) /\
  (match new_db n s with
   | (s', Ok _) => nothing_at s n /\ file_at s' n = Some [] /\ exists_db s' n = true
   | (s', o) => o = Err /\ s' = s /\ ~ nothing_at s n
   end) /\
  (match delete_db n s with
   | (s', Ok _) => exists_db s n = true /\ nothing_at s' n /\ exists_db s' n = false
   | (s', o) => o = Err /\ s' = s /\ exists_db s n = false
   end) /\
  (forall m, m <> n -> (forall x i, dir_get (f_dir s) x = Some (EFile i) -> i < length (f_data s)) ->
     file_at (fst (new_db n s)) m = file_at s m /\ file_at (fst (delete_db n s)) m = file_at s m).
Proof.
  intros s n. unfold exists_db, new_db, delete_db, sys_stat, sys_create, sys_remove, file_at, nothing_at.
  destruct (dir_get (f_dir s) n) as [[i|]|] eqn:E.
  - split; [split; [discriminate|auto]|]. split; [repeat split; auto; discriminate|]. split.
    + cbn [with_dir f_dir]. rewrite !dir_get_del, !bytes_eqb_refl. auto.
    + intros m N V. split; [reflexivity|]. cbn [fst with_dir f_dir f_data]. rewrite dir_get_del.
      rewrite bytes_eqb_neq by auto. reflexivity.
  - split; [split; [discriminate|congruence]|]. split; [repeat split; auto; discriminate|]. split; auto.
  - split; [split; [discriminate|congruence]|]. cbn [bind]. split; [|split; auto].
    + cbn [with_data with_dir f_dir f_data]. rewrite dir_get_set, bytes_eqb_refl.
      rewrite nth_middle. auto.
    + intros m N V. split; [|reflexivity]. cbn [fst with_data with_dir f_dir f_data]. rewrite dir_get_set.
      rewrite bytes_eqb_neq by auto. destruct (dir_get (f_dir s) m) as [[j|]|] eqn:Em; auto.
      rewrite app_nth1; auto. eapply V; eauto.
Qed.
Print Assumptions C35_new_exists_delete.

Example C35_ex : let s := fst (new_db ex_name ex_fs) in
  exists_db s ex_name = true /\ snd (new_db ex_name s) = Err /\ exists_db (fst (delete_db ex_name s)) ex_name = false.
Proof. vm_compute. auto. Qed.

(** *** C36: false as atomicity; what holds at each crash point. *)
(** [reboot x]: the processes are gone, with their open files and locks. *)
Theorem C36_every_crash_point_has_a_complete_copy : forall H mv behind, sha_ok H ->
  forall a0 n s0 os now a s id, session H mv behind a0 n s0 os (a, s, id) ->
  allowed H mv (a_chunk a0) (committed os, pending os) (OCommit now) ->
  let old := history_file H mv (committed os) in
  let new := history_file H mv (committed os ++ [(pending os, now)]) in
  In (fst (fst (commit_db H mv now a s id))) (commit_states H mv now a s id) /\
  Forall (fun x =>
    (file_at x n = Some old \/ file_at x n = Some new \/
     (nothing_at x n /\ file_at x (side n (a_dst a0)) = Some new /\ file_at x (side n (a_bck a0)) = Some old)) /\
    (forall m, m <> n -> m <> side n (a_dst a0) -> m <> side n (a_bck a0) -> file_at x m = file_at s m) /\
    (nothing_at x n \/
     exists s' a', open_db H mv behind n (with_ctxs a0 []) (reboot x) = (s', a', Ok 0%Z) /\
       (shows H (a', s', 0%Z) (committed os) \/ shows H (a', s', 0%Z) (committed os ++ [(pending os, now)]))))
    (commit_states H mv now a s id).
Proof.
  intros H mv behind HL a0 n s0 os now a s id S (Np & T & Ft & Ck) old new.
  cbn [fst snd] in Np, T, Ft, Ck. split; [apply commit_states_last|].
  destruct (session_synced H mv behind HL _ _ _ _ _ _ _ S) as (Sy & F & Ch & Ed & Eb). rewrite <- Ch, <- Ed, <- Eb in *.
  assert (W : ok_batch (pending os, now)) by (split; auto).
  pose proof (commit_crash H mv HL a s n id _ _ now Sy W (fits_data H mv _ Ft)) as (Fa & _).
  assert (En : header (history_ref H mv (committed os ++ [(pending os, now)])) ++
             (match committed os with [] => [] | _ => kept (make_chunk (a_chunk a) (zlen (history_data (committed os)))) (history_data (committed os)) end) ++
             batch_data (pending os) = new).
  { unfold new, history_file. f_equal. rewrite history_data_app. f_equal.
    - destruct (committed os) eqn:E; [reflexivity|]. rewrite <- E in *. destruct Ck as (P & C). apply kept_ok; auto.
      destruct Sy as (i & h & (_ & _ & _ & _ & _ & _ & _ & _ & _ & A10 & _) & _).
      intros X. assert (N : committed os <> []) by (rewrite E; discriminate).
      pose proof (history_data_pos (committed os) N A10) as Y. rewrite X in Y. cbn in Y. lia.
    - unfold history_data. cbn. now rewrite app_nil_r. }
  cbv zeta in Fa. rewrite En in Fa. eapply Forall_impl; [|exact Fa]. cbv beta. fold old.
  intros x (A & B & K & Ff & Nd & Nb). split; [exact A|]. split; [exact B|].
  destruct Sy as (i & h & (A1 & A2 & A3 & A4 & A5 & A6 & A7 & A8 & A9 & A10 & A11) & Ec & Eh).
  assert (G : forall bs, Forall ok_batch bs -> fits H mv bs -> file_at x n = Some (history_file H mv bs) ->
     exists s' a', open_db H mv behind n (with_ctxs a0 []) (reboot x) = (s', a', Ok 0%Z) /\ shows H (a', s', 0%Z) bs).
  { intros bs Fb Fi Ef. destruct (open_file H mv behind HL (with_ctxs a0 []) x n bs) as (s' & a' & E & Sy'); auto.
    all: cbn [with_ctxs a_dst a_bck a_chunk]; rewrite <- ?Ch, <- ?Ed, <- ?Eb; auto.
    exists s', a'. split; [exact E|]. eapply synced_shows; eauto. }
  destruct A as [A|[A|(A & _)]]; [| |now left]; right.
  - destruct (G _ A10 A11 A) as (s' & a' & E & Sh). eauto 6.
  - destruct (G (committed os ++ [(pending os, now)])) as (s' & a' & E & Sh); eauto 6.
    apply Forall_app. split; auto.
Qed.
Print Assumptions C36_every_crash_point_has_a_complete_copy.

(** At one of the crash points the database is not there: Exists says no, Open fails. *)
Theorem C36_commit_is_not_atomic_refuted : forall H mv behind, sha_ok H ->
  forall a0 n s0 os now a s id, session H mv behind a0 n s0 os (a, s, id) ->
  allowed H mv (a_chunk a0) (committed os, pending os) (OCommit now) ->
  exists x, In x (commit_states H mv now a s id) /\ nothing_at x n /\ exists_db (reboot x) n = false /\
    (forall b, snd (open_db H mv behind n b (reboot x)) = Err).
Proof.
  intros H mv behind HL a0 n s0 os now a s id S (Np & T & Ft & Ck). cbn [fst snd] in Np, T, Ft, Ck.
  destruct (session_synced H mv behind HL _ _ _ _ _ _ _ S) as (Sy & F & Ch & _).
  assert (W : ok_batch (pending os, now)) by (split; auto).
  pose proof (commit_crash H mv HL a s n id _ _ now Sy W (fits_data H mv _ Ft)) as (_ & x & i & I & N & _).
  exists x. unfold nothing_at in N. split; [exact I|]. split; [exact N|]. split.
  - unfold exists_db, sys_stat. cbn [reboot with_locks with_handles f_dir]. now rewrite N.
  - intros b. unfold open_db. cbn [reboot with_locks with_handles f_dir]. rewrite N. destruct (existsb _ _); reflexivity.
Qed.
Print Assumptions C36_commit_is_not_atomic_refuted.

Example C36_ex : allowed toy_sha x00 100 (committed ex_ops, pending ex_ops) (OCommit 8).
Proof. change (committed ex_ops) with (fst (spec_run ([], []) ex_ops)). vm_compute committed. allowed. Qed.

(** *** C37: false. *)
(** The second application opens the database, then both commit: the first batch is gone. *)
Theorem C37_second_committer_erases_the_first_refuted : forall H mv behind, sha_ok H ->
  forall a0 n s0 os a s id, session H mv behind a0 n s0 os (a, s, id) ->
  forall t1 t2 pd2,
  allowed H mv (a_chunk a0) (committed os, pending os) (OCommit t1) ->
  allowed H mv (a_chunk a0) (committed os, pd2) (OCommit t2) -> Forall ok_content pd2 ->
  exists s1 b1 id2 s2 a2 s3 b3,
    open_db H mv behind n (with_ctxs a0 []) s = (s1, b1, Ok id2) /\
    let b2 := writes b1 id2 pd2 in
    commit_db H mv t1 a s1 id = (s2, a2, Ok tt) /\
    commit_db H mv t2 b2 s2 id2 = (s3, b3, Ok tt) /\
    shows H (a2, s2, id) (committed os ++ [(pending os, t1)]) /\
    shows H (b3, s3, id2) (committed os ++ [(pd2, t2)]) /\
    file_at s3 n = Some (history_file H mv (committed os ++ [(pd2, t2)])).
Proof.
  intros H mv behind HL a0 n s0 os a s id S t1 t2 pd2 (Np & T & Ft & Ck) (Np2 & T2 & Ft2 & Ck2) F2.
  cbn [fst snd] in *.
  destruct (session_synced H mv behind HL _ _ _ _ _ _ _ S) as (Sy & F & Ch & Ed & Eb).
  destruct (second_opener H mv behind HL a0 n a s id (committed os) (pending os) Sy Ch Ed Eb)
    as (s1 & b1 & E1 & Sy1 & Sb & Sc & Nc).
  destruct (writes_synced H mv pd2 b1 s1 n 0%Z (committed os) [] Sb F2) as (Sb2 & Sc2 & Nw). cbn [app] in Sb2.
  destruct Sc as (C1 & C2 & C3), Sc2 as (C4 & C5 & C6).
  destruct (commit_other H mv HL a (writes b1 0 pd2) s1 n id 0%Z (committed os) (pending os) pd2 t1 t2)
    as (s2 & a2 & s3 & b3 & Q1 & Q2 & Q3 & Q4 & Q5); auto.
  - congruence.
  - congruence.
  - intros c1 c2 Y1 Y2. destruct (Nw _ Y2) as (c2' & Y2' & ->). eauto.
  - split; auto.
  - split; auto.
  - now rewrite Ch.
  - now rewrite C6, C3.
  - exists s1, b1, 0%Z, s2, a2, s3, b3. split; [exact E1|]. cbv zeta. split; [exact Q1|]. split; [exact Q4|].
    split; [eapply synced_shows; eauto|]. split; [eapply synced_shows; eauto|].
    destruct Q5 as (j & hj & (_ & _ & _ & _ & X5 & _ & _ & _ & X9 & _) & _). unfold file_at. rewrite X5. f_equal. exact X9.
Qed.
Print Assumptions C37_second_committer_erases_the_first_refuted.

Example C37_ex : Forall ok_content [Content (ex_h x09) [x77] 3] /\
  allowed toy_sha x00 100 (committed ex_ops, [Content (ex_h x09) [x77] 3]) (OCommit 9).
Proof.
  split; [repeat constructor; discriminate|]. vm_compute committed. allowed.
Qed.

(** *** C38 *)
Theorem C38_commit_keeps_earlier_reads : forall H mv behind, sha_ok H ->
  forall a0 n s0 os now a s id a' s' id',
  session H mv behind a0 n s0 os (a, s, id) ->
  session H mv behind a0 n s0 (os ++ [OCommit now]) (a', s', id') ->
  forall from len, (0 <= from)%Z -> (0 <= len)%Z -> (from + len <= zlen (history_data (committed os)))%Z ->
  read_db a' s' id' (Pointer from len) = read_db a s id (Pointer from len).
Proof.
  intros H mv behind HL a0 n s0 os now a s id a' s' id' S S' from len P1 P2 P3.
  destruct (session_synced H mv behind HL _ _ _ _ _ _ _ S) as (Sy & _).
  destruct (session_synced H mv behind HL _ _ _ _ _ _ _ S') as (Sy' & _).
  assert (E : committed (os ++ [OCommit now]) = committed os ++ [(pending os, now)]).
  { unfold committed, pending, spec_run. rewrite fold_left_app. cbn [fold_left spec_step].
    destruct (fold_left spec_step os ([], [])). reflexivity. }
  rewrite E in Sy'. rewrite (read_synced _ _ _ _ _ _ _ _ _ _ Sy) by auto.
  rewrite (read_synced _ _ _ _ _ _ _ _ _ _ Sy').
  - f_equal. rewrite history_data_app. unfold sub. rewrite skipn_app, firstn_app, skipn_length. unfold zlen in *.
    replace (Z.to_nat len - (length (history_data (committed os)) - Z.to_nat from)) with 0 by lia.
    cbn [firstn]. now rewrite app_nil_r.
  - exact P1.
  - exact P2.
  - rewrite history_data_app, zlen_app. pose proof (zlen_nonneg (history_data [(pending os, now)])). lia.
Qed.
Print Assumptions C38_commit_keeps_earlier_reads.

Example C38_ex : let '(a, s, id) := ex_state (ex_run 100 (removelast ex_ops)) in
  let '(a', s', id') := ex_state (ex_run 100 ex_ops) in
  read_db a s id (Pointer 3 2) = Ok [x0d; x1a] /\ read_db a' s' id' (Pointer 3 2) = Ok [x0d; x1a] /\
  f_data s <> f_data s'.
Proof. rewrite ex_almost_finished, ex_finished. vm_compute. repeat split. discriminate. Qed.
