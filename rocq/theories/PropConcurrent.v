(** Property theorems about two processes that use one database at the same time (C137 - C142). *)
From Coq Require Import List ZArith NArith Lia Bool.
From Coq Require Import Init.Byte Strings.Byte.
From Verif Require Import Base BaseLemmas HashModel HashProofs SpecHash HashTreeModel HashTreeProofs
  RefModel RefProofs SpecRef DbModel SpecDb DbRefProofs DbFsProofs DbCommitProofs DbOpenProofs DbApiProofs
  DbSession DbSessionProofs DbMoreProofs DbMultiProofs DbFrameProofs DbForgeProofs DbConcurrent DbConcurrentProofs
  DbScheduleProofs DbSchedule2 DbSchedule3 DbSchedule4 DbSchedule5 DbSchedule6 PropHash PropDb.
Import ListNotations.

(** ** Schedules for the examples: who makes how many steps *)
Definition tick {A B} (first : bool) (w : world A B) : world A B :=
  match w with World p h1 q h2 s =>
    if first then
      match p with
      | Ret _ => w
      | Step f => let (s', p') := f (with_handles s h1) in World p' (f_handles s') q h2 s'
      end
    else
      match q with
      | Ret _ => w
      | Step f => let (s', q') := f (with_handles s h2) in World p h1 q' (f_handles s') s'
      end
  end.
Fixpoint ticks {A B} (first : bool) (k : nat) (w : world A B) : world A B :=
  match k with O => w | S k' => ticks first k' (tick first w) end.
Definition play {A B} (l : list (bool * nat)) (w : world A B) : world A B :=
  fold_left (fun w x => ticks (fst x) (snd x) w) l w.

Lemma later_tick {A B} first (w : world A B) : later w (tick first w).
Proof.
  destruct w as [p h1 q h2 s]. unfold tick. destruct first.
  - destruct p as [o|f]; [constructor|]. destruct (f (with_handles s h1)) as [s' p'] eqn:E. econstructor; [exact E|constructor].
  - destruct q as [o|f]; [constructor|]. destruct (f (with_handles s h2)) as [s' q'] eqn:E. econstructor; [exact E|constructor].
Qed.
Lemma later_play {A B} l : forall w : world A B, later w (play l w).
Proof.
  assert (K : forall first k (w : world A B), later w (ticks first k w)).
  { intros first k. induction k as [|k IH]; intros w; cbn [ticks]; [constructor|].
    eapply later_trans; [apply (later_tick first)|apply IH]. }
  unfold play. induction l as [|[first k] l IH]; intros w; cbn [fold_left fst snd]; [constructor|].
  eapply later_trans; [apply K|apply IH].
Qed.

(** A session about to commit once more, and another process. *)
Definition ex_a : dbapp := fst (fst ex_final).
Definition ex_s : fsys := snd (fst ex_final).
Definition ex_id : Z := snd ex_final.
Definition ex_commit : prog dbapp := p_commit toy_sha x00 8 ex_a ex_s ex_id.
Definition ex_open : prog (dbapp * Z) := p_open toy_sha x00 no_behind (ex_app 100) ex_name.
(** The number of steps of the commit. *)
Definition ex_steps : nat := length (states ex_commit ex_s).

Section Start.
  Variables (H : bytes -> bytes) (mv : byte) (behind : bytes -> bytes).
  Hypothesis HL : sha_ok H.
  Variables (a0 : dbapp) (n : bytes) (s0 : fsys) (os : list op) (a : dbapp) (s : fsys) (id : Z).
  Hypothesis S : session H mv behind a0 n s0 os (a, s, id).

  Lemma session_commit now : allowed H mv (a_chunk a0) (committed os, pending os) (OCommit now) ->
    synced H mv a s n id (committed os) (pending os) /\ ok_batch (pending os, now) /\
    fits H mv (committed os ++ [(pending os, now)]) /\ chunk_ok (a_chunk a) (history_data (committed os)).
  Proof.
    intros (Np & T & Ft & Ck). cbn [fst snd] in *.
    destruct (session_synced H mv behind HL _ _ _ _ _ _ _ S) as (Sy & F & Ch & _).
    split; [exact Sy|]. split; [split; auto|]. split; [exact Ft|]. now rewrite Ch.
  Qed.

  Lemma open_handles m b x y b' o : open_db H mv behind m b x = (y, b', o) -> y = with_handles x (f_handles y).
  Proof.
    unfold open_db, sys_open. destruct (existsb _ _); [intros E; injection E as <- _ _; symmetry; apply handles_eta|].
    destruct (dir_get (f_dir x) m) as [[i|]|]; [|intros E; injection E as <- _ _; symmetry; apply handles_eta ..].
    destruct (retrieve_reference H mv behind (a_chunk b) (data_of x i)) as [[ref off]| | |];
      intros E; injection E as <- _ _; [reflexivity|symmetry; apply handles_eta ..].
  Qed.

  (** A second process opens the database and writes. *)
  Lemma other_commit s1 b1 id2 pd2 now : open_db H mv behind n (with_ctxs a0 []) s = (s1, b1, Ok id2) ->
    allowed H mv (a_chunk a0) (committed os, pd2) (OCommit now) -> Forall ok_content pd2 ->
    let b2 := writes b1 id2 pd2 in
    s1 = with_handles s (f_handles s1) /\
    synced H mv b2 (with_handles s (f_handles s1)) n id2 (committed os) pd2 /\ ok_batch (pd2, now) /\
    fits H mv (committed os ++ [(pd2, now)]) /\ chunk_ok (a_chunk b2) (history_data (committed os)) /\
    a_dst b2 = a_dst a /\ a_bck b2 = a_bck a.
  Proof.
    intros E (Np & T & Ft & Ck) F2 b2. cbn [fst snd] in *. pose proof (open_handles _ _ _ _ _ _ E) as Eh.
    destruct (session_synced H mv behind HL _ _ _ _ _ _ _ S) as (Sy & F & Ch & Ed & Eb).
    destruct (second_opener H mv behind HL a0 n a s id (committed os) (pending os) Sy Ch Ed Eb)
      as (t1 & c1 & E1 & _ & Sb & (C1 & C2 & C3) & _).
    rewrite E in E1. injection E1 as <- <- ->.
    destruct (writes_synced H mv pd2 b1 s1 n 0%Z (committed os) [] Sb F2) as (Sb2 & (C4 & C5 & C6) & _). cbn [app] in Sb2.
    split; [exact Eh|]. split; [now rewrite <- Eh|]. split; [split; auto|]. split; [exact Ft|].
    unfold b2. rewrite C6, C3. split; [exact Ck|]. split; congruence.
  Qed.
End Start.

(** *** C137 *)
(** Whatever another process does in Open, a commit ends as it does alone: what it still has to do leads
    to the same outcome and the same files. *)
Theorem C137_open_does_not_disturb_commit : forall H mv behind now a s id b m hs w,
  later (World (p_commit H mv now a s id) (f_handles s) (p_open H mv behind b m) hs s) w ->
  let '(s', a', o) := commit_db H mv now a s id in
  run (w_first w) (with_handles (w_shared w) (w_files1 w)) = (s', do _ <- o; Ok a').
Proof.
  intros H mv behind now a s id b m hs w L.
  destruct (later_alone _ _ L (quiet_p_open H mv behind b m)) as (xs & A0).
  cbn [w_first w_shared w_files1] in A0. rewrite handles_eta in A0. apply alone_states in A0 as (_ & E).
  rewrite run_p_commit in E. destruct (commit_db H mv now a s id) as [[s' a'] [v| | |]]; symmetry; exact E.
Qed.
Print Assumptions C137_open_does_not_disturb_commit.

(** The programs of steps are the operations of the other theorems when nobody else is there. *)
Theorem C137_alone_as_in_one_process : forall H mv behind,
  (forall now a s id, let '(s', a', o) := commit_db H mv now a s id in
     run (p_commit H mv now a s id) s = (s', do _ <- o; Ok a')) /\
  (forall n s, run (p_new n) s = new_db n s) /\
  (forall b n s,
     let '(s1, b1, o1) := open_db H mv behind n b s in
     let '(s2, o2) := run (p_open H mv behind b n) s in
     s2 = with_handles s (f_handles s2) /\
     match o2 with
     | Ok (b2, id) => o1 = Ok id /\ exists r off i j1 j2,
         ctx_get (a_ctxs b1) id = Some (Ctx id n j1 r off []) /\ ctx_get (a_ctxs b2) id = Some (Ctx id n j2 r off []) /\
         nth_error (f_handles s1) j1 = Some (Handle i 0 true) /\ nth_error (f_handles s2) j2 = Some (Handle i 0 true) /\
         (forall k, k <> id -> ctx_get (a_ctxs b2) k = ctx_get (a_ctxs b1) k)
     | Err => o1 = Err | Panic => o1 = Panic | Fuel => o1 = Fuel
     end).
Proof.
  intros H mv behind. split; [|split].
  - intros now a s id. rewrite run_p_commit. destruct (commit_db H mv now a s id) as [[s' a'] [v| | |]]; reflexivity.
  - intros n s. apply run_p_new.
  - intros b n s. pose proof (run_p_open H mv behind b n s) as R.
    destruct (open_db H mv behind n b s) as [[s1 b1] o1]. destruct (run (p_open H mv behind b n) s) as [s2 o2].
    cbn [fst snd] in R. destruct R as (R1 & R2). split; [exact R2|].
    destruct o2 as [[b2 id]| | |]; auto. destruct R1 as (-> & r & i & j1 & j2 & X). split; [reflexivity|].
    exists (fst r), (snd r), i, j1, j2. exact X.
Qed.
Print Assumptions C137_alone_as_in_one_process.

(** Open between the steps of a commit, and the commit's result. *)
Example C137_ex : let w := play [(true, 300); (false, 3); (true, 200); (false, 1)] (World ex_commit (f_handles ex_s) ex_open [] ex_s) in
  match w_first w, w_second w with Step _, Step _ => true | _, _ => false end = true /\
  match run (w_first w) (with_handles (w_shared w) (w_files1 w)) with (_, Ok _) => true | _ => false end = true.
Proof. vm_compute. auto. Qed.

(** *** C138 *)
(** An Open that ends before the file is replaced succeeds and shows the history before the commit. *)
Theorem C138_open_before_the_file_is_replaced : forall H mv behind, sha_ok H ->
  forall a0 n s0 os now a s id, session H mv behind a0 n s0 os (a, s, id) ->
  allowed H mv (a_chunk a0) (committed os, pending os) (OCommit now) ->
  forall b hs w o, good_config b -> existsb (fun x => bytes_eqb (x_name (snd x)) n) (a_ctxs b) = false ->
  later (World (p_commit H mv now a s id) (f_handles s) (p_open H mv behind b n) hs s) w ->
  w_second w = Ret o -> dir_get (f_dir (w_shared w)) n = dir_get (f_dir s) n ->
  exists b' id', o = Ok (b', id') /\ shows H (b', with_handles (w_shared w) (w_files2 w), id') (committed os).
Proof.
  intros H mv behind HL a0 n s0 os now a s id S Al b hs w o Gb Nb L E U.
  destruct (session_commit H mv behind HL _ _ _ _ _ _ _ S now Al) as (Sy & Wb & Ft & Ch).
  destruct (open_schedule H mv behind HL a s n id _ _ now Sy Wb Ft Ch b Gb Nb hs w o L E) as [(_ & X)|(b' & id' & -> & [X|[(_ & X)|(_ & X)]])];
    [contradiction| |contradiction ..]. eauto.
Qed.
Print Assumptions C138_open_before_the_file_is_replaced.

Definition ex_seen (w : world dbapp (dbapp * Z)) : outcome bytes :=
  match w_second w with
  | Ret (Ok (b, id)) => read_by_hash b (with_handles (w_shared w) (w_files2 w)) id (ex_h x04)
  | Ret _ => Err
  | Step _ => Fuel
  end.
Definition ex_done {A} (p : prog A) : bool := match p with Ret (Ok _) => true | _ => false end.
Example C138_ex : let w := play [(true, 300); (false, 1); (true, 100); (false, 100)] (World ex_commit (f_handles ex_s) ex_open [] ex_s) in
  ex_seen w = Ok [x1c] /\ dir_get (f_dir (w_shared w)) ex_name = dir_get (f_dir ex_s) ex_name.
Proof. vm_compute. auto. Qed.

(** *** C139: false. *)
(** What an Open can give that ends later: an error, the history before the commit, the one after it,
    or the lists of the one before it over the file of the one after it. *)
Theorem C139_open_gives_one_of_four : forall H mv behind, sha_ok H ->
  forall a0 n s0 os now a s id, session H mv behind a0 n s0 os (a, s, id) ->
  allowed H mv (a_chunk a0) (committed os, pending os) (OCommit now) ->
  let old := committed os in let new := committed os ++ [(pending os, now)] in
  forall b hs w o, good_config b -> existsb (fun x => bytes_eqb (x_name (snd x)) n) (a_ctxs b) = false ->
  later (World (p_commit H mv now a s id) (f_handles s) (p_open H mv behind b n) hs s) w ->
  w_second w = Ret o ->
  o = Err \/ exists b' id', o = Ok (b', id') /\ let seen := with_handles (w_shared w) (w_files2 w) in
    (shows H (b', seen, id') old \/ shows H (b', seen, id') new \/
     (commits_db b' id' = commits_db a id /\
      (forall kind, content_keys_by_kind b' id' kind = content_keys_by_kind a id kind) /\
      (forall from len, (0 <= from)%Z -> (0 <= len)%Z ->
         (zlen (header (history_ref H mv old)) + from + len <= zlen (history_file H mv new))%Z ->
         read_db b' seen id' (Pointer from len) =
         Ok (sub (history_file H mv new) (zlen (header (history_ref H mv old)) + from) len)))).
Proof.
  intros H mv behind HL a0 n s0 os now a s id S Al old new b hs w o Gb Nb L E.
  destruct (session_commit H mv behind HL _ _ _ _ _ _ _ S now Al) as (Sy & Wb & Ft & Ch).
  destruct (open_schedule H mv behind HL a s n id _ _ now Sy Wb Ft Ch b Gb Nb hs w o L E) as [(-> & X)|(b' & id' & -> & [X|[(X & _)|((X1 & X2 & X3 & _) & _)]])];
    [now left|right; exists b', id'; split; [reflexivity|]; cbv zeta ..]; auto.
Qed.
Print Assumptions C139_open_gives_one_of_four.

(** The fourth happens: Open succeeds, lists the commits and keys from before, but the first bytes of what it
    reads as data are bytes of the new header, at least 152 of them. *)
Theorem C139_open_during_commit_reads_wrong_bytes_refuted : forall H mv behind, sha_ok H ->
  forall a0 n s0 os now a s id, session H mv behind a0 n s0 os (a, s, id) ->
  allowed H mv (a_chunk a0) (committed os, pending os) (OCommit now) ->
  forall b hs, good_config b -> existsb (fun x => bytes_eqb (x_name (snd x)) n) (a_ctxs b) = false ->
  let old := header (history_ref H mv (committed os)) in
  let new := header (history_ref H mv (committed os ++ [(pending os, now)])) in
  exists w a' b' id',
    later (World (p_commit H mv now a s id) (f_handles s) (p_open H mv behind b n) hs s) w /\
    w_first w = Ret (Ok a') /\ w_second w = Ret (Ok (b', id')) /\
    commits_db b' id' = commits_db a id /\
    (forall kind, content_keys_by_kind b' id' kind = content_keys_by_kind a id kind) /\
    (zlen old + 152 <= zlen new)%Z /\
    (forall from len, (0 <= from)%Z -> (0 <= len)%Z -> (zlen old + from + len <= zlen new)%Z ->
       read_db b' (with_handles (w_shared w) (w_files2 w)) id' (Pointer from len) = Ok (sub new (zlen old + from) len)).
Proof.
  intros H mv behind HL a0 n s0 os now a s id S Al b hs Gb Nb old new.
  destruct (session_commit H mv behind HL _ _ _ _ _ _ _ S now Al) as (Sy & Wb & Ft & Ch).
  destruct (mixed_schedule H mv behind HL a s n id _ _ now Sy Wb Ft Ch b hs Gb Nb) as (w & a' & b' & id' & L & E1 & E2 & M1 & M2 & M3 & _).
  exists w, a', b', id'. split; [exact L|]. split; [exact E1|]. split; [exact E2|]. split; [exact M1|]. split; [exact M2|].
  destruct (new_ok H mv a s n id _ _ now Sy Wb) as (_ & _ & F2).
  split; [apply (header_grows H mv HL); [exact F2|exact (fits_data H mv _ Ft)]|].
  intros from len P1 P2 P3. pose proof (zlen_nonneg old). rewrite M3; auto.
  - f_equal. unfold history_file. fold new. fold old. unfold sub. rewrite skipn_app, firstn_app, skipn_length. unfold zlen in *.
    replace (Z.to_nat len - (length new - Z.to_nat (Z.of_nat (length old) + from))) with 0 by lia.
    cbn [firstn]. now rewrite app_nil_r.
  - fold old. unfold history_file. fold new. rewrite zlen_app. pose proof (zlen_nonneg (history_data (committed os ++ [(pending os, now)]))). lia.
Qed.
Print Assumptions C139_open_during_commit_reads_wrong_bytes_refuted.

(** The first happens too: while the commit, which succeeds, has removed the file and not yet put the new one
    there, the database cannot be opened. *)
Theorem C139_open_during_commit_fails_refuted : forall H mv behind, sha_ok H ->
  forall a0 n s0 os now a s id, session H mv behind a0 n s0 os (a, s, id) ->
  allowed H mv (a_chunk a0) (committed os, pending os) (OCommit now) ->
  forall b hs, existsb (fun x => bytes_eqb (x_name (snd x)) n) (a_ctxs b) = false ->
  exists w a', later (World (p_commit H mv now a s id) (f_handles s) (p_open H mv behind b n) hs s) w /\
    w_first w = Ret (Ok a') /\ w_second w = Ret Err.
Proof.
  intros H mv behind HL a0 n s0 os now a s id S Al b hs Nb.
  destruct (session_commit H mv behind HL _ _ _ _ _ _ _ S now Al) as (Sy & Wb & Ft & Ch).
  destruct (gap_error H mv behind HL a s n id _ _ now Sy Wb Ft Ch b hs Nb) as (w & L & E2 & a' & E1). eauto.
Qed.
Print Assumptions C139_open_during_commit_fails_refuted.

(** Open reads something, the commit runs, Open ends: the byte 1c is read as 04. Open in the gap: an error. *)
Example C139_ex : let start := World ex_commit (f_handles ex_s) ex_open [] ex_s in
  let seen l := ex_seen (play l start) in
  read_by_hash ex_a ex_s ex_id (ex_h x04) = Ok [x1c] /\
  seen [(false, 40); (true, ex_steps)] = Ok [x1c] /\ seen [(true, ex_steps); (false, 40)] = Ok [x1c] /\
  seen [(false, 1); (true, ex_steps); (false, 40)] = Ok [x04] /\
  seen [(true, ex_steps - 5); (false, 40); (true, 5)] = Err /\
  ex_done (w_first (play [(true, ex_steps - 5); (false, 40); (true, 5)] start)) = true.
Proof. vm_compute. repeat split. Qed.
Example C139_ex_hypotheses : session toy_sha x00 no_behind (ex_app 100) ex_name ex_fs ex_ops (ex_a, ex_s, ex_id) /\
  allowed toy_sha x00 100 (committed ex_ops, pending ex_ops) (OCommit 8) /\
  good_config (ex_app 100) /\ existsb (fun x => bytes_eqb (x_name (snd x)) ex_name) (a_ctxs (ex_app 100)) = false.
Proof.
  split; [|split; [exact C36_ex|]].
  - pose proof ex_session as S. rewrite ex_at in S. exact S.
  - split; [repeat split; try discriminate; reflexivity|reflexivity].
Qed.

(** *** C140 *)
(** Two processes commit. As long as the name still stands for the same file, this file holds the history from
    before, and one of the processes has not begun or was refused, while the other goes through the states and
    to the outcome that it would reach alone. *)
Theorem C140_one_commit_at_a_time : forall H mv behind, sha_ok H ->
  forall a0 n s0 os a s id, session H mv behind a0 n s0 os (a, s, id) ->
  forall t1 t2 pd2 s1 b1 id2,
  allowed H mv (a_chunk a0) (committed os, pending os) (OCommit t1) ->
  allowed H mv (a_chunk a0) (committed os, pd2) (OCommit t2) -> Forall ok_content pd2 ->
  open_db H mv behind n (with_ctxs a0 []) s = (s1, b1, Ok id2) ->
  let first := p_commit H mv t1 a s id in
  let second := p_commit H mv t2 (writes b1 id2 pd2) s1 id2 in
  forall w, later (World first (f_handles s) second (f_handles s1) s) w ->
  dir_get (f_dir (w_shared w)) n = dir_get (f_dir s) n ->
  let seen1 := with_handles (w_shared w) (w_files1 w) in
  let seen2 := with_handles (w_shared w) (w_files2 w) in
  file_at (w_shared w) n = Some (history_file H mv (committed os)) /\
  ((In seen1 (states first s) /\ run (w_first w) seen1 = run first s /\ (w_second w = second \/ w_second w = Ret Err)) \/
   (In seen2 (states second s1) /\ run (w_second w) seen2 = run second s1 /\ (w_first w = first \/ w_first w = Ret Err))).
Proof.
  intros H mv behind HL a0 n s0 os a s id S t1 t2 pd2 s1 b1 id2 Al1 Al2 F2 Eo first second w L U seen1 seen2.
  destruct (session_commit H mv behind HL _ _ _ _ _ _ _ S t1 Al1) as (Sy & Wb & Ft & Ch).
  destruct (other_commit H mv behind HL _ _ _ _ _ _ _ S _ _ _ _ _ Eo Al2 F2) as (Es & Sb & Wb2 & Ft2 & Ch2 & _).
  assert (Sy' : synced H mv a (with_handles s (f_handles s)) n id (committed os) (pending os)) by now rewrite handles_eta.
  pose proof (one_at_a_time H mv HL s n (committed os) a (f_handles s) id _ t1 Sy' Wb Ft Ch _ _ id2 pd2 t2 Sb Wb2 Ft2 Ch2 w) as T.
  rewrite handles_eta, <- Es in T. destruct (T L U) as (T1 & T2). split; [exact T1|].
  assert (Al : forall (p : prog dbapp) x p' y xs, alone p x p' y xs -> In y (states p x) /\ run p' y = run p x).
  { intros p x p' y xs A0. apply alone_states in A0 as ((pre & _ & ->) & ->). split; [|reflexivity].
    destruct (states_cons p' y) as (l & ->). apply in_or_app. right. now left. }
  destruct T2 as [((xs & A0) & I)|((xs & A0) & I)]; apply Al in A0 as (A1 & A2); [left|right]; (split; [exact A1|]); (split; [exact A2|]);
    destruct I as [(-> & _)| ->]; auto.
Qed.
Print Assumptions C140_one_commit_at_a_time.

(** The second process of the examples: it opens the database and writes one content. *)
Definition ex_writes (r : fsys * dbapp * outcome Z) : fsys * dbapp * Z :=
  match r with
  | (s1, b1, Ok id2) => (s1, writes b1 id2 [Content (ex_h x09) [x77] 3], id2)
  | (s1, b1, _) => (s1, b1, 99%Z)
  end.
Definition ex_pair (first : prog dbapp) (s : fsys) (r : fsys * dbapp * Z) : world dbapp dbapp :=
  match r with (s1, b2, id2) => World first (f_handles s) (p_commit toy_sha x00 9 b2 s1 id2) (f_handles s1) s end.
Definition ex_second : fsys * dbapp * Z := ex_writes (open_db toy_sha x00 no_behind ex_name (ex_app 100) ex_s).
Definition ex_both : world dbapp dbapp := ex_pair ex_commit ex_s ex_second.
(** The first one is writing, the second one is refused; the first one goes on to the end. *)
Example C140_ex :
  let w := play [(true, 2000); (false, 30)] ex_both in
  match w_second w with Ret Err => true | _ => false end = true /\
  dir_get (f_dir (w_shared w)) ex_name = dir_get (f_dir ex_s) ex_name /\
  ex_done (w_first (play [(true, 1400)] w)) = true.
Proof. vm_compute. repeat split. Qed.

(** *** C141: false. *)
(** The lock is on the file, which the commit replaces. A commit that starts in between takes another lock on a
    new file of the same name and empties the file that the first commit has just written. The first one succeeds
    and the database is empty; when the second one has ended, with an error, there is no database. *)
Theorem C141_two_commits_destroy_the_database_refuted : forall H mv behind, sha_ok H ->
  forall a0 n s0 os a s id, session H mv behind a0 n s0 os (a, s, id) ->
  forall t1 t2 pd2,
  allowed H mv (a_chunk a0) (committed os, pending os) (OCommit t1) ->
  allowed H mv (a_chunk a0) (committed os, pd2) (OCommit t2) -> Forall ok_content pd2 ->
  exists s1 b1 id2, open_db H mv behind n (with_ctxs a0 []) s = (s1, b1, Ok id2) /\
  let both := World (p_commit H mv t1 a s id) (f_handles s) (p_commit H mv t2 (writes b1 id2 pd2) s1 id2) (f_handles s1) s in
  (exists w a', later both w /\ w_first w = Ret (Ok a') /\ file_at (w_shared w) n = Some [] /\
     nothing_at (w_shared w) (side n (a_dst a0)) /\ nothing_at (w_shared w) (side n (a_bck a0))) /\
  (exists w a', later both w /\ w_first w = Ret (Ok a') /\ w_second w = Ret Err /\
     nothing_at (w_shared w) n /\ nothing_at (w_shared w) (side n (a_dst a0)) /\
     file_at (w_shared w) (side n (a_bck a0)) = Some (history_file H mv (committed os))).
Proof.
  intros H mv behind HL a0 n s0 os a s id S t1 t2 pd2 Al1 Al2 F2.
  destruct (session_commit H mv behind HL _ _ _ _ _ _ _ S t1 Al1) as (Sy & Wb & Ft & Ch).
  destruct (session_synced H mv behind HL _ _ _ _ _ _ _ S) as (_ & _ & Chk & Ed & Eb).
  destruct (second_opener H mv behind HL a0 n a s id (committed os) (pending os) Sy Chk Ed Eb) as (s1 & b1 & E1 & _).
  destruct (other_commit H mv behind HL _ _ _ _ _ _ _ S _ _ _ _ _ E1 Al2 F2) as (Es & Sb & Wb2 & Ft2 & Ch2 & D2 & B2).
  exists s1, b1, 0%Z. split; [exact E1|]. cbv zeta. rewrite <- Ed, <- Eb.
  pose proof (commits_collide H mv HL a s n id _ _ t1 Sy Wb Ft Ch _ _ 0%Z pd2 t2 Sb Wb2 Ft2 Ch2 D2 B2) as T.
  rewrite <- Es in T. exact T.
Qed.
Print Assumptions C141_two_commits_destroy_the_database_refuted.

(** The second commit starts while the first has removed the file. *)
Example C141_ex :
  let w := play [(true, ex_steps - 5); (false, 2); (true, 5)] ex_both in
  let w' := play [(false, ex_steps)] w in
  snd ex_second = 0%Z /\ ex_done (w_first w) = true /\ file_at (w_shared w) ex_name = Some [] /\
  match w_second w' with Ret Err => true | _ => false end = true /\ file_at (w_shared w') ex_name = None.
Proof. vm_compute. repeat split. Qed.

(** *** C142: false. *)
(** New looks for the file while a commit has removed it, and creates it when the commit has put the new file
    there. Both succeed and the database is empty. *)
Theorem C142_new_during_commit_empties_the_database_refuted : forall H mv behind, sha_ok H ->
  forall a0 n s0 os now a s id, session H mv behind a0 n s0 os (a, s, id) ->
  allowed H mv (a_chunk a0) (committed os, pending os) (OCommit now) ->
  forall hs, exists w a', later (World (p_commit H mv now a s id) (f_handles s) (p_new n) hs s) w /\
    w_first w = Ret (Ok a') /\ w_second w = Ret (Ok tt) /\
    file_at (w_shared w) n = Some [] /\
    nothing_at (w_shared w) (side n (a_dst a0)) /\ nothing_at (w_shared w) (side n (a_bck a0)).
Proof.
  intros H mv behind HL a0 n s0 os now a s id S Al hs.
  destruct (session_commit H mv behind HL _ _ _ _ _ _ _ S now Al) as (Sy & Wb & Ft & Ch).
  destruct (session_synced H mv behind HL _ _ _ _ _ _ _ S) as (_ & _ & _ & Ed & Eb). rewrite <- Ed, <- Eb.
  exact (new_schedule H mv HL a s n id _ _ now Sy Wb Ft Ch hs).
Qed.
Print Assumptions C142_new_during_commit_empties_the_database_refuted.

Example C142_ex : let start := World ex_commit (f_handles ex_s) (p_new ex_name) [] ex_s in
  let w := play [(true, ex_steps - 5); (false, 1); (true, 5); (false, 5)] start in
  ex_done (w_first w) = true /\ ex_done (w_second w) = true /\ file_at (w_shared w) ex_name = Some [].
Proof. vm_compute. repeat split. Qed.
