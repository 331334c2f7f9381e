(** Property theorems about any number of processes (C147, C148). *)
From Coq Require Import List ZArith NArith Lia Bool.
From Coq Require Import Init.Byte Strings.Byte.
From Verif Require Import Base BaseLemmas HashModel HashProofs SpecHash HashTreeModel HashTreeProofs
  RefModel RefProofs SpecRef DbModel SpecDb DbRefProofs DbFsProofs DbCommitProofs DbOpenProofs DbApiProofs
  DbSession DbSessionProofs DbMoreProofs DbMultiProofs DbFrameProofs DbForgeProofs DbConcurrent DbConcurrentProofs
  DbScheduleProofs DbSchedule2 DbSchedule3 DbSchedule4 DbSchedule5 DbSchedule6 DbCrowd DbCrowdProofs PropHash PropDb PropConcurrent.
Import ListNotations.

(** Processes that open databases, each with its own application and open files. *)
Definition readers H mv behind (l : list (dbapp * bytes * list handle)) : list (prog (dbapp * Z) * list handle) :=
  map (fun x => (p_open H mv behind (fst (fst x)) (snd (fst x)), snd x)) l.

Lemma readers_quiet H mv behind l : all_quiet (readers H mv behind l).
Proof. unfold readers. apply Forall_map, Forall_forall. intros x _. apply quiet_p_open. Qed.

(** *** C147 *)
(** One process commits, any number of processes open databases, in any order of steps; any of them may stop.
    The commit ends as it does alone. *)
Theorem C147_opens_do_not_disturb_commit : forall H mv behind now a s id l w,
  crowd_later (Crowd [(p_commit H mv now a s id, f_handles s)] (readers H mv behind l) s) w ->
  let '(s', a', o) := commit_db H mv now a s id in
  exists p hs, c_writers w = [(p, hs)] /\ run p (with_handles (c_shared w) hs) = (s', do _ <- o; Ok a').
Proof.
  intros H mv behind now a s id l w L.
  destruct (crowd_writer_alone _ _ L (readers_quiet H mv behind l) _ _ eq_refl) as (p & hs & xs & Ew & A0). cbn [c_shared] in A0.
  rewrite handles_eta in A0. apply alone_states in A0 as (_ & A0).
  pose proof (proj1 (C137_alone_as_in_one_process H mv behind) now a s id) as C. rewrite A0 in C.
  destruct (commit_db H mv now a s id) as [[s' a'] o]. eauto.
Qed.
Print Assumptions C147_opens_do_not_disturb_commit.

(** Each Open that has ended gives what it can give when no other process opens anything: before the file is
    replaced the history before the commit, and later an error, this history, the next one, or the mixture of C139. *)
Theorem C147_each_open_as_if_there_were_no_others : forall H mv behind, sha_ok H ->
  forall a0 n s0 os now a s id, session H mv behind a0 n s0 os (a, s, id) ->
  allowed H mv (a_chunk a0) (committed os, pending os) (OCommit now) ->
  let old := committed os in let new := committed os ++ [(pending os, now)] in
  forall l w,
  crowd_later (Crowd [(p_commit H mv now a s id, f_handles s)] (readers H mv behind l) s) w ->
  length (c_readers w) = length l /\
  forall j b hs o hs', nth_error l j = Some (b, n, hs) -> nth_error (c_readers w) j = Some (Ret o, hs') ->
  good_config b -> existsb (fun x => bytes_eqb (x_name (snd x)) n) (a_ctxs b) = false ->
  let seen := with_handles (c_shared w) hs' in
  (dir_get (f_dir (c_shared w)) n = dir_get (f_dir s) n -> exists b' id', o = Ok (b', id') /\ shows H (b', seen, id') old) /\
  (o = Err \/ exists b' id', o = Ok (b', id') /\
    (shows H (b', seen, id') old \/ shows H (b', seen, id') new \/
     (commits_db b' id' = commits_db a id /\
      (forall kind, content_keys_by_kind b' id' kind = content_keys_by_kind a id kind) /\
      (forall from len, (0 <= from)%Z -> (0 <= len)%Z ->
         (zlen (header (history_ref H mv old)) + from + len <= zlen (history_file H mv new))%Z ->
         read_db b' seen id' (Pointer from len) =
         Ok (sub (history_file H mv new) (zlen (header (history_ref H mv old)) + from) len))))).
Proof.
  intros H mv behind HL a0 n s0 os now a s id S Al old new l w L.
  destruct (crowd_two _ _ L (readers_quiet H mv behind l) _ _ eq_refl) as (p' & k' & Ew & K). cbn [c_readers c_shared] in K.
  split. { rewrite (crowd_readers_length _ _ L). cbn [c_readers]. unfold readers. apply map_length. }
  intros j b hs o hs' Nj Nw G Ex seen.
  destruct (K j (p_open H mv behind b n) hs) as (q' & h' & y & N' & Y & L').
  { unfold readers. now rewrite nth_error_map, Nj. }
  rewrite Nw in N'. injection N' as <- <-.
  pose proof (C138_open_before_the_file_is_replaced H mv behind HL a0 n s0 os now a s id S Al b hs _ o G Ex L' eq_refl) as P1.
  pose proof (C139_open_gives_one_of_four H mv behind HL a0 n s0 os now a s id S Al b hs _ o G Ex L' eq_refl) as P2.
  cbn [w_shared w_files2] in P1, P2. cbv zeta in P2. fold old new in P1, P2. rewrite (Y hs') in P1, P2. fold seen in P1, P2.
  split; [|exact P2]. intros D. apply P1.
  assert (Dy : f_dir y = f_dir (c_shared w)) by (pose proof (f_equal f_dir (Y [])) as Y'; exact Y').
  now rewrite Dy.
Qed.
Print Assumptions C147_each_open_as_if_there_were_no_others.

(** *** C148 *)
(** One process and any number of others that have opened the same history and written to it commit, and any
    number of processes open it. As long as the name still stands for the same file: this file holds the history;
    one of the commits is somewhere on the way that it would go alone, and every other one has not begun or was
    refused; and every Open that has ended shows the history. *)
Theorem C148_one_commit_at_a_time_among_any_number : forall H mv behind, sha_ok H ->
  forall a0 n s0 os now a s id, session H mv behind a0 n s0 os (a, s, id) ->
  allowed H mv (a_chunk a0) (committed os, pending os) (OCommit now) ->
  forall s1 b1 id1, open_db H mv behind n (with_ctxs a0 []) s = (s1, b1, Ok id1) ->
  forall batches, Forall (fun y => allowed H mv (a_chunk a0) (committed os, fst y) (OCommit (snd y)) /\ Forall ok_content (fst y)) batches ->
  let writers := (p_commit H mv now a s id, f_handles s) ::
    map (fun y => (p_commit H mv (snd y) (writes b1 id1 (fst y)) s1 id1, f_handles s1)) batches in
  forall l w, crowd_later (Crowd writers (readers H mv behind l) s) w ->
  dir_get (f_dir (c_shared w)) n = dir_get (f_dir s) n ->
  file_at (c_shared w) n = Some (history_file H mv (committed os)) /\
  length (c_writers w) = length writers /\
  (exists k p0 h p hs, nth_error writers k = Some (p0, h) /\ nth_error (c_writers w) k = Some (p, hs) /\
     let seen := with_handles (c_shared w) hs in
     In seen (states p0 (with_handles s h)) /\ run p seen = run p0 (with_handles s h) /\
     forall j p1 h1, j <> k -> nth_error writers j = Some (p1, h1) ->
       exists p2 h2, nth_error (c_writers w) j = Some (p2, h2) /\ (p2 = p1 \/ p2 = Ret Err)) /\
  (forall j b hs o hs', nth_error l j = Some (b, n, hs) -> nth_error (c_readers w) j = Some (Ret o, hs') ->
     good_config b -> existsb (fun x => bytes_eqb (x_name (snd x)) n) (a_ctxs b) = false ->
     exists b' id', o = Ok (b', id') /\ shows H (b', with_handles (c_shared w) hs', id') (committed os)).
Proof.
  intros H mv behind HL a0 n s0 os now a s id S Al s1 b1 id1 Eo batches Fb writers l w L Same.
  destruct (session_commit H mv behind HL _ _ _ _ _ _ _ S now Al) as (Sy & Wb & Ft & Ch).
  assert (Sy' : synced H mv a (with_handles s (f_handles s)) n id (committed os) (pending os)) by now rewrite handles_eta.
  pose proof Sy as (i & h0 & (A1 & A2 & (A3 & A3') & A4 & A5 & A6 & A7 & A8 & A9 & A10 & A11) & _).
  assert (Name : dir_get (f_dir s) n = Some (EFile i)) by assumption.
  assert (Li : i < length (f_data s)) by (eapply A3; exact Name).
  assert (G : all_good H mv s n (committed os) i writers).
  { constructor.
    - cbn [fst snd]. pose proof (commit_good H mv HL s n (committed os) i Name a (f_handles s) id _ now Sy' Wb Ft Ch) as X. now rewrite handles_eta in X.
    - apply Forall_map. eapply Forall_impl; [|exact Fb]. cbv beta. intros y (Ay & Fy). cbn [fst snd].
      destruct (other_commit H mv behind HL _ _ _ _ _ _ _ S _ _ _ _ _ Eo Ay Fy) as (Es & Sb & Wb2 & Ft2 & Ch2 & _).
      pose proof (commit_good H mv HL s n (committed os) i Name (writes b1 id1 (fst y)) (f_handles s1) id1 _ (snd y) Sb Wb2 Ft2 Ch2) as X.
      now rewrite <- Es in X. }
  assert (Nw : writers <> []) by discriminate.
  pose proof (readers_quiet H mv behind l) as Q.
  assert (Ow : one_works H mv s n (committed os) i writers w).
  { eapply (until_works H mv s n (committed os) i Name _ writers _ w G Nw Q Same w L); [constructor|exact (quiet_later _ _ L Q)]. }
  destruct (works_old H mv s n (committed os) i _ writers w Ow) as ((O1 & O2) & _).
  split. { unfold file_at. rewrite O1. f_equal. exact O2. }
  split. { destruct (until_stays H mv s n (committed os) i _ writers _ G Nw Q w L) as (Ln & _). exact Ln. }
  split.
  - destruct Ow as (k & p0 & h & E & p & hs & Nk & Nk' & Gk & Ek & Id). exists k, p0, h, p, hs. split; [exact Nk|]. split; [exact Nk'|]. cbv zeta.
    destruct (good_alone _ _ _ _ _ _ _ _ _ Gk _ _ Ek) as (xs & A0). apply alone_states in A0 as ((pre & _ & ->) & ->).
    destruct (states_cons p (with_handles (c_shared w) hs)) as (m & ->).
    split; [apply in_or_app; right; now left|]. split; [reflexivity|].
    intros j p1 h1 Nj Ej. destruct (Id j p1 h1 Nj Ej) as (p2 & h2 & X & [(-> & _)| ->]); eauto.
  - intros j b hs o hs' Nj Njw Gb Nb.
    apply (until_opens H mv HL s n (committed os) i Name Li A10 A11 behind writers (readers H mv behind l) w b hs j o hs'); auto.
    unfold readers. now rewrite nth_error_map, Nj.
Qed.
Print Assumptions C148_one_commit_at_a_time_among_any_number.

(** ** Schedules for the examples *)
Definition crowd_tick {A B} (who : bool * nat) (w : crowd A B) : crowd A B :=
  match w, who with
  | Crowd ws rs s, (true, j) =>
    match nth_error ws j with
    | Some (Step f, hs) => let (s', p') := f (with_handles s hs) in Crowd (firstn j ws ++ (p', f_handles s') :: skipn (S j) ws) rs s'
    | _ => w
    end
  | Crowd ws rs s, (false, j) =>
    match nth_error rs j with
    | Some (Step f, hs) => let (s', q') := f (with_handles s hs) in Crowd ws (firstn j rs ++ (q', f_handles s') :: skipn (S j) rs) s'
    | _ => w
    end
  end.
Fixpoint crowd_ticks {A B} (who : bool * nat) (k : nat) (w : crowd A B) : crowd A B :=
  match k with O => w | S k' => crowd_ticks who k' (crowd_tick who w) end.
Definition crowd_play {A B} (l : list ((bool * nat) * nat)) (w : crowd A B) : crowd A B :=
  fold_left (fun w x => crowd_ticks (fst x) (snd x) w) l w.

Lemma crowd_trans {A B} (w1 w2 w3 : crowd A B) : crowd_later w1 w2 -> crowd_later w2 w3 -> crowd_later w1 w3.
Proof. induction 1; intros K; [exact K|eapply crowd_writer; eauto|eapply crowd_reader; eauto]. Qed.
Lemma around {A} (l : list A) j x y : nth_error l j = Some x -> exists pre post, l = pre ++ x :: post /\ firstn j l ++ y :: skipn (S j) l = pre ++ y :: post.
Proof.
  intros E. destruct (nth_error_split l j E) as (l1 & l2 & -> & <-). exists l1, l2. split; [reflexivity|].
  rewrite firstn_app, Nat.sub_diag, firstn_all. cbn [firstn]. rewrite app_nil_r. f_equal. f_equal.
  rewrite skipn_app, skipn_all2 by lia. now replace (S (length l1) - length l1) with 1 by lia.
Qed.
Lemma crowd_later_tick {A B} who (w : crowd A B) : crowd_later w (crowd_tick who w).
Proof.
  destruct w as [ws rs s], who as [[|] j]; cbn [crowd_tick].
  - destruct (nth_error ws j) as [[[o|f] hs]|] eqn:E; [constructor| |constructor].
    destruct (f (with_handles s hs)) as [s' q'] eqn:Ef. destruct (around _ _ _ (q', f_handles s') E) as (pre & post & -> & ->).
    eapply crowd_writer; [exact Ef|constructor].
  - destruct (nth_error rs j) as [[[o|f] hs]|] eqn:E; [constructor| |constructor].
    destruct (f (with_handles s hs)) as [s' q'] eqn:Ef. destruct (around _ _ _ (q', f_handles s') E) as (pre & post & -> & ->).
    eapply crowd_reader; [exact Ef|constructor].
Qed.
Lemma crowd_later_play {A B} l : forall w : crowd A B, crowd_later w (crowd_play l w).
Proof.
  assert (K : forall who k (w : crowd A B), crowd_later w (crowd_ticks who k w)).
  { intros who k. induction k as [|k IH]; intros w; cbn [crowd_ticks]; [constructor|].
    eapply crowd_trans; [apply (crowd_later_tick who)|apply IH]. }
  unfold crowd_play. induction l as [|[who k] l IH]; intros w; cbn [fold_left fst snd]; [constructor|].
  eapply crowd_trans; [apply K|apply IH].
Qed.

Definition ex_readers : list (prog (dbapp * Z) * list handle) := readers toy_sha x00 no_behind (repeat (ex_app 100, ex_name, []) 3).
Definition ex_reads (w : crowd dbapp (dbapp * Z)) (j : nat) : outcome bytes :=
  match nth_error (c_readers w) j with
  | Some (Ret (Ok (b, id)), hs) => read_by_hash b (with_handles (c_shared w) hs) id (ex_h x04)
  | _ => Err
  end.
Definition ex_ended {A} (x : prog A * list handle) : option bool :=
  match fst x with Ret (Ok _) => Some true | Ret _ => Some false | Step _ => None end.

(** One opens before the commit, one reads the lists before and the data after it, one opens in between, when there
    is no file. The hypotheses on the session are met, see [C139_ex_hypotheses]. *)
Definition ex_crowd : crowd dbapp (dbapp * Z) :=
  crowd_play [((false, 0), 40); ((false, 1), 1); ((true, 0), ex_steps - 5); ((false, 2), 40); ((true, 0), 5); ((false, 1), 40)]
    (Crowd [(ex_commit, f_handles ex_s)] ex_readers ex_s).
Example C147_ex :
  crowd_later (Crowd [(ex_commit, f_handles ex_s)] ex_readers ex_s) ex_crowd /\
  map (ex_reads ex_crowd) [0; 1; 2] = [Ok [x1c]; Ok [x04]; Err] /\
  map ex_ended (c_writers ex_crowd) = [Some true].
Proof. split; [apply crowd_later_play|]. vm_compute. auto. Qed.

(** Three commits: the second one works, the first one is refused, the third one has not begun. *)
Definition ex_writers (r : fsys * dbapp * outcome Z) : list (prog dbapp * list handle) :=
  match r with
  | (s1, b1, Ok id1) => (ex_commit, f_handles ex_s) ::
      map (fun y => (p_commit toy_sha x00 (snd y) (writes b1 id1 (fst y)) s1 id1, f_handles s1))
        [([Content (ex_h x09) [x77] 3], 9%Z); ([Content (ex_h x0a) [x78] 3], 10%Z)]
  | _ => []
  end.
Definition ex_start : crowd dbapp (dbapp * Z) := Crowd (ex_writers (open_db toy_sha x00 no_behind ex_name (with_ctxs (ex_app 100) []) ex_s)) ex_readers ex_s.
Definition ex_middle : crowd dbapp (dbapp * Z) := crowd_play [((true, 1), 50); ((false, 0), 40); ((true, 0), 10); ((true, 1), 50)] ex_start.
Example C148_ex :
  crowd_later ex_start ex_middle /\
  length (c_writers ex_start) = 3 /\
  dir_get (f_dir (c_shared ex_middle)) ex_name = dir_get (f_dir ex_s) ex_name /\
  map ex_ended (c_writers ex_middle) = [Some false; None; None] /\
  map (ex_reads ex_middle) [0; 1; 2] = [Ok [x1c]; Err; Err] /\
  map ex_ended (c_writers (crowd_play [((true, 1), 4000)] ex_middle)) = [Some false; Some true; None].
Proof. split; [apply crowd_later_play|]. vm_compute. repeat split. Qed.
Example C148_ex_hypotheses :
  Forall (fun y => allowed toy_sha x00 100 (committed ex_ops, fst y) (OCommit (snd y)) /\ Forall ok_content (fst y))
    [([Content (ex_h x09) [x77] 3], 9%Z); ([Content (ex_h x0a) [x78] 3], 10%Z)].
Proof.
  constructor; [|constructor; [|constructor]]; cbn [fst snd];
    (split; [vm_compute committed; allowed|repeat constructor; discriminate]).
Qed.
