(** Property theorems about goroutines that share one application (C156 to C165). *)
From Coq Require Import List ZArith NArith Lia Bool.
From Coq Require Import Init.Byte Strings.Byte.
From Verif Require Import Base BaseLemmas HashModel HashProofs SpecHash HashTreeModel HashTreeProofs
  RefModel RefProofs SpecRef DbModel SpecDb DbRefProofs DbFsProofs DbCommitProofs DbOpenProofs DbApiProofs
  DbSession DbSessionProofs DbMoreProofs DbMultiProofs DbConcurrent DbThreads SpecThreads
  DbThreadProofs DbThreadProofs2 DbThreadProofs3 DbThreadProofs4 SpecPower DbPowerProofs DbThreadProofs5 PropHash PropDb PropDbMore.
Import ListNotations.

(** *** C156 *)
(** A call that has the memory for itself answers and leaves what the sequential model says. *)
Theorem C156_calls_that_do_not_overlap : forall H mv behind a s m, in_memory a s m ->
  (forall id B call o, reading a s id B call o -> g_run call m = (m, o)) /\
  (forall id B call o a' s', acting H mv behind a s id B call o a' s' ->
     exists m', g_run call m = (m', o) /\ in_memory a' s' m').
Proof.
  intros H mv behind a s m Im. split; [intros; eapply alone_reading; eauto|].
  intros id B call o a' s' Ac. destruct Ac as [h d k| |now s' a' o E|s' a' o E|n s' o Ei E].
  - exact (alone_write a s m Im id h d k).
  - exact (alone_cancel a s m Im id).
  - pose proof (alone_commit H mv a s m Im id now) as X. rewrite E in X. exact X.
  - pose proof (alone_close a s m Im id) as X. rewrite E in X. exact X.
  - pose proof (alone_open H mv behind a s m Im n) as X. rewrite E in X. exact X.
Qed.
Print Assumptions C156_calls_that_do_not_overlap.

(** Every application has a memory, and an application without contexts has the empty one. *)
Theorem C156_every_application_has_a_memory : forall a s, NoDup (map fst (a_ctxs a)) ->
  in_memory a s (memory_of a s) /\ (a_ctxs a = [] -> memory_of a s = Mem [] [] s).
Proof. intros a s N. split; [now apply memory_of_ok|]. intros E. unfold memory_of. now rewrite E. Qed.
Print Assumptions C156_every_application_has_a_memory.

(** The database of the examples and its memory. *)
Definition ex_a : dbapp := fst (fst ex_final).
Definition ex_s : fsys := snd (fst ex_final).
Definition ex_id : Z := snd ex_final.
Definition ex_m : mem := memory_of ex_a ex_s.

Lemma ex_there : session toy_sha x00 no_behind (ex_app 100) ex_name ex_fs ex_ops (ex_a, ex_s, ex_id).
Proof.
  pose proof ex_session as S. rewrite ex_at in S. exact S.
Qed.

Lemma ex_in_memory : in_memory ex_a ex_s ex_m.
Proof.
  apply memory_of_ok. assert (E : map fst (a_ctxs ex_a) = [0%Z]) by (vm_compute; reflexivity). rewrite E.
  constructor; [intros []|constructor].
Qed.

Example C156_ex : in_memory ex_a ex_s ex_m /\
  snd (g_run (g_read_by_hash ex_id (ex_h x04)) ex_m) = Ok [x1c] /\
  snd (g_run (g_write ex_id (ex_h x09) [x77] 7) ex_m) = Ok tt /\
  snd (g_run (g_open toy_sha x00 no_behind ex_a ex_name) ex_m) = Err /\
  snd (g_run (g_commit toy_sha x00 ex_a (rounds ex_a ex_s ex_id) 8 ex_id) ex_m) = Ok tt.
Proof. split; [exact ex_in_memory|]. vm_compute. auto. Qed.

(** *** C157 *)
(** One call on one database beside any number of goroutines that read other databases. *)
Theorem C157_readers_of_other_databases : forall H mv behind, sha_ok H ->
  forall a0 names s0 os a s, several H mv behind a0 names s0 os a s ->
  forall m, in_memory a s m ->
  forall id1, ctx_get (a_ctxs a) id1 = None \/ (exists n, In n names /\ id1 = position names n) ->
  forall B call o a' s', acting H mv behind a s id1 B call o a' s' ->
  forall ts es, readers a s (fun id => id <> id1 /\ exists n, In n names /\ id = position names n) ts es ->
  forall us m', together (thread_of call :: ts) m us m' ->
  exists call' ts', us = thread_of call' :: ts' /\
    (forall o', call' = GRet o' -> o' = o /\ in_memory a' s' m') /\
    Forall2 (fun t e => forall r, came_to t = Some r -> r = e) ts' es.
Proof. intros H mv behind HL a0 names s0 os a s Sv m Im id1 I1 B call o a' s' Ac ts es Rd us m' T. eapply elsewhere_readers; eauto. Qed.
Print Assumptions C157_readers_of_other_databases.

(** Two databases, open in one application; the memory has both. *)
Definition ex_names : list bytes := [[x61]; [x62]].
Definition ex_started : outcome (dbapp * fsys) := start_all toy_sha x00 no_behind (ex_app 100) ex_fs ex_names.
Definition ex_a1 : dbapp := match ex_started with Ok x => fst x | _ => ex_app 100 end.
Definition ex_s1 : fsys := match ex_started with Ok x => snd x | _ => ex_fs end.
Definition ex_both : outcome (dbapp * fsys) := exec_all toy_sha x00 no_behind (position ex_names) ex_a1 ex_s1 ex_two.
Definition ex_b : dbapp := match ex_both with Ok x => fst x | _ => ex_app 100 end.
Definition ex_t : fsys := match ex_both with Ok x => snd x | _ => ex_fs end.

Lemma ex_both_ran : exists a1 s1, start_all toy_sha x00 no_behind (ex_app 100) ex_fs ex_names = Ok (a1, s1) /\
  exec_all toy_sha x00 no_behind (position ex_names) a1 s1 ex_two = Ok (ex_b, ex_t).
Proof. exists ex_a1, ex_s1. split; vm_compute; reflexivity. Qed.

Example C157_ex : several toy_sha x00 no_behind (ex_app 100) ex_names ex_fs ex_two ex_b ex_t /\
  in_memory ex_b ex_t (memory_of ex_b ex_t) /\
  (exists n, In n ex_names /\ 0%Z = position ex_names n) /\
  (exists a' s', acting toy_sha x00 no_behind ex_b ex_t 0 unit (g_commit toy_sha x00 ex_b (rounds ex_b ex_t 0) 9 0) (Ok tt) a' s') /\
  readers ex_b ex_t (fun id => id <> 0%Z /\ exists n, In n ex_names /\ id = position ex_names n)
    [thread_of (g_read_by_hash 1 (ex_h x02)); thread_of (g_read_by_hash 1 (ex_h x03)); thread_of (g_read_by_hash 1 (ex_h x01))]
    [existT outcome bytes (Ok [x0b; x0c]); existT outcome bytes (Ok [x0d]); existT outcome bytes Err].
Proof.
  destruct C86_ex as (Sp & Al1 & Al2). split; [|split; [|split; [|split]]].
  - split; [exact (ex_good 100 eq_refl)|]. split; [exact ex_calm|]. split; [reflexivity|]. split; [exact Sp|].
    split; [intros n _; split; [split; discriminate|reflexivity]|].
    split; [unfold ex_two; repeat (apply Forall_cons; [split; [cbn [fst In ex_names]; auto|exact I]|]); apply Forall_nil|].
    split; [intros n [<-|[<-|[]]]; assumption|].
    exact ex_both_ran.
  - apply memory_of_ok. assert (E : map fst (a_ctxs ex_b) = [0%Z; 1%Z] \/ map fst (a_ctxs ex_b) = [1%Z; 0%Z]) by (vm_compute; auto).
    destruct E as [-> | ->]; repeat constructor; cbn; intuition discriminate.
  - exists [x61]. split; [now left|reflexivity].
  - destruct (commit_db toy_sha x00 9 ex_b ex_t 0) as [[s' a'] o] eqn:E. exists a', s'. constructor.
    assert (X : snd (commit_db toy_sha x00 9 ex_b ex_t 0) = Ok tt) by (vm_compute; reflexivity). rewrite E in X. cbn [snd] in X. rewrite <- X. exact E.
  - assert (O : 1%Z <> 0%Z /\ exists n, In n ex_names /\ 1%Z = position ex_names n).
    { split; [discriminate|]. exists [x62]. split; [right; now left|reflexivity]. }
    constructor; [|constructor; [|constructor; [|constructor]]]; exists 1%Z, bytes; eexists _, _; (split; [exact O|]); (split; [apply reading_hash|]);
      (split; [reflexivity|]); vm_compute; reflexivity.
Qed.

(** *** C158 *)
(** Goroutines that only read, any number of them. *)
Theorem C158_readers_do_not_disturb_each_other : forall a s m, in_memory a s m ->
  forall ts es, readers a s (fun _ => True) ts es ->
  forall us m', together ts m us m' ->
  m' = m /\ Forall2 (fun t e => forall r, came_to t = Some r -> r = e) us es.
Proof.
  intros a s m Im ts es Rd us m' T. destruct (only_readers (eq m) m ts es us m' eq_refl (readers_ties _ _ _ _ _ _ Im Rd) T) as (-> & F).
  split; [reflexivity|]. eapply Forall2_impl'; [|exact F]. cbv beta. intros t e Ti r Cr. eapply ties_end; eauto.
Qed.
Print Assumptions C158_readers_do_not_disturb_each_other.

Example C158_ex : in_memory ex_a ex_s ex_m /\
  readers ex_a ex_s (fun _ => True) [thread_of (g_read_by_hash ex_id (ex_h x04)); thread_of (g_read_by_hash ex_id (ex_h x01))]
    [existT outcome bytes (Ok [x1c]); existT outcome bytes (Ok [x1a; x1b])].
Proof.
  split; [exact ex_in_memory|]. constructor; [|constructor; [|constructor]]; exists ex_id, bytes; eexists _, _; (split; [exact I|]);
    (split; [apply reading_hash|]); (split; [reflexivity|]); vm_compute; reflexivity.
Qed.

(** *** C159 *)
(** What ReadByHash may answer while a Commit on the same database goes on. [old] and [new] are the histories. *)
Definition answer_during_commit (H : bytes -> bytes) (mv : byte) (old new : list batch) (h : bytes) (before after o : outcome bytes) : Prop :=
  o = before \/ o = after \/ o = Err \/
  exists cs ct cs', history_contents new = cs ++ ct :: cs' /\ ct_hash ct = h /\
    o = Ok (sub (history_file H mv new) (zlen (header (history_ref H mv old)) + zlen (batch_data cs)) (zlen (ct_data ct))).

Theorem C159_readers_during_a_commit : forall H mv behind, sha_ok H ->
  forall a0 n s0 os now a s id, session H mv behind a0 n s0 os (a, s, id) ->
  allowed H mv (a_chunk a0) (committed os, pending os) (OCommit now) ->
  forall m, in_memory a s m ->
  exists s' a', commit_db H mv now a s id = (s', a', Ok tt) /\
  forall hs us m', together (thread_of (g_commit H mv a (rounds a s id) now id) :: map (fun h => thread_of (g_read_by_hash id h)) hs) m us m' ->
  exists call ts, us = thread_of call :: ts /\
    (forall o, call = GRet o -> o = Ok tt /\ in_memory a' s' m') /\
    Forall2 (fun h t => forall r, came_to t = Some r -> exists o, r = existT outcome bytes o /\
      answer_during_commit H mv (committed os) (committed os ++ [(pending os, now)]) h (read_by_hash a s id h) (read_by_hash a' s' id h) o) hs ts.
Proof.
  intros H mv behind HL a0 n s0 os now a s id S (Np & T & Ft & Ck) m Im. cbn [fst snd] in Np, T, Ft, Ck.
  destruct (session_synced H mv behind HL _ _ _ _ _ _ _ S) as (Sy & F & Ch & Ed & Eb). rewrite <- Ch in Ck.
  assert (W : ok_batch (pending os, now)) by (split; auto).
  destruct (commit_ok H mv HL a s n id _ _ now Sy W Ft Ck) as (s' & a' & E & _). exists s', a'. split; [exact E|].
  intros hs us m' Tg.
  set (Qs := map (fun h (r : {B : Type & outcome B}) => exists o, r = existT outcome bytes o /\
    answer_during_commit H mv (committed os) (committed os ++ [(pending os, now)]) h (read_by_hash a s id h) (read_by_hash a' s' id h) o) hs).
  destruct (watched unit _ _ _ _ Tg _ _ Qs eq_refl) as (call & ts & -> & R & F2).
  - clear Tg. unfold Qs. clear Qs. induction hs as [|h hs IH]; constructor; [|exact IH].
    exists bytes, (g_read_by_hash id h). split; [reflexivity|]. split; [apply reads_by_hash|]. intros o So. exists o. split; [reflexivity|].
    destruct (read_during_commit H mv HL a s m n id _ _ now Sy W Ft Ck Im h o So) as (s2 & a2 & E2 & X).
    rewrite E in E2. assert (s2 = s') by congruence. assert (a2 = a') by congruence. subst s2 a2. exact X.
  - exists call, ts. split; [reflexivity|]. split.
    + intros o ->. cbn [g_run] in R. pose proof (alone_commit H mv a s m Im id now) as X. rewrite E in X.
      destruct X as (m2 & X & I2). rewrite X in R. assert (o = Ok tt) by congruence. assert (m' = m2) by congruence. subst. auto.
    + unfold Qs in F2. clear - F2. revert ts F2. induction hs as [|h hs IH]; intros ts F2; inversion F2 as [|t ? ts' ? Fo F3]; subst; constructor; auto.
      intros r Cr. exact (follows_end _ _ _ _ Fo Cr).
Qed.
Print Assumptions C159_readers_during_a_commit.

(** ReadAllByHashes fails or answers for each hash what ReadByHash may answer. *)
Theorem C159_readers_of_several_during_a_commit : forall H mv behind, sha_ok H ->
  forall a0 n s0 os now a s id, session H mv behind a0 n s0 os (a, s, id) ->
  allowed H mv (a_chunk a0) (committed os, pending os) (OCommit now) ->
  forall m, in_memory a s m ->
  exists s' a', commit_db H mv now a s id = (s', a', Ok tt) /\
  forall hss us m', together (thread_of (g_commit H mv a (rounds a s id) now id) :: map (fun hs => thread_of (g_read_all_by_hashes id hs)) hss) m us m' ->
  exists call ts, us = thread_of call :: ts /\
    (forall o, call = GRet o -> o = Ok tt /\ in_memory a' s' m') /\
    Forall2 (fun hs t => forall r, came_to t = Some r -> exists o, r = existT outcome (list bytes) o /\
      (o = Err \/ exists bs, o = Ok bs /\ Forall2 (fun h b =>
        answer_during_commit H mv (committed os) (committed os ++ [(pending os, now)]) h (read_by_hash a s id h) (read_by_hash a' s' id h) (Ok b)) hs bs)) hss ts.
Proof.
  intros H mv behind HL a0 n s0 os now a s id S (Np & T & Ft & Ck) m Im. cbn [fst snd] in Np, T, Ft, Ck.
  destruct (session_synced H mv behind HL _ _ _ _ _ _ _ S) as (Sy & F & Ch & Ed & Eb). rewrite <- Ch in Ck.
  assert (W : ok_batch (pending os, now)) by (split; auto).
  destruct (commit_ok H mv HL a s n id _ _ now Sy W Ft Ck) as (s' & a' & E & _). exists s', a'. split; [exact E|].
  intros hss us m' Tg.
  set (P := fun h o => answer_during_commit H mv (committed os) (committed os ++ [(pending os, now)]) h (read_by_hash a s id h) (read_by_hash a' s' id h) o).
  set (Qs := map (fun hs (r : {B : Type & outcome B}) => exists o, r = existT outcome (list bytes) o /\
    (o = Err \/ exists bs, o = Ok bs /\ Forall2 (fun h b => P h (Ok b)) hs bs)) hss).
  destruct (watched unit _ _ _ _ Tg _ _ Qs eq_refl) as (call & ts & -> & R & F2).
  - clear Tg. unfold Qs. clear Qs. induction hss as [|hs hss IH]; constructor; [|exact IH].
    exists (list bytes), (g_read_all_by_hashes id hs). split; [reflexivity|]. split; [apply reads_hashes|]. intros o So. exists o. split; [reflexivity|].
    refine (all_during_commit H mv a s m id now P hs o _ _ So).
    + intros h v Sv. destruct (read_during_commit H mv HL a s m n id _ _ now Sy W Ft Ck Im h v Sv) as (s2 & a2 & E2 & X).
      rewrite E in E2. assert (s2 = s') by congruence. assert (a2 = a') by congruence. subst s2 a2. exact X.
    + intros h v X. destruct (hash_answers_during H mv HL a s m n id _ _ now Sy W Ft Ck Im h) as (s2 & a2 & E2 & A1 & A2).
      rewrite E in E2. assert (s2 = s') by congruence. assert (a2 = a') by congruence. subst s2 a2.
      destruct X as [->|[->|[->|(? & ? & ? & _ & _ & ->)]]]; eauto.
  - exists call, ts. split; [reflexivity|]. split.
    + intros o ->. cbn [g_run] in R. pose proof (alone_commit H mv a s m Im id now) as X. rewrite E in X.
      destruct X as (m2 & X & I2). rewrite X in R. assert (o = Ok tt) by congruence. assert (m' = m2) by congruence. subst. auto.
    + unfold Qs in F2. clear - F2. revert ts F2. induction hss as [|h hs IH]; intros ts F2; inversion F2 as [|t ? ts' ? Fo F3]; subst; constructor; auto.
      intros r Cr. exact (follows_end _ _ _ _ Fo Cr).
Qed.
Print Assumptions C159_readers_of_several_during_a_commit.

(** The keys and the commits are those from before or those from after. *)
Theorem C159_keys_and_commits_during_a_commit : forall H mv behind, sha_ok H ->
  forall a0 n s0 os now a s id, session H mv behind a0 n s0 os (a, s, id) ->
  allowed H mv (a_chunk a0) (committed os, pending os) (OCommit now) ->
  forall m, in_memory a s m ->
  exists s' a', commit_db H mv now a s id = (s', a', Ok tt) /\
  forall k h us m', together [thread_of (g_commit H mv a (rounds a s id) now id); thread_of (g_keys_by_kind id k); thread_of (g_commits id);
    thread_of (g_commit_by_hash id h)] m us m' ->
  exists call t1 t2 t3, us = [thread_of call; t1; t2; t3] /\
    (forall o, call = GRet o -> o = Ok tt /\ in_memory a' s' m') /\
    (forall r, came_to t1 = Some r -> exists o, r = existT outcome (list content_key) o /\ (o = content_keys_by_kind a id k \/ o = content_keys_by_kind a' id k)) /\
    (forall r, came_to t2 = Some r -> exists o, r = existT outcome (list commit) o /\ (o = commits_db a id \/ o = commits_db a' id)) /\
    (forall r, came_to t3 = Some r -> exists o, r = existT outcome commit o /\ (o = commit_by_hash a id h \/ o = commit_by_hash a' id h)).
Proof.
  intros H mv behind HL a0 n s0 os now a s id S (Np & T & Ft & Ck) m Im. cbn [fst snd] in Np, T, Ft, Ck.
  destruct (session_synced H mv behind HL _ _ _ _ _ _ _ S) as (Sy & F & Ch & Ed & Eb). rewrite <- Ch in Ck.
  assert (W : ok_batch (pending os, now)) by (split; auto).
  destruct (named_during_commit H mv HL a s m n id _ _ now Sy W Ft Ck Im) as (s' & a' & E & Lk & Lc & Lh). exists s', a'. split; [exact E|].
  intros k h us m' Tg.
  destruct (watched unit _ _ _ _ Tg _ _ [fun r => exists o, r = existT outcome (list content_key) o /\ (o = content_keys_by_kind a id k \/ o = content_keys_by_kind a' id k);
    fun r => exists o, r = existT outcome (list commit) o /\ (o = commits_db a id \/ o = commits_db a' id);
    fun r => exists o, r = existT outcome commit o /\ (o = commit_by_hash a id h \/ o = commit_by_hash a' id h)] eq_refl) as (call & ts & -> & R & F2).
  - constructor; [|constructor; [|constructor; [|constructor]]].
    + exists (list content_key), (g_keys_by_kind id k). split; [reflexivity|]. split; [apply reads_kind|]. intros o So. exists o. auto.
    + exists (list commit), (g_commits id). split; [reflexivity|]. split; [apply reads_commits|]. intros o So. exists o. auto.
    + exists commit, (g_commit_by_hash id h). split; [reflexivity|]. split; [apply reads_commit|]. intros o So. exists o. auto.
  - inversion F2 as [|t1 ? ts1 ? Fo1 F3]; subst. inversion F3 as [|t2 ? ts2 ? Fo2 F4]; subst. inversion F4 as [|t3 ? ts3 ? Fo3 F5]; subst. inversion F5; subst.
    exists call, t1, t2, t3. split; [reflexivity|].
    split; [|split; [|split]; intros r Cr; [exact (follows_end _ _ _ _ Fo1 Cr)|exact (follows_end _ _ _ _ Fo2 Cr)|exact (follows_end _ _ _ _ Fo3 Cr)]].
    intros o ->. cbn [g_run] in R. pose proof (alone_commit H mv a s m Im id now) as X. rewrite E in X.
    destruct X as (m2 & X & I2). rewrite X in R. assert (o = Ok tt) by congruence. assert (m' = m2) by congruence. subst. auto.
Qed.
Print Assumptions C159_keys_and_commits_during_a_commit.

(** For every content that was committed there is a schedule in which ReadByHash takes the new file and the old
    place of the contents, and answers other bytes of the file without an error. *)
Theorem C159_a_reader_during_a_commit_gets_a_content_refuted : forall H mv behind, sha_ok H ->
  forall a0 n s0 os now a s id, session H mv behind a0 n s0 os (a, s, id) ->
  allowed H mv (a_chunk a0) (committed os, pending os) (OCommit now) ->
  forall m, in_memory a s m ->
  forall cs ct cs', history_contents (committed os) = cs ++ ct :: cs' -> Forall (fun x => ct_hash x <> ct_hash ct) cs' ->
  read_by_hash a s id (ct_hash ct) = Ok (ct_data ct) /\
  exists m', goes (Team (g_commit H mv a (rounds a s id) now id) (g_read_by_hash id (ct_hash ct)) m)
    (Team (GRet (Ok tt)) (GRet (Ok (sub (history_file H mv (committed os ++ [(pending os, now)]))
       (zlen (header (history_ref H mv (committed os))) + zlen (batch_data cs)) (zlen (ct_data ct))))) m').
Proof.
  intros H mv behind HL a0 n s0 os now a s id S (Np & T & Ft & Ck) m Im cs ct cs' Ec Fa. cbn [fst snd] in Np, T, Ft, Ck.
  destruct (session_synced H mv behind HL _ _ _ _ _ _ _ S) as (Sy & F & Ch & Ed & Eb). rewrite <- Ch in Ck.
  assert (W : ok_batch (pending os, now)) by (split; auto). split.
  - eapply (read_hash_found H mv); eauto. exists cs, cs'. auto.
  - destruct (read_during_commit_strays H mv HL a s m n id _ _ now Sy W Ft Ck Im cs ct cs' Ec Fa) as ([p q m'] & Go & E1 & E2).
    cbn [t_one t_two] in E1, E2. subst. eauto.
Qed.
Print Assumptions C159_a_reader_during_a_commit_gets_a_content_refuted.

(** The fourth commit of the example. ReadByHash of the last content, one byte, answers another byte. *)
Example C159_ex : allowed toy_sha x00 100 (committed ex_ops, pending ex_ops) (OCommit 8) /\
  session toy_sha x00 no_behind (ex_app 100) ex_name ex_fs ex_ops (ex_a, ex_s, ex_id) /\ in_memory ex_a ex_s ex_m /\
  exists cs ct, history_contents (committed ex_ops) = cs ++ ct :: [] /\ ct_data ct = [x1c] /\
    sub (history_file toy_sha x00 (committed ex_ops ++ [(pending ex_ops, 8%Z)]))
      (zlen (header (history_ref toy_sha x00 (committed ex_ops))) + zlen (batch_data cs)) (zlen (ct_data ct)) = [x04].
Proof.
  split; [exact C36_ex|]. split; [exact ex_there|]. split; [exact ex_in_memory|].
  exists (removelast (history_contents (committed ex_ops))), (last (history_contents (committed ex_ops)) (Content [] [] 0)).
  vm_compute. auto.
Qed.

(** *** C160 *)
(** Two goroutines that open two databases can get one identifier for both. The second database is then in no context. *)
Theorem C160_two_opens_get_two_identifiers_refuted : forall H mv behind a s m, in_memory a s m ->
  forall n1 n2 s1 a1 i1 s2 a2 i2, n1 <> n2 ->
  run (p_open H mv behind a n1) s = (s1, Ok (a1, i1)) -> run (p_open H mv behind a n2) s1 = (s2, Ok (a2, i2)) ->
  exists i m' a', goes (Team (g_open H mv behind a n1) (g_open H mv behind a n2) m) (Team (GRet (Ok i)) (GRet (Ok i)) m') /\
    in_memory a' s2 m' /\ (exists c, ctx_get (a_ctxs a') i = Some c /\ x_name c = n1) /\
    forall k c, ctx_get (a_ctxs a') k = Some c -> x_name c <> n2.
Proof.
  intros H mv behind a s m Im n1 n2 s1 a1 i1 s2 a2 i2 N O1 O2.
  destruct (two_opens H mv behind a s m Im n1 n2 s1 a1 i1 s2 a2 i2 O1 O2) as (<- & m' & a' & c1 & G & I' & E1 & N1 & Ge & Nx).
  exists i1, m', a'. split; [exact G|]. split; [exact I'|]. split; [exists c1; rewrite Ge, Z.eqb_refl; auto|].
  intros k c E X. apply N. eapply Nx; eauto.
Qed.
Print Assumptions C160_two_opens_get_two_identifiers_refuted.

(** Two databases that no one has opened yet. *)
Definition ex_new : fsys := fst (new_db [x62] (fst (new_db [x61] ex_fs))).
Definition ex_open (n : bytes) (s : fsys) : fsys * outcome (dbapp * Z) := run (p_open toy_sha x00 no_behind (ex_app 100) n) s.
Definition ex_got (o : outcome (dbapp * Z)) : dbapp := match o with Ok x => fst x | _ => ex_app 100 end.
Example C160_ex : in_memory (ex_app 100) ex_new (Mem [] [] ex_new) /\
  exists s1 a1 s2 a2, run (p_open toy_sha x00 no_behind (ex_app 100) [x61]) ex_new = (s1, Ok (a1, 0%Z)) /\
    run (p_open toy_sha x00 no_behind (ex_app 100) [x62]) s1 = (s2, Ok (a2, 0%Z)).
Proof.
  split; [exact (memory_of_ok (ex_app 100) ex_new (NoDup_nil _))|]. 
  exists (fst (ex_open [x61] ex_new)), (ex_got (snd (ex_open [x61] ex_new))),
    (fst (ex_open [x62] (fst (ex_open [x61] ex_new)))), (ex_got (snd (ex_open [x62] (fst (ex_open [x61] ex_new))))).
  split; vm_compute; reflexivity.
Qed.

(** *** C161 *)
(** Two goroutines that write to one database: both succeed and only the first content is pending. *)
Theorem C161_both_writes_are_kept_refuted : forall a s m, in_memory a s m ->
  forall id h1 d1 k1 h2 d2 k2,
  snd (write_db a id h1 d1 k1) = Ok tt -> snd (write_db a id h2 d2 k2) = Ok tt ->
  exists m', goes (Team (g_write id h1 d1 k1) (g_write id h2 d2 k2) m) (Team (GRet (Ok tt)) (GRet (Ok tt)) m') /\
    in_memory (fst (write_db a id h1 d1 k1)) s m'.
Proof. intros. now apply two_writes. Qed.
Print Assumptions C161_both_writes_are_kept_refuted.

Example C161_ex : in_memory ex_a ex_s ex_m /\
  snd (write_db ex_a ex_id (ex_h x05) [x2a] 7) = Ok tt /\ snd (write_db ex_a ex_id (ex_h x06) [x2b] 7) = Ok tt /\
  option_map (fun c => map ct_data (x_pending c)) (ctx_get (a_ctxs (fst (write_db ex_a ex_id (ex_h x05) [x2a] 7))) ex_id) = Some [[x1c]; [x2a]].
Proof. split; [exact ex_in_memory|]. vm_compute. auto. Qed.

(** *** C162 *)
(** A Write during a Commit: both succeed, and the file has the bytes of a content that no key leads to. *)
Theorem C162_a_write_during_a_commit_waits_refuted : forall H mv behind, sha_ok H ->
  forall a0 n s0 os now a s id, session H mv behind a0 n s0 os (a, s, id) ->
  allowed H mv (a_chunk a0) (committed os, pending os) (OCommit now) ->
  forall m, in_memory a s m ->
  forall ct, ok_content ct ->
  let new := committed os ++ [(pending os, now)] in
  exists m' a' s', goes (Team (g_commit H mv a (rounds a s id) now id) (g_write id (ct_hash ct) (ct_data ct) (ct_kind ct)) m)
      (Team (GRet (Ok tt)) (GRet (Ok tt)) m') /\
    in_memory a' s' m' /\ file_at s' n = Some (history_file H mv new ++ ct_data ct) /\
    commits_db a' id = Ok (chain H mv None new) /\ content_keys a' id = Ok (history_keys H mv None 0 new) /\
    (** At the next Commit the keys of the contents that follow lead to other bytes. *)
    forall now2, (- two63 <= now2 < two63)%Z ->
      (zlen (history_file H mv (new ++ [(pending os ++ [ct], now2)])) + zlen (ct_data ct) < two63)%Z ->
      chunk_ok (a_chunk a0) (history_data new ++ ct_data ct) ->
      exists s'' a'', commit_db H mv now2 a' s' id = (s'', a'', Ok tt) /\
        read_by_hash a'' s'' id (ct_hash ct) =
        Ok (firstn (length (ct_data ct)) (skipn (length (batch_data (pending os))) (ct_data ct ++ batch_data (pending os) ++ ct_data ct))).
Proof.
  intros H mv behind HL a0 n s0 os now a s id S (Np & T & Ft & Ck) m Im ct Wc. cbn [fst snd] in Np, T, Ft, Ck. cbv zeta.
  destruct (session_synced H mv behind HL _ _ _ _ _ _ _ S) as (Sy & F & Ch & Ed & Eb). rewrite <- Ch in Ck.
  assert (W : ok_batch (pending os, now)) by (split; auto).
  destruct (write_between H mv HL a s m n id _ _ now ct Sy W Ft Ck Im Wc) as (m' & a' & s' & i & h & G & I' & K1 & K2 & K3 & Ec & Eh & En & Dd & N1 & N2 & Fo & Ff & Fl).
  assert (R : history_ref H mv (committed os ++ [(pending os, now)]) =
    Some (Reference (history_keys H mv None 0 (committed os ++ [(pending os, now)])) (chain H mv None (committed os ++ [(pending os, now)])))).
  { destruct (committed os); reflexivity. }
  exists m', a', s'. split; [exact G|]. split; [exact I'|]. split; [rewrite (file_at_ino _ _ i En); now f_equal|].
  split; [unfold commits_db; rewrite Ec; cbn [x_ref]; now rewrite R|]. split; [unfold content_keys; rewrite Ec; cbn [x_ref]; now rewrite R|].
  intros now2 Wn Fz Ck2. rewrite <- Ch in Ck2.
  exact (after_between H mv HL a s n id _ _ now ct Sy W Ft Ck Wc a' s' i h now2 K1 K2 K3 Ec Eh En Dd N1 N2 Fo Ff Fl Wn Fz Ck2).
Qed.
Print Assumptions C162_a_write_during_a_commit_waits_refuted.

(** The fourth commit of the example, and a write of three bytes. The next Commit succeeds and ReadByHash
    answers other bytes. *)
Example C162_ex : allowed toy_sha x00 100 (committed ex_ops, pending ex_ops) (OCommit 8) /\
  session toy_sha x00 no_behind (ex_app 100) ex_name ex_fs ex_ops (ex_a, ex_s, ex_id) /\ in_memory ex_a ex_s ex_m /\
  let ct := Content (ex_h x09) [x2a; x2b; x2c] 7 in let new := committed ex_ops ++ [(pending ex_ops, 8%Z)] in
  ok_content ct /\ (zlen (history_file toy_sha x00 (new ++ [(pending ex_ops ++ [ct], 9%Z)])) + zlen (ct_data ct) < two63)%Z /\
  chunk_ok 100 (history_data new ++ ct_data ct) /\
  firstn (length (ct_data ct)) (skipn (length (batch_data (pending ex_ops))) (ct_data ct ++ batch_data (pending ex_ops) ++ ct_data ct)) = [x2b; x2c; x1c].
Proof.
  split; [exact C36_ex|]. split; [exact ex_there|]. split; [exact ex_in_memory|]. cbv zeta.
  split; [split; [reflexivity|split; [discriminate|split; vm_compute; [discriminate|reflexivity]]]|].
  split; [vm_compute; reflexivity|]. split; [split; [vm_compute; reflexivity|left; vm_compute; discriminate]|]. vm_compute. reflexivity.
Qed.

(** *** C163 *)
(** Goroutines that read, on any contexts, also on the one that is written to. *)
Theorem C163_readers_beside_a_write : forall a s m, in_memory a s m ->
  forall id h d k ts es, readers a s (fun _ => True) ts es ->
  forall us m', together (thread_of (g_write id h d k) :: ts) m us m' ->
  exists call ts', us = thread_of call :: ts' /\
    (forall o, call = GRet o -> o = snd (write_db a id h d k) /\ in_memory (fst (write_db a id h d k)) s m') /\
    Forall2 (fun t e => forall r, came_to t = Some r -> r = e) ts' es.
Proof.
  intros a s m Im id h d k ts es Rd us m' T.
  destruct (readers_beside (g_write id h d k) a s m (fun _ => True) (fun r e => r = e)) with (3 := T) (2 := Rd) as (call & ts' & -> & R & F).
  { intros j B q o o' _ Rj S. f_equal. exact (alike_reading a s m Im j B q o _ o' Rj (alike_write a s m Im id h d k) S). }
  exists call, ts'. split; [reflexivity|]. split; [|exact F]. intros o ->. cbn [g_run] in R.
  destruct (alone_write a s m Im id h d k) as (m2 & E & I2). rewrite E in R.
  assert (o = snd (write_db a id h d k)) by congruence. assert (m' = m2) by congruence. subst. auto.
Qed.
Print Assumptions C163_readers_beside_a_write.

Theorem C163_readers_beside_a_cancel : forall a s m, in_memory a s m ->
  forall id ts es, readers a s (fun _ => True) ts es ->
  forall us m', together (thread_of (g_cancel id) :: ts) m us m' ->
  exists call ts', us = thread_of call :: ts' /\
    (forall o, call = GRet o -> o = snd (cancel_db a id) /\ in_memory (fst (cancel_db a id)) s m') /\
    Forall2 (fun t e => forall r, came_to t = Some r -> r = e) ts' es.
Proof.
  intros a s m Im id ts es Rd us m' T.
  destruct (readers_beside (g_cancel id) a s m (fun _ => True) (fun r e => r = e)) with (3 := T) (2 := Rd) as (call & ts' & -> & R & F).
  { intros j B q o o' _ Rj S. f_equal. exact (alike_reading a s m Im j B q o _ o' Rj (alike_cancel a s m Im id) S). }
  exists call, ts'. split; [reflexivity|]. split; [|exact F]. intros o ->. cbn [g_run] in R.
  destruct (alone_cancel a s m Im id) as (m2 & E & I2). rewrite E in R.
  assert (o = snd (cancel_db a id)) by congruence. assert (m' = m2) by congruence. subst. auto.
Qed.
Print Assumptions C163_readers_beside_a_cancel.

(** Readers of a database that is closed meanwhile: the answer they would get before, or an error. *)
Theorem C163_readers_beside_a_close : forall a s m, in_memory a s m ->
  forall id s' a' o, close_db a s id = (s', a', o) ->
  forall ts es, readers a s (eq id) ts es ->
  forall us m', together (thread_of (g_close id) :: ts) m us m' ->
  exists call ts', us = thread_of call :: ts' /\
    (forall o', call = GRet o' -> o' = o /\ in_memory a' s' m') /\
    Forall2 (fun t e => forall r, came_to t = Some r -> r = e \/ r = existT outcome (projT1 e) Err) ts' es.
Proof.
  intros a s m Im id s' a' o C ts es Rd us m' T.
  destruct (readers_beside (g_close id) a s m (eq id) (fun r e => r = e \/ r = existT outcome (projT1 e) Err)) with (3 := T) (2 := Rd) as (call & ts' & -> & R & F).
  { intros j B q o0 o' <- Rj S. cbn [projT1]. destruct (closing_reading a s m Im id B q o0 o' Rj S) as [->| ->]; auto. }
  exists call, ts'. split; [reflexivity|]. split; [|exact F]. intros o' ->. cbn [g_run] in R.
  pose proof (alone_close a s m Im id) as X. rewrite C in X. destruct X as (m2 & E & I2). rewrite E in R.
  assert (o' = o) by congruence. assert (m' = m2) by congruence. subst. auto.
Qed.
Print Assumptions C163_readers_beside_a_close.

Example C163_ex : in_memory ex_a ex_s ex_m /\ snd (close_db ex_a ex_s ex_id) = Ok tt /\
  readers ex_a ex_s (eq ex_id) [thread_of (g_read_by_hash ex_id (ex_h x04)); thread_of (g_read_all_by_hashes ex_id [ex_h x01; ex_h x04])]
    [existT outcome bytes (Ok [x1c]); existT outcome (list bytes) (Ok [[x1a; x1b]; [x1c]])].
Proof.
  split; [exact ex_in_memory|]. split; [vm_compute; reflexivity|]. constructor; [|constructor; [|constructor]].
  - exists ex_id, bytes. eexists _, _. split; [reflexivity|]. split; [apply reading_hash|]. split; [reflexivity|]. vm_compute. reflexivity.
  - exists ex_id, (list bytes). eexists _, _. split; [reflexivity|]. split; [apply reading_hashes|]. split; [reflexivity|]. vm_compute. reflexivity.
Qed.

(** *** C164 *)
(** Two Commits on one context: both succeed, and one of the two commits is there. *)
Theorem C164_both_commits_are_there_refuted : forall H mv behind, sha_ok H ->
  forall a0 n s0 os now1 now2 a s id, session H mv behind a0 n s0 os (a, s, id) ->
  allowed H mv (a_chunk a0) (committed os, pending os) (OCommit now1) ->
  allowed H mv (a_chunk a0) (committed os, pending os) (OCommit now2) ->
  chunk_ok (a_chunk a0) (history_data (committed os) ++ batch_data (pending os)) ->
  forall m, in_memory a s m ->
  let new := committed os ++ [(pending os, now1)] in
  exists s2 a2, commit_db H mv now2 a s id = (s2, a2, Ok tt) /\
    commits_db a2 id = Ok (chain H mv None (committed os ++ [(pending os, now2)])) /\
    forall fuel, rounds a2 s2 id <= fuel ->
    exists m' a' s', goes (Team (g_commit H mv a fuel now1 id) (g_commit H mv a (rounds a s id) now2 id) m)
        (Team (GRet (Ok tt)) (GRet (Ok tt)) m') /\
      in_memory a' s' m' /\ commits_db a' id = Ok (chain H mv None new) /\ content_keys a' id = Ok (history_keys H mv None 0 new) /\
      file_at s' n = Some (history_file H mv new ++ batch_data (pending os)).
Proof.
  intros H mv behind HL a0 n s0 os now1 now2 a s id S (Np & T1 & Ft1 & Ck) (_ & T2 & Ft2 & _) Ck2 m Im. cbn [fst snd] in Np, T1, T2, Ft1, Ft2, Ck. cbv zeta.
  destruct (session_synced H mv behind HL _ _ _ _ _ _ _ S) as (Sy & F & Ch & Ed & Eb). rewrite <- Ch in Ck, Ck2.
  assert (W1 : ok_batch (pending os, now1)) by (split; auto). assert (W2 : ok_batch (pending os, now2)) by (split; auto).
  destruct (commit_ok H mv HL a s n id _ _ now2 Sy W2 Ft2 Ck) as (s2 & a2 & E & Sy2 & Ea & _). exists s2, a2. split; [exact E|].
  assert (R : forall now, history_ref H mv (committed os ++ [(pending os, now)]) =
    Some (Reference (history_keys H mv None 0 (committed os ++ [(pending os, now)])) (chain H mv None (committed os ++ [(pending os, now)])))).
  { intros now. destruct (committed os); reflexivity. }
  split. { destruct Sy2 as (i & h & _ & Ec & _). unfold commits_db. rewrite Ec. cbn [x_ref]. now rewrite R. }
  intros fuel Lf.
  pose proof (alone_commit H mv a s m Im id now2) as X. rewrite E in X. destruct X as (m2 & Rc & I2).
  destruct (interrupted H mv HL _ a s m n id _ _ now1 fuel _ _ Sy W1 Ft1 Im Rc) as (r & Hr & G1).
  assert (Hd : forall now, history_data (committed os ++ [(pending os, now)]) = history_data (committed os) ++ batch_data (pending os)).
  { intros now. rewrite history_data_app. f_equal. unfold history_data. cbn [map concat fst]. now rewrite app_nil_r. }
  assert (K : a_chunk a2 = a_chunk a /\ a_dst a2 = a_dst a /\ a_bck a2 = a_bck a) by (rewrite Ea; auto). destruct K as (K1 & K2 & K3).
  assert (Lf' : length (history_file H mv (committed os ++ [(pending os, now2)])) < fuel).
  { destruct Sy2 as (i2 & h2 & (_ & _ & _ & _ & _ & _ & _ & _ & A9 & _) & Ec2 & Eh2). revert Lf. unfold rounds. rewrite Ec2.
    unfold conn_size. cbn [x_conn]. rewrite Eh2. cbn [h_ino]. rewrite A9. lia. }
  rewrite <- (Hd now2) in Ck2.
  destruct (finish_commit H mv (GRet (Ok tt) : gprog unit) a a2 s2 m2 n id _ _ r fuel K1 K2 K3 Sy2 I2 Ck2 Lf') as
    (m' & a' & s' & i & h & G2 & I' & _ & _ & _ & Ec & Eh & En & Dd & _).
  exists m', a', s'. split; [eapply goes_trans; [exact G1|exact G2]|]. split; [exact I'|]. rewrite <- Hr, R in Ec.
  split; [unfold commits_db; rewrite Ec; reflexivity|]. split; [unfold content_keys; rewrite Ec; reflexivity|].
  rewrite (file_at_ino _ _ i En). f_equal. rewrite Dd, !Hd. unfold history_file. rewrite Hr, Hd, <- !app_assoc. reflexivity.
Qed.
Print Assumptions C164_both_commits_are_there_refuted.

(** The fourth commit of the example, made by two goroutines at different times. *)
Example C164_ex : allowed toy_sha x00 100 (committed ex_ops, pending ex_ops) (OCommit 8) /\
  allowed toy_sha x00 100 (committed ex_ops, pending ex_ops) (OCommit 9) /\
  chunk_ok 100 (history_data (committed ex_ops) ++ batch_data (pending ex_ops)) /\
  session toy_sha x00 no_behind (ex_app 100) ex_name ex_fs ex_ops (ex_a, ex_s, ex_id) /\ in_memory ex_a ex_s ex_m /\
  length (chain toy_sha x00 None (committed ex_ops ++ [(pending ex_ops, 8%Z)])) = S (length (committed ex_ops)).
Proof.
  split; [exact C36_ex|]. split; [|split; [split; [vm_compute; reflexivity|left; vm_compute; discriminate]|split; [exact ex_there|split; [exact ex_in_memory|vm_compute; reflexivity]]]].
  destruct C36_ex as (A & B & C & D). split; [exact A|]. split; [vm_compute; split; [discriminate|reflexivity]|]. split; [vm_compute; reflexivity|exact D].
Qed.

(** *** C165 *)
(** A Cancel during a Commit: both succeed, the commit and its keys are there, and its contents are not. *)
Theorem C165_a_cancel_during_a_commit_waits_refuted : forall H mv behind, sha_ok H ->
  forall a0 n s0 os now a s id, session H mv behind a0 n s0 os (a, s, id) ->
  allowed H mv (a_chunk a0) (committed os, pending os) (OCommit now) ->
  forall m, in_memory a s m ->
  let new := committed os ++ [(pending os, now)] in
  exists m' a' s', goes (Team (g_commit H mv a (rounds a s id) now id) (g_cancel id) m)
      (Team (GRet (Ok tt)) (GRet (Ok tt)) m') /\
    in_memory a' s' m' /\ shows_first H (a', s', id) new (zlen (history_data (committed os))) /\
    file_at s' n = Some (header (history_ref H mv new) ++ history_data (committed os)) /\
    (forall ct, last_such (fun c => ct_hash c = ct_hash ct) (pending os) ct -> read_by_hash a' s' id (ct_hash ct) = Err).
Proof.
  intros H mv behind HL a0 n s0 os now a s id S (Np & T & Ft & Ck) m Im. cbn [fst snd] in Np, T, Ft, Ck. cbv zeta.
  destruct (session_synced H mv behind HL _ _ _ _ _ _ _ S) as (Sy & F & Ch & Ed & Eb). rewrite <- Ch in Ck.
  assert (W : ok_batch (pending os, now)) by (split; auto).
  destruct (alone_cancel a s m Im id) as (m1 & Rc & I1).
  pose proof Sy as (i0 & h0 & Df & Ec0 & Eh0). unfold cancel_db in Rc, I1. rewrite Ec0 in Rc, I1. cbn [fst snd] in Rc, I1.
  set (aw := with_ctxs a _) in I1.
  assert (Sw : synced H mv aw s n id (committed os) []).
  { exists i0, h0. split; [exact Df|]. split; [|exact Eh0]. cbn [aw with_ctxs a_ctxs]. rewrite ctx_get_set, Z.eqb_refl. reflexivity. }
  destruct (interrupted H mv HL _ a s m n id _ _ now (rounds a s id) _ _ Sy W Ft Im Rc) as (r & Hr & G1).
  destruct (finish_commit H mv (GRet (Ok tt) : gprog unit) a aw s m1 n id _ _ r (rounds a s id) eq_refl eq_refl eq_refl Sw I1 Ck) as
    (m' & a' & s' & i & h & G2 & I' & _ & _ & _ & Ec & Eh & En & Dd & _).
  { unfold rounds. rewrite Ec0. unfold conn_size. cbn [x_conn]. rewrite Eh0. cbn [h_ino].
    destruct Df as (_ & _ & _ & _ & _ & _ & _ & _ & A9 & _). rewrite A9. lia. }
  change (batch_data []) with (@nil byte) in Dd. rewrite app_nil_r in Dd.
  assert (Hh : header (history_ref H mv (committed os ++ [(pending os, now)])) = reference_to_content r) by (rewrite Hr; reflexivity).
  assert (Sh : shows_first H (a', s', id) (committed os ++ [(pending os, now)]) (zlen (history_data (committed os)))).
  { eapply (shows_some_in H mv HL a' id [] s' n h i _ (history_data (committed os)) (batch_data (pending os))).
    - destruct (committed os); discriminate.
    - apply Forall_app. split; [apply Df|constructor; [exact W|constructor]].
    - exact Ft.
    - rewrite history_data_app. f_equal. unfold history_data. cbn [map concat fst]. now rewrite app_nil_r.
    - rewrite Hh, Hr. exact Ec.
    - exact Eh.
    - rewrite Hh. exact Dd. }
  exists m', a', s'. split; [eapply goes_trans; [exact G1|exact G2]|]. split; [exact I'|]. split; [exact Sh|].
  split; [rewrite (file_at_ino _ _ i En), Hh; now f_equal|].
  intros ct (l1 & l2 & El & _ & Fa). destruct Sh as (_ & _ & Rh & _).
  assert (Ec2 : history_contents (committed os ++ [(pending os, now)]) = (history_contents (committed os) ++ l1) ++ ct :: l2).
  { rewrite history_contents_app. unfold history_contents at 2. cbn [map concat fst]. rewrite app_nil_r, El. now rewrite app_assoc. }
  rewrite (Rh _ _ _ Ec2 Fa).
  assert (X : history_data (committed os) = batch_data (history_contents (committed os))).
  { unfold history_data, batch_data, history_contents. generalize (committed os). clear. induction l as [|b l IH]; [reflexivity|].
    cbn [map concat]. rewrite map_app, concat_app, <- IH. reflexivity. }
  rewrite X. unfold batch_data. rewrite !map_app, !concat_app. cbn [map concat]. rewrite app_nil_r, !zlen_app.
  assert (Nd : (0 < zlen (ct_data ct))%Z).
  { rewrite El in F. apply Forall_app in F as (_ & F). inversion F as [|? ? (_ & N & _) _]; subst. unfold zlen. destruct (ct_data ct); [congruence|cbn [length]; lia]. }
  pose proof (zlen_nonneg (concat (map ct_data l1))).
  match goal with |- context [(?x <=? ?y)%Z] => destruct (Z.leb_spec x y); [exfalso; lia|reflexivity] end.
Qed.
Print Assumptions C165_a_cancel_during_a_commit_waits_refuted.

Example C165_ex : allowed toy_sha x00 100 (committed ex_ops, pending ex_ops) (OCommit 8) /\
  session toy_sha x00 no_behind (ex_app 100) ex_name ex_fs ex_ops (ex_a, ex_s, ex_id) /\ in_memory ex_a ex_s ex_m /\
  exists ct, last_such (fun c => ct_hash c = ct_hash ct) (pending ex_ops) ct.
Proof.
  split; [exact C36_ex|]. split; [exact ex_there|]. split; [exact ex_in_memory|].
  exists (last (pending ex_ops) (Content [] [] 0)), (removelast (pending ex_ops)), []. split; [vm_compute; reflexivity|]. split; [reflexivity|constructor].
Qed.
