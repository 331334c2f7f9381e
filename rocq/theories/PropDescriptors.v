(** Property theorems about the file descriptors of a process (C167 to C169). *)
From Coq Require Import List ZArith NArith Lia Bool.
From Coq Require Import Init.Byte Strings.Byte.
From Verif Require Import Base BaseLemmas HashModel HashProofs SpecHash HashTreeModel HashTreeProofs
  RefModel RefProofs SpecRef DbModel SpecDb DbRefProofs DbFsProofs DbCommitProofs DbOpenProofs DbApiProofs
  DbSession DbSessionProofs DbMoreProofs DbMultiProofs DbConcurrent DbThreads SpecThreads
  DbThreadProofs DbThreadProofs2 DbThreadProofs3 DbThreadProofs4 SpecPower DbPowerProofs DbThreadProofs5 PropHash PropDb PropDbMore PropThreads
  DbDescriptors SpecDescriptors DbDescriptorProofs DbDescriptorProofs2 DbDescriptorProofs3 DbDescriptorProofs4 DbDescriptorProofs5.
Import ListNotations.

(** *** C167 *)
(** A call that has the process for itself answers and leaves what the sequential model says, and each open connection
    keeps a number that stands for it. *)
Theorem C167_the_numbers_do_not_matter_to_one_call : forall H mv behind a s q,
  in_memory a s (q_mem q) -> numbered q -> f_locks s = [] ->
  forall id B call o a' s', d_acting H mv behind a s id B call o a' s' ->
  exists q', d_run call q = (q', o) /\ in_memory a' s' (q_mem q') /\ numbered q'.
Proof.
  intros H mv behind a s q Im N Lk id B call o a' s' Ac. assert (Em : m_fs (q_mem q) = s) by apply Im.
  destruct Ac as [ptr|h d k| |now s' a' o E|s' a' o E|n s' o E].
  - destruct (d_read_alone id ptr q N) as (R & _). pose proof (alone_reading a s (q_mem q) Im id _ _ _ (reading_pointer a s id ptr)) as R'.
    rewrite R' in R. exists q. auto.
  - destruct (alone_write a s (q_mem q) Im id h d k) as (m' & R & I). rewrite d_run_lift, R. cbn [fst snd]. eexists. split; [reflexivity|]. split; [exact I|].
    pose proof (numbered_lift (g_write id h d k) q) as K. rewrite R in K. apply K; [|exact N].
    unfold g_write. apply steady_then; [apply steady_reads, reads_find|]. intros p. destruct (content_now h d k); try apply steady_ret.
    apply steady_then; [apply steady_field|]. intros l. apply steady_then; [apply steady_store|]. intros _. intros m x i. reflexivity.
  - destruct (alone_cancel a s (q_mem q) Im id) as (m' & R & I). rewrite d_run_lift, R. cbn [fst snd]. eexists. split; [reflexivity|]. split; [exact I|].
    pose proof (numbered_lift (g_cancel id) q) as K. rewrite R in K. apply K; [|exact N].
    unfold g_cancel. apply steady_then; [apply steady_reads, reads_find|]. intros p. apply steady_then; [apply steady_store|]. intros _. intros m x i. reflexivity.
  - pose proof (alone_commit H mv a s (q_mem q) Im id now) as X. rewrite E in X. destruct X as (m' & R & I).
    destruct (d_commit_alone H mv a (rounds a s id) now id q N) as (q' & R' & M & N'); [intros i Hi; rewrite Em, Lk in Hi; destruct Hi|].
    rewrite R in R', M. cbn [fst snd] in *. exists q'. rewrite M. auto.
  - pose proof (alone_close a s (q_mem q) Im id) as X. rewrite E in X. destruct X as (m' & R & I).
    destruct (d_close_alone id q N) as (q' & R' & M & N'). rewrite R in R', M. cbn [fst snd] in *. exists q'. rewrite M. auto.
  - pose proof (alone_open H mv behind a s (q_mem q) Im n) as X. rewrite E in X. destruct X as (m' & R & I).
    destruct (d_open_alone H mv behind a n q N) as (q' & R' & M & N'). rewrite R in R', M. cbn [fst snd] in *. exists q'. rewrite M. auto.
Qed.
Print Assumptions C167_the_numbers_do_not_matter_to_one_call.

(** The database of the examples in a process: the numbers 0 to 2 are taken, the connection has 3. *)
Definition ex_q : proc := Proc ex_m
  [Some (Desc 90 None false); Some (Desc 91 None false); Some (Desc 92 None false);
   Some (Desc (match dir_get (f_dir ex_s) ex_name with Some (EFile i) => i | _ => 0 end) (Some (length (f_handles ex_s) - 1)) false)]
  [(length (f_handles ex_s) - 1, 3)] [].

Lemma only_last l : forallb (fun x => negb (h_open x)) (removelast l) = true ->
  forall j x, nth_error l j = Some x -> h_open x = true -> j = length l - 1.
Proof.
  induction l as [|y l IH]; intros A j x E O; [now destruct j|]. destruct l as [|z l]; [destruct j as [|[|j]]; [reflexivity|discriminate..]|].
  cbn [removelast forallb] in A. apply andb_true_iff in A as (A1 & A2). destruct j as [|j]; cbn [nth_error] in E.
  - injection E as ->. rewrite O in A1. discriminate.
  - apply IH in E; auto. cbn [length] in *. lia.
Qed.

Lemma ex_numbered : numbered ex_q.
Proof.
  assert (A : forallb (fun x => negb (h_open x)) (removelast (f_handles ex_s)) = true) by (vm_compute; reflexivity).
  assert (E : exists i pos, nth_error (f_handles ex_s) (length (f_handles ex_s) - 1) = Some (Handle i pos true) /\
    match dir_get (f_dir ex_s) ex_name with Some (EFile i) => i | _ => 0 end = i).
  { vm_compute. do 2 eexists. split; reflexivity. }
  destruct E as (i & pos & E1 & E2). pose proof (only_last _ A) as F. intros h. unfold ex_q. rewrite E2. cbn [q_files q_mem q_table num_get].
  change (m_fs ex_m) with ex_s. unfold open_at. clear E2 A. revert E1 F. generalize (f_handles ex_s). intros l E1 F.
  destruct (Nat.eqb_spec (length l - 1) h) as [<-|Nh].
  - exists i. split; [now exists pos|reflexivity].
  - intros i' (pos' & X). apply F in X; [|reflexivity]. congruence.
Qed.

Lemma ex_no_gap : no_gap ex_q ex_id.
Proof.
  intros k (p & c & _ & _ & E) j L. assert (K : k = 3).
  { unfold ex_q in E. cbn [q_files num_get] in E. destruct (Nat.eqb _ _); [now injection E|discriminate]. }
  subst k. destruct j as [|[|[|j]]]; [discriminate..|lia].
Qed.

Example C167_ex : in_memory ex_a ex_s (q_mem ex_q) /\ numbered ex_q /\ f_locks ex_s = [] /\
  snd (d_run (d_commit toy_sha x00 ex_a (rounds ex_a ex_s ex_id) 8 ex_id) ex_q) = Ok tt /\
  snd (d_run (d_read ex_id (Pointer 0 1)) ex_q) = read_db ex_a ex_s ex_id (Pointer 0 1).
Proof. split; [exact ex_in_memory|]. split; [exact ex_numbered|]. split; [vm_compute; reflexivity|]. split; vm_compute; reflexivity. Qed.

(** *** C168 *)
(** Two Commits of one context: one succeeds, the other is refused the lock; the file has the new history, and the
    context that is left has lost its connection: it reads nothing, it is not closed, and the name is not opened again. *)
Theorem C168_a_refused_commit_has_no_effect_refuted : forall H mv behind, sha_ok H ->
  forall a0 n s0 os now1 now2 a s id, session H mv behind a0 n s0 os (a, s, id) ->
  allowed H mv (a_chunk a0) (committed os, pending os) (OCommit now1) ->
  allowed H mv (a_chunk a0) (committed os, pending os) (OCommit now2) ->
  forall q fuel2, in_memory a s (q_mem q) -> numbered q -> no_gap q id ->
  let new := committed os ++ [(pending os, now1)] in
  exists q' a' s',
    d_goes (DTeam (d_commit H mv a (rounds a s id) now1 id) (d_commit H mv a fuel2 now2 id) q) (DTeam (DRet (Ok tt)) (DRet Err) q') /\
    in_memory a' s' (q_mem q') /\
    commits_db a' id = Ok (chain H mv None new) /\ content_keys a' id = Ok (history_keys H mv None 0 new) /\
    file_at s' n = Some (history_file H mv new) /\
    (forall from len, (0 < len < two63)%Z -> d_run (d_read id (Pointer from len)) q' = (q', Err)) /\
    snd (d_run (d_close id) q') = Err /\
    snd (d_run (d_open H mv behind a' n) q') = Err.
Proof.
  intros H mv behind HL a0 n s0 os now1 now2 a s id S (Np & T1 & Ft1 & Ck) (_ & T2 & Ft2 & _) q fuel2 Im N Ng. cbn [fst snd] in *. cbv zeta.
  destruct (session_synced H mv behind HL _ _ _ _ _ _ _ S) as (Sy & F & Ch & Ed & Eb). rewrite <- Ch in Ck.
  assert (W1 : ok_batch (pending os, now1)) by (split; auto). assert (W2 : ok_batch (pending os, now2)) by (split; auto).
  destruct (two_commits H mv HL a s n id _ _ now1 now2 fuel2 q Sy W1 W2 Ft1 Ft2 Ck Im N Ng)
    as (q' & a' & s' & p & h' & k0 & i & G & Im' & Ea & Ec & Ep & Eh & Dn & Dd & Lh & Nk & T & B).
  set (new := committed os ++ [(pending os, now1)]) in *.
  assert (R : history_ref H mv new = Some (Reference (history_keys H mv None 0 new) (chain H mv None new))) by (unfold new; destruct (committed os); reflexivity).
  exists q', a', s'. split; [exact G|]. split; [exact Im'|].
  split; [unfold commits_db; rewrite Ec; cbn [x_ref]; now rewrite R|]. split; [unfold content_keys; rewrite Ec; cbn [x_ref]; now rewrite R|].
  split; [unfold file_at; rewrite Dn; f_equal; exact Dd|].
  split; [intros from len L; exact (lost_read q' id p _ k0 Ep Eh Nk T (Pointer from len) L)|].
  split; [exact (lost_close q' id p _ k0 Ep Eh Nk T)|].
  unfold d_open. rewrite d_run_bind, reads_run_d by apply reads_look. cbn [g_run snd]. rewrite (names_taken a' s' (q_mem q') Im').
  replace (existsb _ (a_ctxs a')) with true; [reflexivity|]. symmetry. apply existsb_exists.
  clear - Ec. induction (a_ctxs a') as [|[x c0] l IH]; cbn [ctx_get] in Ec; [discriminate|]. destruct (Z.eqb x id).
  - injection Ec as ->. eexists. split; [now left|]. cbn. apply bytes_eqb_refl.
  - destruct (IH Ec) as (y & Hy & E). exists y. split; [now right|exact E].
Qed.
Print Assumptions C168_a_refused_commit_has_no_effect_refuted.

Example C168_ex : session toy_sha x00 no_behind (ex_app 100) ex_name ex_fs ex_ops (ex_a, ex_s, ex_id) /\
  allowed toy_sha x00 100 (committed ex_ops, pending ex_ops) (OCommit 8) /\
  allowed toy_sha x00 100 (committed ex_ops, pending ex_ops) (OCommit 9) /\
  in_memory ex_a ex_s (q_mem ex_q) /\ numbered ex_q /\ no_gap ex_q ex_id /\ number_of ex_q ex_id 3.
Proof.
  split; [exact ex_there|]. split; [exact C36_ex|]. split; [apply C164_ex|]. split; [exact ex_in_memory|]. split; [exact ex_numbered|].
  split; [exact ex_no_gap|]. eexists. eexists. split; [vm_compute; reflexivity|]. split; [vm_compute; reflexivity|]. vm_compute. reflexivity.
Qed.

(** *** C169 *)
(** After that, another database is opened: its connection gets the number, the context reads the bytes of the other
    database, and the Close of the one closes the other. *)
Theorem C169_a_database_reads_its_own_file_refuted : forall H mv behind, sha_ok H ->
  forall a0 n s0 os now1 now2 a s id, session H mv behind a0 n s0 os (a, s, id) ->
  allowed H mv (a_chunk a0) (committed os, pending os) (OCommit now1) ->
  allowed H mv (a_chunk a0) (committed os, pending os) (OCommit now2) ->
  forall q fuel2, in_memory a s (q_mem q) -> numbered q -> no_gap q id ->
  let new := committed os ++ [(pending os, now1)] in
  exists q' a' s',
    d_goes (DTeam (d_commit H mv a (rounds a s id) now1 id) (d_commit H mv a fuel2 now2 id) q) (DTeam (DRet (Ok tt)) (DRet Err) q') /\
    in_memory a' s' (q_mem q') /\
    forall n2 f2 q2 id2, n2 <> n -> file_at s' n2 = Some f2 -> (zlen f2 < two63)%Z -> d_run (d_open H mv behind a' n2) q' = (q2, Ok id2) -> id2 <> id ->
      let first := zlen (header (history_ref H mv new)) in
      (forall from len, (0 <= from)%Z -> (0 < len)%Z -> (first + from + len <= zlen f2)%Z ->
         d_run (d_read id (Pointer from len)) q2 = (q2, Ok (sub f2 (first + from) len))) /\
      exists q3, d_run (d_close id) q2 = (q3, Ok tt) /\
        forall from len, (0 < len < two63)%Z -> d_run (d_read id2 (Pointer from len)) q3 = (q3, Err).
Proof.
  intros H mv behind HL a0 n s0 os now1 now2 a s id S (Np & T1 & Ft1 & Ck) (_ & T2 & Ft2 & _) q fuel2 Im N Ng. cbn [fst snd] in *. cbv zeta.
  destruct (session_synced H mv behind HL _ _ _ _ _ _ _ S) as (Sy & F & Ch & Ed & Eb). rewrite <- Ch in Ck.
  assert (W1 : ok_batch (pending os, now1)) by (split; auto). assert (W2 : ok_batch (pending os, now2)) by (split; auto).
  destruct (two_commits H mv HL a s n id _ _ now1 now2 fuel2 q Sy W1 W2 Ft1 Ft2 Ck Im N Ng)
    as (q' & a' & s' & p & h' & k0 & i & G & Im' & Ea & Ec & Ep & Eh & Dn & Dd & Lh & Nk & T & B).
  set (new := committed os ++ [(pending os, now1)]) in *.
  exists q', a', s'. split; [exact G|]. split; [exact Im'|]. intros n2 f2 q2 id2 _ F2 L2 R2 Ni.
  assert (Em : m_fs (q_mem q') = s') by apply Im'. unfold file_at in F2. destruct (dir_get (f_dir s') n2) as [[j2|]|] eqn:D2; try discriminate. injection F2 as F2.
  set (c := Ctx id n h' (history_ref H mv new) (zlen (header (history_ref H mv new))) (pending os)) in *.
  destruct (lost_open H mv behind a' q' id p c k0 Ep Eh Nk T n2 j2 q2 id2) as (p2 & c2 & Q1 & Q2 & Q3 & Q4 & Q5 & Q6 & Q7 & Q8 & Q9 & Q10); auto.
  { now rewrite Em. }
  { now rewrite Em. }
  assert (Df : data_of (m_fs (q_mem q2)) j2 = f2) by (unfold data_of; rewrite Q10, Em; exact F2).
  split.
  - intros from len Lf Ll Lz. rewrite <- Df. apply (reused_read q2 id p c c2 k0 j2); auto; [apply zlen_nonneg|]. rewrite Df. cbn [c x_off]. lia.
  - destruct (reused_close q2 id id2 p p2 c c2 k0 j2) as (q3 & R3 & K1 & K2 & K3 & K4); auto.
    exists q3. split; [exact R3|]. intros from len L. exact (lost_read q3 id2 p2 c2 k0 K1 K2 K3 K4 (Pointer from len) L).
Qed.
Print Assumptions C169_a_database_reads_its_own_file_refuted.

(** Beside the database there is the file of another one, with one commit. The first Commit makes [k] steps, then
    the second makes its whole call, then the first goes on. *)
Definition ex_other : bytes := [x6f].
Definition ex_bytes : bytes := history_file toy_sha x00 [([Content (ex_h x01) (repeat x2a 3000) 7], 5%Z)].
Definition ex_fs2 : fsys := FSys [(ex_other, EFile 0)] [ex_bytes] [] [] [].
Definition ex_ops2 : list op := [ex_write x01 [x0a; x0b]].
Definition ex_st2 : state := ex_state (match start toy_sha x00 no_behind (ex_app 100) ex_name ex_fs2 with Ok st => exec toy_sha x00 no_behind ex_name st ex_ops2 | _ => Err end).
Definition ex_a2 : dbapp := fst (fst ex_st2).
Definition ex_s2 : fsys := snd (fst ex_st2).
Definition ex_q2 : proc := Proc (memory_of ex_a2 ex_s2)
  [Some (Desc 90 None false); Some (Desc 91 None false); Some (Desc 92 None false); Some (Desc 1 (Some (length (f_handles ex_s2) - 1)) false)]
  [(length (f_handles ex_s2) - 1, 3)] [].

Fixpoint d_steps {A} (k : nat) (p : dprog A) (q : proc) : dprog A * proc :=
  match k, p with
  | S k', DStep f => let (q', p') := f q in d_steps k' p' q'
  | _, _ => (p, q)
  end.

Lemma d_steps_goes {A B} k : forall (p : dprog A) (w : dprog B) q, d_goes (DTeam p w q) (DTeam (fst (d_steps k p q)) w (snd (d_steps k p q))).
Proof.
  induction k as [|k IH]; intros p w q; [constructor|]. destruct p as [o|f]; [constructor|]. cbn [d_steps]. destruct (f q) as [q' p'] eqn:E.
  eapply d_goes_one; [exact E|]. apply IH.
Qed.

Lemma played {A B} k (p : dprog A) (w : dprog B) q h r l : d_steps k p q = h -> d_run w (snd h) = r -> d_run (fst h) (fst r) = l ->
  d_goes (DTeam p w q) (DTeam (DRet (snd l)) (DRet (snd r)) (fst l)).
Proof.
  intros <- <- <-. eapply d_goes_trans; [apply (d_steps_goes k)|]. eapply d_goes_trans; [apply d_goes_other|]. apply d_goes_run.
Qed.

Definition ex_one : dprog unit := d_commit toy_sha x00 ex_a2 (rounds ex_a2 ex_s2 0) 5 0.
Definition ex_two : dprog unit := d_commit toy_sha x00 ex_a2 (rounds ex_a2 ex_s2 0) 6 0.
Definition ex_half : dprog unit * proc := d_steps 437 ex_one ex_q2.
Definition ex_refused : proc * outcome unit := d_run ex_two (snd ex_half).
Definition ex_lost : proc * outcome unit := d_run (fst ex_half) (fst ex_refused).
Definition ex_opened : proc * outcome Z := d_run (d_open toy_sha x00 no_behind ex_a2 ex_other) (fst ex_lost).
Definition ex_closed : proc * outcome unit := d_run (d_close 0) (fst ex_opened).

Example C169_ex :
  session toy_sha x00 no_behind (ex_app 100) ex_name ex_fs2 ex_ops2 (ex_a2, ex_s2, 0%Z) /\
  allowed toy_sha x00 100 (committed ex_ops2, pending ex_ops2) (OCommit 5) /\
  allowed toy_sha x00 100 (committed ex_ops2, pending ex_ops2) (OCommit 6) /\
  in_memory ex_a2 ex_s2 (q_mem ex_q2) /\ numbered ex_q2 /\ no_gap ex_q2 0 /\ number_of ex_q2 0 3.
Proof.
  split.
  { unfold session. split; [apply ex_good; reflexivity|]. split.
    { split; [intros m i; cbn [f_dir ex_fs2 dir_get]; destruct (bytes_eqb ex_other m); [intros [= <-]; cbn [f_data ex_fs2 length]; apply le_n|discriminate]|].
      split; [|split; reflexivity].
      intros m1 m2 i. cbn [f_dir ex_fs2 dir_get]. destruct (bytes_eqb ex_other m1) eqn:E1; [|discriminate]. destruct (bytes_eqb ex_other m2) eqn:E2; [|discriminate].
      apply bytes_eqb_true in E1, E2. congruence. }
    split; [split; vm_compute; discriminate|]. split; [vm_compute; reflexivity|]. split; [unfold ex_ops2, ex_write; allowed|].
    eexists. split; [vm_compute; reflexivity|]. vm_compute. reflexivity. }
  split; [unfold ex_ops2, ex_write; vm_compute committed; vm_compute pending; allowed|].
  split; [unfold ex_ops2, ex_write; vm_compute committed; vm_compute pending; allowed|].
  split. { apply memory_of_ok. assert (E : map fst (a_ctxs ex_a2) = [0%Z]) by (vm_compute; reflexivity). rewrite E. constructor; [intros []|constructor]. }
  assert (E : f_handles ex_s2 = [Handle 1 0 true]) by (vm_compute; reflexivity).
  split.
  { intros h. unfold ex_q2. change (m_fs (q_mem (Proc (memory_of ex_a2 ex_s2) _ _ _))) with ex_s2. rewrite E. cbn [q_files q_mem q_table num_get length Nat.sub].
    unfold open_at. change (m_fs (memory_of ex_a2 ex_s2)) with ex_s2. rewrite E. destruct h as [|h]; cbn [Nat.eqb].
    - exists 1. split; [now exists 0|reflexivity].
    - intros i (pos & X). now destruct h. }
  split.
  { intros k (p & c & _ & _ & X) j L. unfold ex_q2 in X. rewrite E in X. cbn [q_files num_get length Nat.sub] in X. destruct (Nat.eqb 0 (x_conn c)); [|discriminate]. injection X as <-.
    destruct j as [|[|[|j]]]; [discriminate..|lia]. }
  eexists. eexists. split; [vm_compute; reflexivity|]. split; [vm_compute; reflexivity|]. vm_compute. reflexivity.
Qed.

(** The schedule, played: the database reads the bytes of the other one, and its Close closes the other one. *)
Example C169_played :
  d_goes (DTeam ex_one ex_two ex_q2) (DTeam (DRet (Ok tt)) (DRet Err) (fst ex_lost)) /\
  snd (d_run (d_read 0 (Pointer 0 2)) (fst ex_lost)) = Err /\
  snd ex_opened = Ok 1%Z /\
  snd (d_run (d_read 0 (Pointer 0 2)) (fst ex_opened)) = Ok [x2a; x2a] /\
  snd ex_closed = Ok tt /\
  snd (d_run (d_read 1 (Pointer 0 2)) (fst ex_closed)) = Err.
Proof.
  split.
  { assert (E2 : snd ex_refused = Err) by (vm_compute; reflexivity). assert (E1 : snd ex_lost = Ok tt) by (vm_compute; reflexivity).
    assert (A : d_steps 437 ex_one ex_q2 = ex_half) by (unfold ex_half; reflexivity).
    assert (B : d_run ex_two (snd ex_half) = ex_refused) by (unfold ex_refused; reflexivity).
    assert (C : d_run (fst ex_half) (fst ex_refused) = ex_lost) by (unfold ex_lost; reflexivity).
    pose proof (played 437 ex_one ex_two ex_q2 ex_half ex_refused ex_lost A B C) as G. rewrite E1, E2 in G. exact G. }
  repeat split; vm_compute; reflexivity.
Qed.
