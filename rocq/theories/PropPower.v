(** Property theorems about a loss of power (C155). *)
From Coq Require Import List ZArith NArith Lia Bool.
From Coq Require Import Init.Byte Strings.Byte.
From Verif Require Import Base BaseLemmas HashModel HashProofs SpecHash HashTreeModel HashTreeProofs
  RefModel RefProofs SpecRef DbModel SpecDb DbRefProofs DbFsProofs DbCommitProofs DbOpenProofs DbApiProofs
  DbSession DbSessionProofs DbMoreProofs DbMultiProofs SpecPower DbPowerProofs PropHash PropDb.
Import ListNotations.

(** *** C155: false as durability; what the disk can hold after a loss of power. *)
Theorem C155_what_a_loss_of_power_leaves : forall H mv behind, sha_ok H ->
  forall a0 n s0 os now a s id, session H mv behind a0 n s0 os (a, s, id) ->
  allowed H mv (a_chunk a0) (committed os, pending os) (OCommit now) ->
  let dn := side n (a_dst a0) in
  let old := history_file H mv (committed os) in
  let new := history_file H mv (committed os ++ [(pending os, now)]) in
  forall d, may_remain (commit_states H mv now a s id) d ->
  (nothing_at d n \/ file_at d n = Some old \/ (exists left, file_at s dn = Some left /\ file_at d n = Some left) \/
   exists w v, file_at d n = Some w /\ w ++ v = new) /\
  (forall m, m <> n -> m <> dn -> m <> side n (a_bck a0) -> file_at d m = file_at s m).
Proof.
  intros H mv behind HL a0 n s0 os now a s id S (Np & T & Ft & Ck) dn old new d R.
  cbn [fst snd] in Np, T, Ft, Ck. unfold dn.
  destruct (session_synced H mv behind HL _ _ _ _ _ _ _ S) as (Sy & F & Ch & Ed & Eb). rewrite <- Ch, <- Ed, <- Eb in *.
  assert (W : ok_batch (pending os, now)) by (split; auto).
  exact (remains H mv HL a s n id _ _ now Sy W Ft Ck d R).
Qed.
Print Assumptions C155_what_a_loss_of_power_leaves.

(** What Open makes of the first bytes of a database file, whatever their number. *)
Theorem C155_a_file_cut_short : forall H mv behind, sha_ok H ->
  forall a x n bs w v, a_ctxs a = [] -> (0 < a_chunk a)%Z -> Forall ok_batch bs -> fits H mv bs ->
  file_at x n = Some w -> w ++ v = history_file H mv bs ->
  let hd := zlen (header (history_ref H mv bs)) in
  ((zlen w < 8)%Z -> exists s' a', open_db H mv behind n a x = (s', a', Ok 0%Z) /\ shows H (a', s', 0%Z) []) /\
  ((8 <= zlen w < hd)%Z -> open_db H mv behind n a x = (x, a, Err)) /\
  ((8 <= zlen w)%Z -> (hd <= zlen w)%Z ->
     exists s' a', open_db H mv behind n a x = (s', a', Ok 0%Z) /\ shows_first H (a', s', 0%Z) bs (zlen w - hd)).
Proof. intros H mv behind HL a x n bs w v. cbv zeta. apply (open_cut H mv behind HL). Qed.
Print Assumptions C155_a_file_cut_short.

(** After every commit that succeeds, a loss of power can leave an empty file at the name of the
    database and no copy beside it. Open then succeeds and shows no commit. *)
Theorem C155_a_commit_survives_a_loss_of_power_refuted : forall H mv behind, sha_ok H ->
  forall a0 n s0 os now a s id, session H mv behind a0 n s0 os (a, s, id) ->
  allowed H mv (a_chunk a0) (committed os, pending os) (OCommit now) ->
  (exists s' a', commit_db H mv now a s id = (s', a', Ok tt) /\
     shows H (a', s', id) (committed os ++ [(pending os, now)])) /\
  exists d, may_remain (commit_states H mv now a s id) d /\ exists_db d n = true /\ file_at d n = Some [] /\
    nothing_at d (side n (a_dst a0)) /\ nothing_at d (side n (a_bck a0)) /\
    exists s' a', open_db H mv behind n (with_ctxs a0 []) d = (s', a', Ok 0%Z) /\ shows H (a', s', 0%Z) [].
Proof.
  intros H mv behind HL a0 n s0 os now a s id S (Np & T & Ft & Ck).
  cbn [fst snd] in Np, T, Ft, Ck.
  assert (Pc : (0 < a_chunk a0)%Z) by apply S.
  destruct (session_synced H mv behind HL _ _ _ _ _ _ _ S) as (Sy & F & Ch & Ed & Eb).
  assert (W : ok_batch (pending os, now)) by (split; auto). rewrite <- Ch in Ck.
  split.
  - destruct (commit_ok H mv HL a s n id _ _ now Sy W Ft Ck) as (s' & a' & E & Sy' & _).
    exists s', a'. split; [exact E|]. eapply synced_shows; eauto.
  - destruct (all_lost H mv HL a s n id _ _ now Sy W Ft Ck) as (d & R & Ef & Nd & Nb). rewrite Ed in Nd. rewrite Eb in Nb.
    exists d. split; [exact R|]. split; [|split; [exact Ef|split; [exact Nd|split; [exact Nb|]]]].
    + unfold exists_db, sys_stat. unfold file_at in Ef. destruct (dir_get (f_dir d) n) as [[k|]|]; [reflexivity|discriminate ..].
    + destruct (open_cut H mv behind HL (with_ctxs a0 []) d n (committed os ++ [(pending os, now)]) []
        (history_file H mv (committed os ++ [(pending os, now)])) eq_refl Pc) as (X & _); auto.
      { apply Forall_app. split; [|repeat constructor; apply W]. destruct Sy as (i & h & (_ & _ & _ & _ & _ & _ & _ & _ & _ & A10 & _) & _). exact A10. }
      apply X. reflexivity.
Qed.
Print Assumptions C155_a_commit_survives_a_loss_of_power_refuted.

(** The third commit of the example: six bytes of contents are old, one is pending. The disk may hold the new
    directory and any number of the new file's bytes. *)
Definition ex_before : list op := removelast ex_ops.
Definition ex_xs : list fsys := let '(a, s, id) := ex_state (ex_run 100 ex_before) in commit_states toy_sha x00 7 a s id.
Definition ex_file : bytes := history_file toy_sha x00 (committed ex_ops).
Definition ex_head : nat := length (header (history_ref toy_sha x00 (committed ex_ops))).
Definition ex_disk (k : nat) : fsys := FSys [(ex_name, EFile 0)] [firstn k ex_file] [] [] [].
Definition ex_reads (k : nat) : outcome unit * list (outcome bytes) :=
  match open_db toy_sha x00 no_behind ex_name (ex_app 100) (ex_disk k) with
  | (s, a, o) => (do _ <- o; Ok tt, map (fun b => read_by_hash a s 0 (ex_h b)) [x02; x01; x04])
  end.
Example C155_ex_cut : length ex_file - ex_head = 7 /\
  ex_reads 0 = (Ok tt, [Err; Err; Err]) /\ ex_reads 7 = (Ok tt, [Err; Err; Err]) /\
  fst (ex_reads 8) = Err /\ fst (ex_reads (ex_head - 1)) = Err /\
  ex_reads ex_head = (Ok tt, [Err; Err; Err]) /\
  ex_reads (ex_head + 3) = (Ok tt, [Err; Err; Err]) /\
  ex_reads (ex_head + 4) = (Ok tt, [Ok [x0d]; Err; Err]) /\
  ex_reads (ex_head + 6) = (Ok tt, [Ok [x0d]; Ok [x1a; x1b]; Err]) /\
  ex_reads (ex_head + 7) = (Ok tt, [Ok [x0d]; Ok [x1a; x1b]; Ok [x1c]]).
Proof. vm_compute. repeat split. Qed.

(** The hypotheses of the theorems hold of it. *)
Example C155_ex_hypotheses : (let '(a, s, id) := ex_state (ex_run 100 ex_ops) in
  session toy_sha x00 no_behind (ex_app 100) ex_name ex_fs ex_ops (a, s, id)) /\
  allowed toy_sha x00 100 (committed ex_ops, pending ex_ops) (OCommit 8).
Proof.
  split; [|exact C36_ex]. pose proof ex_session as S. destruct (ex_state (ex_run 100 ex_ops)) as [[a s] id]. exact S.
Qed.

(** A disk that may remain: the directory after the commit, and the new file as it was made, empty. *)
Example C155_ex_lost : exists first last : fsys, In first ex_xs /\ In last ex_xs /\
  dir_get (f_dir last) ex_name = Some (EFile 5) /\ data_of last 5 = ex_file /\ data_of first 5 = [] /\
  file_at first ex_name = Some (history_file toy_sha x00 (committed ex_before)).
Proof.
  exists (nth 2 ex_xs ex_fs), (List.last ex_xs ex_fs). split; [apply nth_In; apply Nat.ltb_lt; vm_compute; reflexivity|].
  split; [|vm_compute; repeat split].
  assert (X : forall l : list fsys, l <> [] -> In (List.last l ex_fs) l).
  { induction l as [|y l IH]; [congruence|]. intros _. destruct l; [now left|]. right. apply IH. discriminate. }
  apply X. intros E. assert (Y : length ex_xs = 0) by (now rewrite E). revert Y. vm_compute. discriminate.
Qed.
