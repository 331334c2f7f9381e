(** Property theorems about going on after a crash during Commit (C173, C174). *)
From Coq Require Import List ZArith NArith Lia Bool.
From Coq Require Import Init.Byte Strings.Byte.
From Verif Require Import Base BaseLemmas HashModel HashProofs SpecHash HashTreeModel HashTreeProofs
  RefModel RefProofs SpecRef DbModel SpecDb DbRefProofs DbFsProofs DbCommitProofs DbOpenProofs DbApiProofs
  DbSession DbSessionProofs DbMoreProofs SpecRecover DbRecoverProofs PropHash PropDb PropDbMore.
Import ListNotations.

(** *** C173 *)
(** At each moment of a Commit: what a process that starts after a crash at that moment finds. *)
Theorem C173_work_goes_on_after_a_crash : forall H mv behind, sha_ok H ->
  forall a0 n s0 os now a s id, session H mv behind a0 n s0 os (a, s, id) ->
  allowed H mv (a_chunk a0) (committed os, pending os) (OCommit now) ->
  let old := committed os in
  let new := committed os ++ [(pending os, now)] in
  Forall (fun x =>
    resumes H mv behind a0 n (reboot x) old \/
    resumes H mv behind a0 n (reboot x) new \/
    (nothing_at x n /\
     (exists y, sys_rename (n ++ [x2e] ++ a_dst a0) n (reboot x) = (y, Ok tt) /\ resumes H mv behind a0 n y new) /\
     (exists y, sys_rename (n ++ [x2e] ++ a_bck a0) n (reboot x) = (y, Ok tt) /\ resumes H mv behind a0 n y old)))
    (commit_states H mv now a s id).
Proof.
  intros H mv behind HL a0 n s0 os now a s id S A old new.
  pose proof (C36_every_crash_point_has_a_complete_copy H mv behind HL a0 n s0 os now a s id S A) as (_ & Fc).
  destruct A as (Np & T & Ft & Ck). cbn [fst snd] in Np, T, Ft, Ck.
  destruct (session_synced H mv behind HL _ _ _ _ _ _ _ S) as (Sy & F & Ch & Ed & Eb).
  assert (W : ok_batch (pending os, now)) by (split; auto).
  pose proof (commit_crash H mv HL a s n id _ _ now Sy W (fits_data H mv _ Ft)) as (Fa & _). cbv zeta in Fa.
  destruct Sy as (i & h & (_ & _ & _ & _ & _ & _ & _ & _ & _ & A10 & A11) & _).
  assert (Fn : Forall ok_batch new) by (apply Forall_app; split; auto).
  pose proof (proj1 S) as G. rewrite Forall_forall in Fa, Fc. rewrite Forall_forall. intros x Ix.
  destruct (Fa x Ix) as (_ & _ & K & Ff & Nd & Nb). rewrite Ed, Eb in *. clear Fa.
  destruct (Fc x Ix) as ([E|[E|(N & E1 & E2)]] & _).
  - left. apply resume; auto. split; auto.
  - right. left. apply resume; auto. split; auto.
  - right. right. split; [exact N|].
    split.
    + destruct (rename_side x n (a_dst a0) _ N E1 K) as (y & Er & Ey & Ky & Fy & Ry & Dy).
      exists y. split; [exact Er|]. rewrite <- Ry. apply resume; auto; [congruence|]. split; auto.
    + destruct (rename_side x n (a_bck a0) _ N E2 K) as (y & Er & Ey & Ky & Fy & Ry & Dy).
      exists y. split; [exact Er|]. rewrite <- Ry. apply resume; auto; [congruence|]. split; auto.
Qed.
Print Assumptions C173_work_goes_on_after_a_crash.

(** *** C174: false: after a crash that New would repair, the next Commit destroys what is left. *)
Theorem C174_new_after_a_crash_loses_the_history_refuted : forall H mv behind, sha_ok H ->
  forall a0 n s0 os now a s id, session H mv behind a0 n s0 os (a, s, id) ->
  allowed H mv (a_chunk a0) (committed os, pending os) (OCommit now) ->
  exists x, In x (commit_states H mv now a s id) /\ exists_db (reboot x) n = false /\
    file_at x (n ++ [x2e] ++ a_dst a0) = Some (history_file H mv (committed os ++ [(pending os, now)])) /\
    file_at x (n ++ [x2e] ++ a_bck a0) = Some (history_file H mv (committed os)) /\
    forall os2 t, all_allowed H mv (a_chunk a0) ([], []) (os2 ++ [OCommit t]) ->
      exists a' s' id', session H mv behind a0 n (reboot x) (os2 ++ [OCommit t]) (a', s', id') /\
        shows H (a', s', id') (committed (os2 ++ [OCommit t])) /\
        file_at s' n = Some (history_file H mv (committed (os2 ++ [OCommit t]))) /\
        nothing_at s' (n ++ [x2e] ++ a_dst a0) /\ nothing_at s' (n ++ [x2e] ++ a_bck a0).
Proof.
  intros H mv behind HL a0 n s0 os now a s id S A.
  pose proof (C36_every_crash_point_has_a_complete_copy H mv behind HL a0 n s0 os now a s id S A) as (_ & Fc).
  destruct A as (Np & T & Ft & Ck). cbn [fst snd] in Np, T, Ft, Ck.
  destruct (session_synced H mv behind HL _ _ _ _ _ _ _ S) as (Sy & F & Ch & Ed & Eb).
  assert (W : ok_batch (pending os, now)) by (split; auto).
  pose proof (commit_crash H mv HL a s n id _ _ now Sy W (fits_data H mv _ Ft)) as (_ & x & i & Ix & N & _ & _ & _ & _ & Ok_).
  destruct Ok_ as (_ & _ & K & Ff & Nd & Nb). rewrite Ed, Eb in *.
  exists x. split; [exact Ix|].
  split; [unfold exists_db, sys_stat; cbn [reboot with_locks with_handles f_dir]; unfold nothing_at in N; now rewrite N|].
  rewrite Forall_forall in Fc. destruct (Fc x Ix) as ([E|[E|(_ & E1 & E2)]] & _).
  1,2: unfold file_at in E; unfold nothing_at in N; rewrite N in E; discriminate.
  split; [exact E1|]. split; [exact E2|]. intros os2 t Al.
  pose proof (proj1 (allowed_snoc H mv _ _ _ _) Al) as (Al2 & Alt).
  assert (C : calm (reboot x)) by (destruct K as (V & I); repeat split; auto).
  destruct (session_exists H mv behind HL a0 n (reboot x) os2 (proj1 S) C (conj Nd Nb) N Al2) as ([[a1 s1] id1] & S1).
  assert (Es : spec_run ([], []) os2 = (committed os2, pending os2)) by apply surjective_pairing.
  rewrite Es in Alt.
  destruct (C77_commit_destroys_databases_named_like_its_copies_refuted H mv behind HL a0 n _ os2 t a1 s1 id1 S1 Alt)
    as (s' & a' & Ec & N1 & N2).
  assert (S2 : session H mv behind a0 n (reboot x) (os2 ++ [OCommit t]) (a', s', id1)).
  { destruct S1 as (G & C1 & Cl & Fr & _ & st0 & E0 & Ee). repeat (split; [assumption|]). exists st0. split; [exact E0|].
    rewrite exec_snoc, Ee. cbn [bind exec_step]. rewrite Ec. reflexivity. }
  exists a', s', id1. split; [exact S2|].
  destruct (session_synced H mv behind HL _ _ _ _ _ _ _ S2) as (Sy2 & _).
  split; [eapply synced_shows; eauto|]. split; [|auto].
  destruct Sy2 as (j & hj & (_ & _ & _ & _ & X5 & _ & _ & _ & X9 & _) & _). unfold file_at. rewrite X5. f_equal. exact X9.
Qed.
Print Assumptions C174_new_after_a_crash_loses_the_history_refuted.

(** A second commit of the example database, cut off at each moment, and work that may follow. *)
Example C173_ex : allowed toy_sha x00 100 (committed ex_ops, pending ex_ops) (OCommit 8) /\
  all_allowed toy_sha x00 100 (committed ex_ops, []) [ex_write x09 [x77]; OCommit 9] /\
  all_allowed toy_sha x00 100 ([], []) ([ex_write x09 [x77]] ++ [OCommit 9]).
Proof.
  split; [exact C36_ex|]. split.
  - change (committed ex_ops) with (fst (spec_run ([], []) ex_ops)). vm_compute spec_run. unfold ex_write. allowed.
  - cbn [app]. unfold ex_write. allowed.
Qed.

(** There are moments with the database file and moments without. *)
Example C174_ex : let '(a, s, id) := ex_state (ex_run 100 ex_ops) in
  let xs := commit_states toy_sha x00 8 a s id in
  let there x := exists_db (reboot x) ex_name in
  (existsb there xs, forallb there xs) = (true, false).
Proof. rewrite ex_at. vm_compute. reflexivity. Qed.
