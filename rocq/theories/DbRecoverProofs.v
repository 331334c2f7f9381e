(** What is found after a crash during a commit, and what a careless New makes of it. *)
From Coq Require Import List ZArith NArith Lia Bool.
From Coq Require Import Init.Byte Strings.Byte.
From Verif Require Import Base BaseLemmas HashModel HashProofs SpecHash HashTreeModel HashTreeProofs
  RefModel RefProofs SpecRef DbModel SpecDb DbRefProofs DbFsProofs DbCommitProofs DbOpenProofs DbApiProofs
  DbSession DbSessionProofs DbMoreProofs SpecRecover PropHash.
Import ListNotations.

Lemma reboot_twice s : reboot (reboot s) = reboot s.
Proof. reflexivity. Qed.

(** Renaming a side file onto the free name. *)
Lemma rename_side s n e f : nothing_at s n -> file_at s (side n e) = Some f -> fs_ok s ->
  exists y, sys_rename (side n e) n (reboot s) = (y, Ok tt) /\ file_at y n = Some f /\ fs_ok y /\
    f_faults y = f_faults s /\ reboot y = y /\
    (forall m, dir_get (f_dir y) m = Some EDir -> dir_get (f_dir s) m = Some EDir).
Proof.
  intros N F (V & I). unfold nothing_at, file_at in *.
  destruct (dir_get (f_dir s) (side n e)) as [[i|]|] eqn:E; try discriminate.
  unfold sys_rename. cbn [reboot with_locks with_handles f_dir]. rewrite E, N. eexists. split; [reflexivity|].
  assert (G : forall m, dir_get (dir_set (dir_del (f_dir s) (side n e)) n (EFile i)) m =
      if bytes_eqb n m then Some (EFile i) else if bytes_eqb (side n e) m then None else dir_get (f_dir s) m).
  { intros m. rewrite dir_get_set, dir_get_del. reflexivity. }
  cbn [reboot with_dir with_locks with_handles f_dir f_data f_faults].
  split; [rewrite G, bytes_eqb_refl; exact F|]. split; [|split; [reflexivity|split; [reflexivity|]]].
  - split.
    + intros m j. cbn [f_dir f_data]. rewrite G. destruct (bytes_eqb n m); [intros [= <-]; eauto|].
      destruct (bytes_eqb (side n e) m); [discriminate|]. apply V.
    + intros m m' j. cbn [f_dir]. rewrite !G. destruct (bytes_eqb n m) eqn:E1, (bytes_eqb n m') eqn:E2.
      * apply bytes_eqb_true in E1, E2. congruence.
      * intros [= <-]. destruct (bytes_eqb (side n e) m') eqn:E3; [discriminate|]. intros X.
        rewrite (I _ _ _ E X), bytes_eqb_refl in E3. discriminate.
      * destruct (bytes_eqb (side n e) m) eqn:E3; [discriminate|]. intros X [= <-].
        rewrite (I _ _ _ E X), bytes_eqb_refl in E3. discriminate.
      * destruct (bytes_eqb (side n e) m); [discriminate|]. destruct (bytes_eqb (side n e) m'); [discriminate|]. apply I.
  - intros m. rewrite G. destruct (bytes_eqb n m); [discriminate|]. destruct (bytes_eqb (side n e) m); [discriminate|auto].
Qed.

Lemma allowed_snoc H mv c o os : forall st, all_allowed H mv c st (os ++ [o]) <->
  all_allowed H mv c st os /\ allowed H mv c (spec_run st os) o.
Proof.
  induction os as [|x os IH]; intros st; cbn [app all_allowed].
  - unfold spec_run. cbn [fold_left]. tauto.
  - rewrite IH. unfold spec_run. cbn [fold_left]. tauto.
Qed.

Lemma exec_snoc H mv behind n o os : forall st, exec H mv behind n st (os ++ [o]) =
  do st' <- exec H mv behind n st os; exec_step H mv behind n st' o.
Proof.
  induction os as [|x os IH]; intros st; cbn [app exec].
  - cbn [bind]. destruct (exec_step H mv behind n st o); reflexivity.
  - destruct (exec_step H mv behind n st x); cbn [bind]; auto.
Qed.

Section WithSha.
  Variable H : bytes -> bytes.
  Variable mv : byte.
  Variable behind : bytes -> bytes.
  Hypothesis HL : sha_ok H.

  Lemma resume a0 n x bs : good_config a0 -> fs_ok x -> f_faults x = [] -> clear a0 x n ->
    file_at x n = Some (history_file H mv bs) -> Forall ok_batch bs -> fits H mv bs ->
    resumes H mv behind a0 n (reboot x) bs.
  Proof.
    intros (G1 & G2) K Ff (Nd & Nb) E Fb Fi.
    destruct (open_file H mv behind HL (with_ctxs a0 []) x n bs) as (s' & a' & Eo & Sy); auto.
    exists s', a'. split; [exact Eo|]. split; [eapply synced_shows; eauto|]. intros os A.
    assert (Ec : a_chunk a' = a_chunk a0).
    { revert Eo. unfold open_db. cbn [with_ctxs a_ctxs existsb]. intros Eo.
      repeat match type of Eo with
      | context [match ?m with _ => _ end] => destruct m
      end; inversion Eo; reflexivity. }
    rewrite <- Ec in A.
    destruct (session_run H mv behind HL n os a' s' 0%Z bs [] Sy (Forall_nil _) A) as (a2 & s2 & id2 & E2 & Sy2 & _).
    exists (a2, s2, id2). split; [exact E2|]. eapply synced_shows; eauto.
  Qed.
End WithSha.
