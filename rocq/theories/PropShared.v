(** Property theorems for memory shared with the file database (C127). *)
From Coq Require Import List ZArith NArith Lia Bool.
From Coq Require Import Init.Byte Strings.Byte.
From Verif Require Import Base BaseLemmas HashModel HashProofs SpecHash HashTreeModel HashTreeProofs
  RefModel RefProofs SpecRef DbModel SpecDb DbRefProofs DbFsProofs DbCommitProofs DbOpenProofs DbApiProofs
  DbSession DbSessionProofs DbMoreProofs DbShared DbSharedProofs PropHash PropDb.
Import ListNotations.

(** *** C127 *)
(** Any session can be carried out, and shows for each commit the bytes the memory had at that commit. *)
Theorem C127_commits_take_the_bytes_of_the_moment : forall H mv behind, sha_ok H ->
  forall a0 n s0 mem os, good_config a0 -> calm s0 -> clear a0 s0 n -> nothing_at s0 n ->
  all_shared_allowed H mv (a_chunk a0) ([], [], mem) os ->
  exists st mem', shared_session H mv behind a0 n s0 mem os st mem' /\ shows H st (shared_committed mem os).
Proof.
  intros H mv behind HL a0 n s0 mem os G C Cl E A. unfold shared_committed.
  destruct (shared_spec mem os) as [[bs rs] mem'] eqn:Es.
  destruct (shared_start H mv behind HL a0 n s0 mem os G C Cl E A _ _ _ Es) as (st0 & a & s & id & E0 & E1 & S).
  exists (a, s, id), mem'. split.
  - repeat (split; [assumption|]). exists st0, rs. split; assumption.
  - eapply synced_shows; eauto.
Qed.
Print Assumptions C127_commits_take_the_bytes_of_the_moment.

(** What was in the memory at Write does not matter: bytes stored there before the commit are what is
    read back under the hash given to Write. *)
Theorem C127_write_takes_the_bytes_given_refuted : forall H mv behind, sha_ok H ->
  forall a0 n s0 mem os h off other k now st mem',
  shared_session H mv behind a0 n s0 mem (os ++ [SWrite h off (length other) k; SStore off other; SCommit now]) st mem' ->
  let '(a, s, id) := st in read_by_hash a s id h = Ok other.
Proof.
  intros H mv behind HL a0 n s0 mem os h off other k now [[a s] id] mem' (G & C & Cl & E & A & st0 & rs & E0 & E1).
  pose proof A as A'.
  destruct (shared_spec mem (os ++ [SWrite h off (length other) k; SStore off other; SCommit now])) as [[bs rs2] mem2] eqn:Es.
  destruct (shared_start H mv behind HL a0 n s0 mem _ G C Cl E A _ _ _ Es) as (st1 & a1 & s1 & id1 & E2 & E3 & S).
  rewrite E2 in E0. injection E0 as <-. rewrite E3 in E1. injection E1 as -> -> -> -> ->.
  pose proof (synced_shows H mv behind HL _ _ _ _ _ _ S) as (_ & _ & Found & _).
  unfold shared_spec in Es. rewrite fold_left_app in Es.
  assert (R : forall st os, all_shared_allowed H mv (a_chunk a0) st (os ++ [SWrite h off (length other) k; SStore off other; SCommit now]) ->
              let '(_, _, m) := fold_left shared_spec_step os st in off + length other <= length m).
  { intros st' os'. revert st'. induction os' as [|o os' IH]; intros st'.
    - destruct st' as [[b r] m]. cbn [app all_shared_allowed shared_allowed]. intros ((_ & _ & X & _) & _). exact X.
    - cbn [app all_shared_allowed fold_left]. intros (_ & X). now apply IH. }
  specialize (R _ _ A'). destruct (fold_left shared_spec_step os ([], [], mem)) as [[b r] m] eqn:Ef.
  cbn [fold_left shared_spec_step] in Es. injection Es as <- <- <-.
  apply (Found h (Content h other k)).
  exists (history_contents b ++ view (store m off other) r), []. split; [|split; [reflexivity|constructor]].
  unfold history_contents. rewrite map_app, concat_app. cbn [map concat fst]. rewrite app_nil_r, <- app_assoc. f_equal.
  unfold view. rewrite map_app. cbn [map]. now rewrite cut_store.
Qed.
Print Assumptions C127_write_takes_the_bytes_given_refuted.

(** A buffer of two bytes is used for two contents; the pending contents are committed again later. *)
Definition ex_shared : list shared_op :=
  [SWrite (ex_h x01) 0 2 7; SStore 0 [x1a; x1b]; SWrite (ex_h x02) 0 2 7; SCommit 5; SStore 1 [x1c]; SCommit 6].
Example C127_allowed : all_shared_allowed toy_sha x00 100 ([], [], [x0a; x0b; x0c]) ex_shared.
Proof.
  unfold ex_shared.
  repeat match goal with
  | |- all_shared_allowed _ _ _ _ (_ :: _) => refine (conj _ _); [|cbn [shared_spec_step]]
  | |- all_shared_allowed _ _ _ _ [] => exact Logic.I
  | |- True => exact Logic.I
  | |- shared_allowed _ _ _ _ _ => cbn [shared_allowed app]
  | |- _ /\ _ => refine (conj _ _)
  | |- length _ = _ => reflexivity
  | |- _ <> _ => discriminate
  | |- fits _ _ _ => unfold fits; decide_z
  | |- chunk_ok _ _ => refine (conj _ _); [decide_z|left; decide_z]
  | |- (_ <= _)%Z => decide_z
  | |- (_ < _)%Z => decide_z
  | |- (_ <= _)%nat => cbn; lia
  | |- (_ < _)%nat => cbn; lia
  end.
Qed.
Example C127_ex :
  match start toy_sha x00 no_behind (ex_app 100) ex_name ex_fs with
  | Ok st =>
    match shared_exec toy_sha x00 no_behind ex_name (st, [], [x0a; x0b; x0c]) ex_shared with
    | Ok (a, s, id, _, _) =>
      read_by_hash a s id (ex_h x01) = Ok [x1a; x1c] /\
      map (fun b => map ct_data (fst b)) (shared_committed [x0a; x0b; x0c] ex_shared) =
        [[[x1a; x1b]; [x1a; x1b]]; [[x1a; x1c]; [x1a; x1c]]]
    | _ => False
    end
  | _ => False
  end.
Proof. vm_compute. split; reflexivity. Qed.
