(** Property theorems for lookups in the file database (C122, C123). *)
From Coq Require Import List ZArith NArith Lia Bool.
From Coq Require Import Init.Byte Strings.Byte.
From Verif Require Import Base BaseLemmas HashModel HashProofs SpecHash HashTreeModel HashTreeProofs
  RefModel RefProofs SpecRef DbModel SpecDb DbRefProofs DbFsProofs DbCommitProofs DbOpenProofs DbApiProofs
  DbSession DbSessionProofs DbMoreProofs DbHistoryProofs PropHash PropDb.
Import ListNotations.

(** *** C122 *)
(** In any application: the last commit listed with the hash, and an error exactly if there is none. *)
Theorem C122_commit_by_hash_finds_a_listed_commit : forall a id,
  (forall cs, commits_db a id = Ok cs -> forall h,
     (exists c, commit_by_hash a id h = Ok c /\ last_such (fun c => c_hash c = h) cs c) \/
     (commit_by_hash a id h = Err /\ Forall (fun c => c_hash c <> h) cs)) /\
  (commits_db a id = Err -> forall h, commit_by_hash a id h = Err).
Proof.
  intros a id. unfold commit_by_hash. split.
  - intros cs E h. rewrite E. cbn [bind]. apply commits_fetch_spec.
  - intros E h. now rewrite E.
Qed.
Print Assumptions C122_commit_by_hash_finds_a_listed_commit.

(** In a session every commit is found by its hash, and from each commit its parent is found:
    the one before it. *)
Theorem C122_history_can_be_walked : forall H mv behind, sha_ok H ->
  forall a0 n s0 os a s id cs, session H mv behind a0 n s0 os (a, s, id) -> commits_db a id = Ok cs ->
  ((forall c, In c cs -> commit_by_hash a id (c_hash c) = Ok c) /\
   (forall c, hd_error cs = Some c -> c_parent c = None) /\
   (forall before p c after, cs = before ++ p :: c :: after ->
      exists h, c_parent c = Some h /\ commit_by_hash a id h = Ok p)) \/
  collide H (fun x => exists c, In c cs /\ commit_input c x) (fun y => exists c, In c cs /\ commit_input c y).
Proof.
  intros H mv behind HL a0 n s0 os a s id cs S E.
  destruct (session_synced H mv behind HL _ _ _ _ _ _ _ S) as (Sy & _).
  pose proof (synced_commits _ _ _ _ _ _ _ _ Sy) as Ec.
  assert (Ecs : cs = chain H mv None (committed os)) by (destruct (committed os); congruence).
  destruct Sy as (i & h & (_ & _ & _ & _ & _ & _ & _ & _ & _ & Ob & _) & _).
  assert (L : linked H None (committed os) cs) by (rewrite Ecs; now apply chain_linked).
  assert (W : Forall (wf_commit H mv) cs) by (rewrite Ecs; apply chain_wf; auto; discriminate).
  set (P := collide H _ _).
  assert (D : P \/ forall i j c d, nth_error cs i = Some c -> nth_error cs j = Some d -> c_hash c = c_hash d -> i = j).
  { pose proof (history_distinct H mv _ _ L W) as D. fold P in D. clear - D.
    destruct (walk_dec cs) as [Y|(i & j & c & d & Ei & Ej & E & N)]; [now right|left].
    destruct (D i j c d Ei Ej E); auto. contradiction. }
  destruct D as [C|D]; [now right|left].
  assert (F : forall c, In c cs -> commit_by_hash a id (c_hash c) = Ok c).
  { intros c Ic. apply In_nth_error in Ic as (k & Ek). unfold commit_by_hash. rewrite E. cbn [bind].
    eapply fetch_distinct; eauto. }
  split; [exact F|]. split.
  - intros c Ehd. destruct cs as [|x cs]; [discriminate|]. injection Ehd as ->. now apply linked_first in L.
  - intros before p c after Es.
    destruct (linked_next _ _ _ _ L (length before) c) as (b & Nb & Eb).
    { rewrite Es, nth_error_app2 by lia. replace (_ - _) with 1 by lia. reflexivity. }
    rewrite Es, nth_error_app2, Nat.sub_diag in Nb by lia. injection Nb as <-.
    exists (c_hash p). split; auto. apply F. rewrite Es. apply in_app_iff. right. now left.
Qed.
Print Assumptions C122_history_can_be_walked.

(** Three commits; the toy hash gives them different hashes. *)
Example C122_ex : let '(a, s, id) := ex_state (ex_run 100 ex_ops) in
  match commits_db a id with
  | Ok [c1; c2; c3] =>
    commit_by_hash a id (c_hash c2) = Ok c2 /\ c_parent c3 = Some (c_hash c2) /\
    commit_by_hash a id (repeat x00 64) = Err
  | _ => False
  end.
Proof. rewrite ex_at. vm_compute. repeat split. Qed.

(** *** C123 *)
(** In any state of the application and the files. *)
Theorem C123_reading_many_is_reading_each : forall a s id,
  in_turn (read_db a s id) (read_all a s id) /\
  in_turn (read_by_hash a s id) (read_all_by_hashes a s id).
Proof. intros a s id. split; apply turns; reflexivity. Qed.
Print Assumptions C123_reading_many_is_reading_each.

(** In a session: the data written last under each hash, or an error if one was never written. *)
Theorem C123_many_hashes_are_read_back : forall H mv behind, sha_ok H ->
  forall a0 n s0 os a s id, session H mv behind a0 n s0 os (a, s, id) ->
  forall hs,
  (forall cts, Forall2 (fun h ct => last_such (fun c => ct_hash c = h) (history_contents (committed os)) ct) hs cts ->
     read_all_by_hashes a s id hs = Ok (map ct_data cts)) /\
  ((exists h, In h hs /\ Forall (fun c => ct_hash c <> h) (history_contents (committed os))) ->
     read_all_by_hashes a s id hs = Err).
Proof.
  intros H mv behind HL a0 n s0 os a s id S hs.
  destruct (session_synced H mv behind HL _ _ _ _ _ _ _ S) as (Sy & _).
  pose proof (synced_shows H mv behind HL _ _ _ _ _ _ Sy) as (_ & _ & Found & Missing).
  split.
  - intros cts F. induction F as [|h ct hs cts L F IH]; [reflexivity|].
    cbn [read_all_by_hashes map]. rewrite (Found _ _ L). cbn [bind]. now rewrite IH.
  - induction hs as [|h hs IH]; intros (x & [] & M); cbn [read_all_by_hashes].
    + subst x. now rewrite (Missing _ M).
    + assert (R : read_by_hash a s id h = Err \/ exists b, read_by_hash a s id h = Ok b).
      { destruct (last_or_none h (history_contents (committed os))) as [(ct & L)|N]; [right|left]; eauto. }
      destruct R as [->|(b & ->)]; [reflexivity|]. cbn [bind]. rewrite IH; eauto.
Qed.
Print Assumptions C123_many_hashes_are_read_back.

Example C123_ex : let '(a, s, id) := ex_state (ex_run 100 ex_ops) in
  read_all_by_hashes a s id [ex_h x04; ex_h x01] = Ok [[x1c]; [x1a; x1b]] /\
  read_all_by_hashes a s id [ex_h x04; ex_h x03] = Err.
Proof. rewrite ex_at. vm_compute. repeat split. Qed.
