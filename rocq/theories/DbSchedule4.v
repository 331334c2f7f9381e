(** Schedules in which something is lost. *)
From Coq Require Import List ZArith NArith Lia Bool.
From Coq Require Import Init.Byte Strings.Byte.
From Verif Require Import Base BaseLemmas HashModel HashProofs SpecHash HashTreeModel HashTreeProofs
  RefModel RefProofs SpecRef DbModel SpecDb DbRefProofs DbFsProofs DbCommitProofs DbOpenProofs DbApiProofs
  DbSession DbSessionProofs DbMoreProofs DbMultiProofs DbFrameProofs DbForgeProofs DbConcurrent DbConcurrentProofs
  DbScheduleProofs DbSchedule2 DbSchedule3.
Import ListNotations.

Lemma alone_det {A} (p : prog A) s p1 s1 xs : alone p s p1 s1 xs -> forall p2 s2 ys, alone p s p2 s2 ys ->
  length xs = length ys -> p1 = p2 /\ s1 = s2.
Proof.
  induction 1 as [p s|f s s1 p1 p' s' xs E A0 IH]; intros p2 s2 ys A1 L.
  - inversion A1; subst; auto. destruct xs; [inversion H0|discriminate L].
  - inversion A1 as [|? ? s3 p3 ? ? ys' E' A1']; subst.
    + destruct xs; [inversion A0|discriminate L].
    + rewrite E in E'. injection E' as <- <-. eapply IH; eauto.
Qed.

Lemma alone_snoc {A} (p : prog A) s f s' xs : alone p s (Step f) s' xs ->
  forall s'' p'', f s' = (s'', p'') -> alone p s p'' s'' (xs ++ [s'']).
Proof.
  remember (Step f) as q eqn:Eq. intros A0. revert Eq.
  induction A0 as [p s|g s s1 p1 p' s' xs E A0 IH]; intros -> s'' p'' Ef; cbn [app].
  - econstructor; [exact Ef|constructor].
  - econstructor; [exact E|]. now apply IH.
Qed.

Section Gap.
  Variable H : bytes -> bytes.
  Variable mv : byte.
  Hypothesis HL : forall x, length (H x) = 64.
  Variables (a : dbapp) (s : fsys) (n : bytes) (id : Z) (bs : list batch) (pd : list content) (now : Z).
  Variables (i h : nat) (r : reference) (s1 s6 s7 s8 s9 s10 : fsys) (d b : nat) (off : Z).
  Hypothesis P : parts H mv a s n id bs pd now i h r s1 s6 s7 s8 s9 s10 d b off.
  Notation dn := (side n (a_dst a)).
  Notation bn := (side n (a_bck a)).
  Notation c := (Ctx id n h (history_ref H mv bs) (zlen (header (history_ref H mv bs))) pd).
  Notation fuel := (S (length (history_file H mv bs))).
  Notation rest := (catch (after_gap a n off) (unlocking i)).
  Notation done := (finish a n id pd r).

  (** What is left to do when the file has been removed. *)
  Definition at_gap : prog dbapp := andthen rest done.

  Lemma to_gap : exists xs, alone (p_commit H mv now a s id) s at_gap s7 xs.
  Proof.
    rewrite (commit_prog H mv a s n id bs pd now i h r s1 s6 s7 s8 s9 s10 d b off P). unfold at_gap, andthen at 1.
    assert (X : exists xs, alone (update_database fuel a c r) s rest s7 xs).
    { unfold update_database.
      destruct (alone_then (call (sys_trylock (x_name c)))
        (fun lock => catch (swap_files fuel a c r) (fun o => Step (fun s => (sys_unlock lock s, Ret o)))) s s1 i) as (x1 & A1).
      { rewrite run_call. apply P. }
      destruct (alone_then (prepare_files fuel a c r) (replace_files a c) s1 s6 off) as (x2 & A2); [apply P|].
      destruct (alone_then (call (sys_remove (x_name c))) (fun _ => after_gap a n off) s6 s7 tt) as (x3 & A3).
      { rewrite run_call. apply P. }
      destruct (alone_trans _ _ _ _ _ A2 _ _ _ A3) as (x4 & A4).
      eapply alone_trans; [exact A1|]. exact (alone_catch (unlocking i) _ _ _ _ _ A4). }
    destruct X as (xs & X). exists xs. exact (alone_catch _ _ _ _ _ _ X).
  Qed.

  Lemma commit_last : dir_get (f_dir (sys_unlock i s10)) n = Some (EFile d) /\
    data_of (sys_unlock i s10) d = history_file H mv (bs ++ [(pd, now)]) /\
    dir_get (f_dir (sys_unlock i s10)) dn = None /\ dir_get (f_dir (sys_unlock i s10)) bn = None.
  Proof.
    assert (E : f_dir (sys_unlock i s10) = f_dir s9) by (rewrite (pa_s10 _ _ _ _ _ _ _ _ _ _ _ _ _ _ _ _ _ _ _ _ _ P); reflexivity).
    destruct (after_data H mv a s n id bs pd now i h r s1 s6 s7 s8 s9 s10 d b off P) as (_ & _ & _ & D).
    rewrite E, !(s9_dir H mv a s n id bs pd now i h r s1 s6 s7 s8 s9 s10 d b off P), !bytes_eqb_refl.
    rewrite (bytes_eqb_neq bn n), (bytes_eqb_neq n dn) by (apply side_neq || (intros X; symmetry in X; now apply side_neq in X)).
    split; [reflexivity|]. split; [|split; [destruct (bytes_eqb bn dn); reflexivity|reflexivity]].
    unfold data_of. change (f_data (sys_unlock i s10)) with (f_data s10). rewrite D. apply P.
  Qed.

  (** The rest of the commit in any state in which the destination and the backup are there and the name is
      free or stands for a file. *)
  Lemma gap_run t e k : dir_get (f_dir t) dn = Some (EFile e) -> dir_get (f_dir t) bn = Some (EFile k) ->
    dir_get (f_dir t) n <> Some EDir -> dn <> bn ->
    exists t' a', run at_gap t = (t', Ok a') /\
      (forall m, dir_get (f_dir t') m =
         if bytes_eqb bn m then None else if bytes_eqb n m then Some (EFile e) else if bytes_eqb dn m then None else dir_get (f_dir t) m) /\
      f_data t' = f_data t /\ f_faults t' = f_faults t.
  Proof.
    intros Ed Ek En Nd. unfold at_gap.
    assert (N1 : bytes_eqb n dn = false) by (apply bytes_eqb_neq; intros X; symmetry in X; now apply side_neq in X).
    assert (N2 : bytes_eqb n bn = false) by (apply bytes_eqb_neq; intros X; symmetry in X; now apply side_neq in X).
    assert (N3 : bytes_eqb dn bn = false) by now apply bytes_eqb_neq.
    assert (N4 : bytes_eqb bn n = false) by (apply bytes_eqb_neq, side_neq).
    set (t1 := with_dir t (dir_set (dir_del (f_dir t) dn) n (EFile e))).
    assert (R1 : sys_rename dn n t = (t1, Ok tt)).
    { unfold sys_rename. rewrite Ed. destruct (dir_get (f_dir t) n) as [[]|]; congruence || reflexivity. }
    set (t2 := with_dir t1 (dir_del (f_dir t1) bn)).
    assert (R2 : sys_remove bn t1 = (t2, Ok tt)).
    { unfold sys_remove. change (f_dir t1) with (dir_set (dir_del (f_dir t) dn) n (EFile e)) at 1.
      rewrite dir_get_set, dir_get_del, N2, N3, Ek. reflexivity. }
    assert (G2 : forall m, dir_get (f_dir t2) m =
      if bytes_eqb bn m then None else if bytes_eqb n m then Some (EFile e) else if bytes_eqb dn m then None else dir_get (f_dir t) m).
    { intros m. unfold t2, t1. cbn [with_dir f_dir]. now rewrite dir_get_del, dir_get_set, dir_get_del. }
    set (t3 := with_handles t2 (f_handles t2 ++ [Handle e 0 true])).
    assert (R3 : sys_open n t2 = (t3, Ok (length (f_handles t2)))).
    { unfold sys_open. rewrite G2, N4, bytes_eqb_refl. reflexivity. }
    exists (sys_unlock i t3). eexists. split; [|split; [exact G2|split; reflexivity]].
    assert (Ra : run (after_gap a n off) t = (t3, Ok (length (f_handles t2), off))).
    { unfold after_gap. erewrite run_then by (rewrite run_call; exact R1).
      erewrite run_then by (rewrite run_call; exact R2). erewrite run_then by (rewrite run_call; exact R3). reflexivity. }
    unfold andthen. rewrite run_catch, run_catch, Ra. reflexivity.
  Qed.
End Gap.

Section Lost.
  Variable H : bytes -> bytes.
  Variable mv : byte.
  Variable behind : bytes -> bytes.
  Hypothesis HL : forall x, length (H x) = 64.
  Variables (a : dbapp) (s : fsys) (n : bytes) (id : Z) (bs : list batch) (pd : list content) (now : Z).
  Hypothesis Sy : synced H mv a s n id bs pd.
  Hypothesis Wb : ok_batch (pd, now).
  Hypothesis Ft : fits H mv (bs ++ [(pd, now)]).
  Hypothesis Ch : chunk_ok (a_chunk a) (history_data bs).
  Notation new := (bs ++ [(pd, now)]).
  Notation dn := (side n (a_dst a)).
  Notation bn := (side n (a_bck a)).

  Lemma sides_differ : dn <> bn.
  Proof. destruct Sy as (i & h & (A1 & _) & _). intros X. apply side_inj in X. congruence. Qed.

  (** Commit in full. *)
  Lemma commit_whole i h r s1 s6 s7 s8 s9 s10 d b off : parts H mv a s n id bs pd now i h r s1 s6 s7 s8 s9 s10 d b off ->
    exists a', run (p_commit H mv now a s id) s = (sys_unlock i s10, Ok a').
  Proof.
    intros P. destruct (to_gap H mv a s n id bs pd now i h r s1 s6 s7 s8 s9 s10 d b off P) as (xs & A0).
    apply alone_states in A0 as (_ & ->). unfold at_gap, andthen. rewrite run_catch, run_catch.
    erewrite after_gap_run by exact P. eexists. reflexivity.
  Qed.

  (** Open in the gap fails. *)
  Lemma gap_error (b : dbapp) hs : existsb (fun x => bytes_eqb (x_name (snd x)) n) (a_ctxs b) = false ->
    exists w, later (World (p_commit H mv now a s id) (f_handles s) (p_open H mv behind b n) hs s) w /\
      w_second w = Ret Err /\ exists a', w_first w = Ret (Ok a').
  Proof.
    intros Nb. destruct (commit_parts H mv HL a s n id bs pd now Sy Wb Ft Ch) as (i & h & r & s1 & s6 & s7 & s8 & s9 & s10 & d & bk & off & P).
    set (w0 := World _ _ _ _ _).
    destruct (to_gap H mv a s n id bs pd now i h r s1 s6 s7 s8 s9 s10 d bk off P) as (xs & A0).
    pose proof (reach_now (p_commit H mv now a s id) (f_handles s) (p_open H mv behind b n) hs s) as R. fold w0 in R.
    eapply go_first in R; [|rewrite handles_eta; exact A0].
    assert (E : run (p_open H mv behind b n) (with_handles s7 hs) = (with_handles s7 hs, Err)).
    { unfold p_open. rewrite Nb. unfold p_retrieve, andthen. rewrite !run_catch, run_call. unfold sys_open.
      cbn [with_handles f_dir]. rewrite (s7_dir H mv a s n id bs pd now i h r s1 s6 s7 s8 s9 s10 d bk off P), bytes_eqb_refl. reflexivity. }
    destruct (alone_run (p_open H mv behind b n) (with_handles s7 hs)) as (ys & A1). rewrite E in A1. cbn [fst snd] in A1.
    eapply go_second in R; [|exact A1].
    destruct (alone_run (at_gap a n id pd i r off) s7) as (zs & A2).
    eapply go_first in R; [|change (with_handles (with_handles s7 hs) (f_handles s7)) with (with_handles s7 (f_handles s7));
      rewrite handles_eta; exact A2]. destruct R as (t & L & _). eexists. split; [exact L|]. split; [reflexivity|].
    unfold at_gap, andthen. cbn [w_first]. rewrite run_catch, run_catch. erewrite after_gap_run by exact P. eexists. reflexivity.
  Qed.

  (** The reference before the commit, the data after it. *)
  Lemma mixed_schedule (b : dbapp) hs : good_config b ->
    existsb (fun x => bytes_eqb (x_name (snd x)) n) (a_ctxs b) = false ->
    exists w a' b' id', later (World (p_commit H mv now a s id) (f_handles s) (p_open H mv behind b n) hs s) w /\
      w_first w = Ret (Ok a') /\ w_second w = Ret (Ok (b', id')) /\
      mixed H mv (b', with_handles (w_shared w) (w_files2 w), id') a id bs new.
  Proof.
    intros Gb Nb. pose proof Gb as (G1 & G2).
    destruct (commit_parts H mv HL a s n id bs pd now Sy Wb Ft Ch) as (i & h & r & s1 & s6 & s7 & s8 & s9 & s10 & d & bk & off & P).
    destruct (new_ok H mv a s n id bs pd now Sy Wb) as (F1 & T1 & F2).
    set (w0 := World _ _ _ _ _).
    pose proof (reach_now (p_commit H mv now a s id) (f_handles s) (p_open H mv behind b n) hs s) as R. fold w0 in R.
    destruct (watch_alone _ (quiet_p_retrieve H mv behind (a_chunk b) n) s hs) as (W & Eq).
    destruct (run (p_retrieve H mv behind (a_chunk b) n) (with_handles s hs)) as [t o] eqn:Er. cbn [fst snd] in W, Eq.
    assert (St : steady n [s]).
    { intros pre x post j y Ex _ Iy. destruct pre as [|? pre]; [|destruct pre; discriminate Ex].
      injection Ex as <- <-. destruct Iy as [<-|[]]. reflexivity. }
    apply watch_retrieve in W as (pre & x & post & Ex & M); auto.
    destruct pre as [|? pre]; [|destruct pre; discriminate Ex]. injection Ex as <- <-.
    rewrite (pa_name _ _ _ _ _ _ _ _ _ _ _ _ _ _ _ _ _ _ _ _ _ P) in M. destruct M as (-> & Eh & _).
    rewrite (pa_data _ _ _ _ _ _ _ _ _ _ _ _ _ _ _ _ _ _ _ _ _ P) in Er.
    rewrite (retrieve_file H mv behind HL) in Er by auto.
    eapply alone_then in Er as (xs & A0).
    assert (A1 : alone (p_open H mv behind b n) (with_handles s hs)
      (let* conn <- call (sys_open n); Ret (Ok (opened b n conn (history_ref H mv bs, zlen (header (history_ref H mv bs))), zlen (a_ctxs b)))) t xs).
    { unfold p_open. rewrite Nb. exact A0. }
    clear A0. eapply go_second in R; [|exact A1].
    destruct (commit_whole i h r s1 s6 s7 s8 s9 s10 d bk off P) as (a' & Ec).
    destruct (alone_run (p_commit H mv now a s id) s) as (ys & A2). rewrite Ec in A2. cbn [fst snd] in A2.
    assert (Eb : with_handles t (f_handles s) = s).
    { rewrite Eq. change (with_handles s (f_handles s) = s). apply handles_eta. }
    eapply go_first in R; [|rewrite Eb; exact A2].
    set (z := sys_unlock i s10) in *.
    destruct (commit_last H mv a s n id bs pd now i h r s1 s6 s7 s8 s9 s10 d bk off P) as (Ld & Lf & _). fold z in Ld, Lf.
    assert (E3 : run (let* conn <- call (sys_open n); Ret (Ok (opened b n conn (history_ref H mv bs, zlen (header (history_ref H mv bs))), zlen (a_ctxs b))))
       (with_handles z (f_handles t)) =
      (with_handles z (f_handles t ++ [Handle d 0 true]),
       Ok (opened b n (length (f_handles t)) (history_ref H mv bs, zlen (header (history_ref H mv bs))), zlen (a_ctxs b)))).
    { unfold andthen. rewrite run_catch, run_call. unfold sys_open. change (f_dir (with_handles z (f_handles t))) with (f_dir z).
      rewrite Ld. reflexivity. }
    match type of E3 with run ?p ?x = _ => destruct (alone_run p x) as (zs & A3) end.
    rewrite E3 in A3. cbn [fst snd] in A3. eapply go_second in R; [|exact A3].
    destruct R as (u & L & Al). eexists _, a', _, _. split; [exact L|]. split; [reflexivity|]. split; [reflexivity|].
    cbn [w_shared w_files2]. rewrite (alike_handles _ _ _ Al). cbn [with_handles f_handles].
    eapply (opened_mixed H mv a n id bs pd now Ft b _ _ d h); [apply P|apply nth_error_end|exact Lf].
  Qed.
End Lost.

(** ** A commit whose destination file was taken away *)
Definition after_create (fuel : nat) (a : dbapp) (c : ctx) (r : reference) (dst : nat) : prog Z :=
  let* _ <- p_write dst 0 (reference_to_content r);
  let* woff <-
    match x_ref c with
    | None => Ret (Ok (length (reference_to_content r)))
    | Some _ =>
      let* size <- call (fun s => (s,
        match nth_error (f_handles s) (x_conn c) with
        | Some (Handle i _ true) => Ok (zlen (data_of s i))
        | _ => Panic
        end));
      let chunk := make_chunk (a_chunk a) (u64 (size - x_off c)) in
      if (two63 <=? chunk)%Z then Ret Panic
      else copy_loop fuel (x_conn c) chunk (x_off c) dst (length (reference_to_content r))
    end;
  let* _ <- write_pending dst woff (x_pending c);
  Ret (Ok (zlen (reference_to_content r))).

Definition after_destination (a : dbapp) (c : ctx) (off : Z) : prog Z :=
  let* bck <- call (sys_create (side (x_name c) (a_bck a)));
  let* _ <- p_copy bck (x_conn c);
  let* _ <- call (sys_close (x_conn c));
  Ret (Ok off).

Lemma straggler fuel a c r i d k t : a_dst a <> a_bck a ->
  length (data_of t i) < fuel -> d < length (f_data t) -> i < length (f_data t) -> d <> i -> data_of t d = [] ->
  (zlen (data_of t i) < two63)%Z ->
  (x_ref c <> None -> (0 < a_chunk a)%Z /\ (0 <= x_off c < zlen (data_of t i))%Z) ->
  f_faults t = [] -> nth_error (f_handles t) (x_conn c) = Some (Handle i 0 true) ->
  dir_get (f_dir t) (x_name c) = Some (EFile d) -> nothing_at t (side (x_name c) (a_dst a)) ->
  nothing_at t (side (x_name c) (a_bck a)) ->
  exists t', run (catch (andthen (andthen (after_create fuel a c r d) (after_destination a c)) (replace_files a c)) (unlocking k)) t = (t', Err) /\
    nothing_at t' (x_name c) /\ nothing_at t' (side (x_name c) (a_dst a)) /\
    file_at t' (side (x_name c) (a_bck a)) = Some (data_of t i).
Proof.
  intros Nc Lf Ld Li Nd Ed Lo Hr Ff Eh Gn Gd Gb. set (n := x_name c) in *. set (dn := side n (a_dst a)) in *. set (bn := side n (a_bck a)) in *.
  unfold nothing_at in *.
  assert (N1 : bytes_eqb bn n = false) by (apply bytes_eqb_neq, side_neq).
  assert (N2 : bytes_eqb bn dn = false) by (apply bytes_eqb_neq; intros X; apply side_inj in X; congruence).
  assert (N3 : bytes_eqb n dn = false) by (apply bytes_eqb_neq; intros X; symmetry in X; now apply side_neq in X).
  assert (N4 : bytes_eqb n bn = false) by (apply bytes_eqb_neq; intros X; symmetry in X; now apply side_neq in X).
  set (t1 := set_data t d (newfile a c r t i)).
  assert (R1 : run (after_create fuel a c r d) t = (t1, Ok (zlen (reference_to_content r)))).
  { assert (T : tri (after_create fuel a c r d) t (fun _ => True) (fun x o => x = t1 /\ o = Ok (zlen (reference_to_content r)))).
    { apply (destination_tri a c r t i); auto. split; [exact Li|].
      fold n. fold dn. fold bn. rewrite Gd, Gb. split; discriminate. }
    apply tri_run in T as (T1 & T2). destruct (run _ t) as [x o]. cbn [fst snd] in *. congruence. }
  set (b := length (f_data t1)).
  assert (Lt1 : length (f_data t1) = length (f_data t)) by apply set_nth_length.
  set (t2 := with_data (with_dir t1 (dir_set (f_dir t1) bn (EFile b))) (f_data t1 ++ [[]])).
  assert (R2 : sys_create bn t1 = (t2, Ok b)) by (unfold sys_create; change (f_dir t1) with (f_dir t) at 1; rewrite Gb; reflexivity).
  assert (Di2 : data_of t2 i = data_of t i).
  { change (nth i (f_data t1 ++ [[]]) [] = data_of t i). rewrite app_nth1 by lia.
    change (data_of t1 i = data_of t i). unfold t1. now rewrite data_set_other by auto. }
  assert (Db2 : data_of t2 b = []).
  { change (nth b (f_data t1 ++ [[]]) [] = []). rewrite app_nth2 by (unfold b; lia). unfold b. now rewrite Nat.sub_diag. }
  assert (Lb2 : b < length (f_data t2)) by (cbn [t2 with_data f_data]; rewrite app_length; cbn [length]; unfold b; lia).
  set (old := data_of t i) in *.
  set (hs := set_nth (f_handles t) (x_conn c) (Handle i (length old) true)).
  set (t3 := with_handles t2 hs).
  assert (R3 : run (p_copy b (x_conn c)) t2 = (set_data t3 b old, Ok tt)).
  { unfold p_copy. erewrite run_then.
    2:{ rewrite run_call. change (f_handles t2) with (f_handles t). rewrite Eh. cbn [skipn Nat.add]. rewrite Di2. reflexivity. }
    fold hs. fold t3.
    assert (T : tri (match old with [] => Ret (Ok tt) | _ => p_write b 0 old end) (set_data t3 b [])
       (fun _ => True) (fun x o => x = set_data t3 b old /\ o = Ok tt)) by (apply tri_copy; auto).
    assert (W : set_data t3 b [] = t3).
    { rewrite <- (set_data_id t3 b) at 2. f_equal. symmetry. exact Db2. }
    rewrite W in T. apply tri_run in T as (T1 & T2). destruct (run _ t3) as [x o]. cbn [fst snd] in *. congruence. }
  set (t4 := set_data t3 b old) in *.
  assert (Lc : x_conn c < length (f_handles t)) by (apply nth_error_Some; congruence).
  set (t5 := with_handles t4 (set_nth (f_handles t4) (x_conn c) (Handle i (length old) false))).
  assert (R4 : sys_close (x_conn c) t4 = (t5, Ok tt)).
  { unfold sys_close. change (f_handles t4) with hs. unfold hs. rewrite nth_error_set_nth by auto. now rewrite Nat.eqb_refl. }
  assert (G5 : forall m, dir_get (f_dir t5) m = if bytes_eqb bn m then Some (EFile b) else dir_get (f_dir t) m).
  { intros m. change (f_dir t5) with (dir_set (f_dir t) bn (EFile b)). now rewrite dir_get_set. }
  set (t6 := with_dir t5 (dir_del (f_dir t5) n)).
  assert (R5 : sys_remove n t5 = (t6, Ok tt)) by (unfold sys_remove; rewrite G5, N1, Gn; reflexivity).
  assert (G6 : forall m, dir_get (f_dir t6) m = if bytes_eqb n m then None else if bytes_eqb bn m then Some (EFile b) else dir_get (f_dir t) m).
  { intros m. unfold t6. cbn [with_dir f_dir]. now rewrite dir_get_del, G5. }
  assert (R6 : sys_rename dn n t6 = (t6, Err)) by (unfold sys_rename; rewrite G6, N3, N2, Gd; reflexivity).
  exists (sys_unlock k t6). split; [|split; [|split]].
  - assert (R7 : run (andthen (after_create fuel a c r d) (after_destination a c)) t = (t5, Ok (zlen (reference_to_content r)))).
    { erewrite run_then by exact R1. unfold after_destination. fold n. fold bn.
      erewrite run_then by (rewrite run_call; exact R2). erewrite run_then by exact R3.
      erewrite run_then by (rewrite run_call; exact R4). reflexivity. }
    assert (R8 : run (replace_files a c (zlen (reference_to_content r))) t5 = (t6, Err)).
    { unfold replace_files. fold n. fold dn. erewrite run_then by (rewrite run_call; exact R5).
      unfold andthen at 1. rewrite run_catch, run_call, R6. reflexivity. }
    rewrite run_catch. erewrite run_then by exact R7. rewrite R8. reflexivity.
  - change (dir_get (f_dir t6) n = None). rewrite G6. now rewrite bytes_eqb_refl.
  - change (dir_get (f_dir t6) dn = None). now rewrite G6, N3, N2.
  - unfold file_at. change (f_dir (sys_unlock k t6)) with (f_dir t6). rewrite G6, N4, bytes_eqb_refl.
    change (nth b (f_data (sys_unlock k t6)) []) with (data_of t4 b). unfold t4. now rewrite data_set_same by exact Lb2.
Qed.
