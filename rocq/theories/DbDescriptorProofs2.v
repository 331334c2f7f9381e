(** Descriptors: Commit, Open, Close and Read that run alone. *)
From Coq Require Import List ZArith NArith Lia Bool.
From Coq Require Import Init.Byte Strings.Byte.
From Verif Require Import Base BaseLemmas HashModel HashTreeModel RefModel DbModel DbConcurrent DbThreads SpecThreads DbThreadProofs DbThreadProofs2
  DbDescriptors SpecDescriptors DbDescriptorProofs.
Import ListNotations.

Lemma open_lock_run n q : let s := m_fs (q_mem q) in
  match dir_get (f_dir s) n with
  | Some EDir => d_run (d_open_lock n) q = (q, Err)
  | e => exists q' i s', d_run (d_open_lock n) q = (q', Ok (lowest (q_table q))) /\ q_mem q' = on_fs (q_mem q) s' /\
      q_files q' = q_files q /\ q_locks q' = q_locks q /\
      match e with
      | Some (EFile j) => i = j /\ s' = s
      | _ => i = length (f_data s) /\ s' = with_data (with_dir s (dir_set (f_dir s) n (EFile i))) (f_data s ++ [[]])
      end /\
      forall j, fd_get (q_table q') j = if Nat.eqb (lowest (q_table q)) j then Some (Desc i None false) else fd_get (q_table q) j
  end.
Proof.
  cbv zeta. unfold d_open_lock. rewrite d_run_call. destruct (dir_get (f_dir (m_fs (q_mem q))) n) as [[i|]|] eqn:E; [|reflexivity|]; cbn [take].
  - exists (with_table q (fd_put (q_table q) (lowest (q_table q)) (Desc i None false))), i, (m_fs (q_mem q)). split; [reflexivity|]. split; [now rewrite on_fs_same|].
    repeat split; auto. intros j. apply fd_get_put.
  - eexists _, _, _. split; [reflexivity|]. repeat split; auto. intros j. apply fd_get_put.
Qed.

Lemma trylock_run p n q : (dir_get (f_dir (m_fs (q_mem q))) n = None -> forall i, In i (f_locks (m_fs (q_mem q))) -> i < length (f_data (m_fs (q_mem q)))) ->
  let (s', o) := sys_trylock n (m_fs (q_mem q)) in
  exists q', d_run (d_trylock p n) q = (q', do _ <- o; Ok tt) /\ q_mem q' = on_fs (q_mem q) s' /\ q_files q' = q_files q /\
    match o with
    | Ok i => lock_number q' p = lowest (q_table q) /\
        forall j, fd_get (q_table q') j = if Nat.eqb (lowest (q_table q)) j then Some (Desc i None true) else fd_get (q_table q) j
    | _ => o = Err /\ (forall j, fd_get (q_table q') j = fd_get (q_table q) j) /\
        (dir_get (f_dir (m_fs (q_mem q))) n <> Some EDir -> lock_number q' p = lowest (q_table q))
    end.
Proof.
  intros Lk. pose proof (open_lock_run n q) as Op. cbv zeta in Op. unfold d_trylock, sys_trylock. rewrite d_run_bind.
  assert (G : forall q1 i s1, d_run (d_open_lock n) q = (q1, Ok (lowest (q_table q))) -> q_mem q1 = on_fs (q_mem q) s1 ->
    q_files q1 = q_files q -> q_locks q1 = q_locks q ->
    (forall j, fd_get (q_table q1) j = if Nat.eqb (lowest (q_table q)) j then Some (Desc i None false) else fd_get (q_table q) j) ->
    exists q2, d_run (d* _ <- d_set_lock p (lowest (q_table q));
      d_catch (d_flock p) (fun o => match o with Ok _ => DRet (Ok tt) | _ => d_catch (d_close_lock p) (fun _ => DRet Err) end)) q1
      = (q2, if existsb (Nat.eqb i) (f_locks s1) then Err else Ok tt) /\ q_files q2 = q_files q /\ lock_number q2 p = lowest (q_table q) /\
      if existsb (Nat.eqb i) (f_locks s1) then q_mem q2 = on_fs (q_mem q) s1 /\ forall j, fd_get (q_table q2) j = fd_get (q_table q) j
      else q_mem q2 = on_fs (q_mem q) (with_locks s1 (i :: f_locks s1)) /\
        forall j, fd_get (q_table q2) j = if Nat.eqb (lowest (q_table q)) j then Some (Desc i None true) else fd_get (q_table q) j).
  { intros q1 i s1 _ M1 F1 L1 T1. rewrite d_run_bind. unfold d_set_lock. rewrite d_run_call.
    set (k := lowest (q_table q)) in *. set (q1' := with_fds q1 ((p, k) :: num_del (q_locks q1) p)).
    assert (Ln : lock_number q1' p = k) by (unfold lock_number, q1'; cbn [with_fds q_locks num_get]; now rewrite Nat.eqb_refl).
    rewrite d_run_catch. unfold d_flock. rewrite d_run_call. rewrite Ln.
    assert (Tk : fd_get (q_table q1') k = Some (Desc i None false)) by (unfold q1'; cbn [with_fds q_table]; now rewrite T1, Nat.eqb_refl).
    rewrite Tk. cbn [d_lock d_ino d_handle].
    assert (Ms : m_fs (q_mem q1') = s1) by (unfold q1'; cbn [with_fds q_mem]; now rewrite M1). rewrite Ms.
    destruct (existsb (Nat.eqb i) (f_locks s1)).
    - cbn [fst snd]. rewrite d_run_catch. unfold d_close_lock. rewrite d_run_call. rewrite Ln.
      destruct (drop_plain q1' k i Tk) as (q2 & -> & M2 & F2 & L2 & T2). cbn [fst snd d_run]. exists q2. split; [reflexivity|].
      split; [rewrite F2; exact F1|]. split; [unfold lock_number in *; now rewrite L2|]. split; [rewrite M2; exact M1|].
      intros j. rewrite T2. unfold q1'. cbn [with_fds q_table]. rewrite T1. destruct (Nat.eqb_spec k j) as [<-|]; [|reflexivity]. symmetry. unfold k. apply lowest_free.
    - cbn [fst snd d_run]. eexists. split; [reflexivity|]. split; [exact F1|]. split; [exact Ln|]. split.
      + unfold q1'. cbn [on_files on_mem with_table with_fds q_mem]. rewrite M1. reflexivity.
      + intros j. cbn [on_files on_mem with_table q_table]. rewrite fd_get_set by (rewrite Tk; discriminate).
        unfold q1'. cbn [with_fds q_table]. destruct (Nat.eqb_spec k j) as [|Nk]; [reflexivity|]. rewrite T1. destruct (Nat.eqb_spec k j); [contradiction|reflexivity]. }
  destruct (dir_get (f_dir (m_fs (q_mem q))) n) as [[j|]|] eqn:Ed.
  - destruct Op as (q1 & i & s1 & R1 & M1 & F1 & L1 & (-> & ->) & T1). destruct (G q1 j _ R1 M1 F1 L1 T1) as (q2 & E2 & F2 & Ln & Rest).
    rewrite R1, E2. destruct (existsb (Nat.eqb j) (f_locks (m_fs (q_mem q)))).
    + exists q2. destruct Rest as (M2 & T2). repeat split; auto.
    + exists q2. destruct Rest as (M2 & T2). repeat split; auto.
  - rewrite Op. exists q. rewrite on_fs_same. repeat split; auto. congruence.
  - destruct Op as (q1 & i & s1 & R1 & M1 & F1 & L1 & (-> & ->) & T1).
    destruct (G q1 (length (f_data (m_fs (q_mem q)))) _ R1 M1 F1 L1 T1) as (q2 & E2 & F2 & Ln & Rest).
    rewrite R1, E2. cbn [with_data with_dir f_locks] in *.
    assert (X : existsb (Nat.eqb (length (f_data (m_fs (q_mem q))))) (f_locks (m_fs (q_mem q))) = false).
    { apply not_true_is_false. intros X. apply existsb_exists in X as (y & Iy & Ey). apply Nat.eqb_eq in Ey. specialize (Lk eq_refl y Iy). lia. }
    rewrite X in *. exists q2. destruct Rest as (M2 & T2). repeat split; auto.
Qed.

Lemma drop_lock q k i : fd_get (q_table q) k = Some (Desc i None true) ->
  exists q', drop_number k q = (q', Ok tt) /\ q_mem q' = on_fs (q_mem q) (sys_unlock i (m_fs (q_mem q))) /\ q_files q' = q_files q /\ q_locks q' = q_locks q /\
    forall j, fd_get (q_table q') j = if Nat.eqb k j then None else fd_get (q_table q) j.
Proof.
  intros E. unfold drop_number. rewrite E. cbn [d_handle d_lock d_ino]. eexists. split; [reflexivity|].
  repeat split. intros j. apply fd_get_set. congruence.
Qed.

(** Locks are held on files that are there. *)
Definition locks_ok (s : fsys) : Prop := forall i, In i (f_locks s) -> i < length (f_data s).

Section Commit.
  Variable H : bytes -> bytes.
  Variable mv : byte.
  Variable behind : bytes -> bytes.
  Variable a : dbapp.

  Lemma numbered_more q q' k d : q_files q' = q_files q -> (forall h i, open_at (m_fs (q_mem q')) h i <-> open_at (m_fs (q_mem q)) h i) ->
    fd_get (q_table q) k = None -> (forall j, fd_get (q_table q') j = if Nat.eqb k j then Some d else fd_get (q_table q) j) -> numbered q -> numbered q'.
  Proof.
    intros F O Fr T. apply numbered_ext; auto. intros j e h E _. rewrite T. destruct (Nat.eqb_spec k j) as [<-|]; [congruence|exact E].
  Qed.
  Lemma numbered_less q q' k d : q_files q' = q_files q -> (forall h i, open_at (m_fs (q_mem q')) h i <-> open_at (m_fs (q_mem q)) h i) ->
    fd_get (q_table q) k = Some d -> d_handle d = None -> (forall j, fd_get (q_table q') j = if Nat.eqb k j then None else fd_get (q_table q) j) -> numbered q -> numbered q'.
  Proof.
    intros F O Fr Dh T. apply numbered_ext; auto. intros j e h E X. rewrite T. destruct (Nat.eqb_spec k j) as [<-|]; [congruence|exact E].
  Qed.

  Lemma update_database_alone fuel p r q : numbered q -> locks_ok (m_fs (q_mem q)) -> exists q',
    d_run (d_update_database a fuel p r) q = (q', snd (g_run (g_update_database a fuel p r) (q_mem q))) /\
    q_mem q' = fst (g_run (g_update_database a fuel p r) (q_mem q)) /\ numbered q'.
  Proof.
    intros N Lk. unfold d_update_database, g_update_database. rewrite d_run_bind, field_run, g_run_bind. cbn [g_field g_run].
    destruct (nth_error (m_heap (q_mem q)) p) as [c|]; [|exists q; auto].
    rewrite d_run_bind, g_run_bind, g_run_call. pose proof (trylock_run p (x_name c) q (fun _ => Lk)) as Tr.
    assert (Hh : f_handles (fst (sys_trylock (x_name c) (m_fs (q_mem q)))) = f_handles (m_fs (q_mem q))).
    { unfold sys_trylock. destruct (dir_get _ _) as [[i|]|]; [destruct (existsb _ _)| |]; reflexivity. }
    destruct (sys_trylock (x_name c) (m_fs (q_mem q))) as [s1 o1]. cbn [fst snd] in *.
    destruct Tr as (q1 & -> & M1 & F1 & Tr). destruct o1 as [i| | |]; cbn [bind].
    2: { destruct Tr as (_ & T1 & _). exists q1. split; [reflexivity|]. split; [exact M1|].
      apply (numbered_ext q q1 F1); auto; [intros; now rewrite T1|]. intros h i. rewrite M1. unfold open_at. cbn [on_fs m_fs]. now rewrite Hh. }
    2,3: destruct Tr as (X & _); discriminate.
    destruct Tr as (Ln & T1). set (k := lowest (q_table q)) in *.
    assert (N1 : numbered q1).
    { apply (numbered_more q q1 k (Desc i None true) F1); auto; [|apply lowest_free]. intros h j. rewrite M1. unfold open_at. cbn [on_fs m_fs]. now rewrite Hh. }
    assert (Tk : fd_get (q_table q1) k = Some (Desc i None true)) by now rewrite T1, Nat.eqb_refl.
    rewrite d_run_catch, g_run_catch. unfold g_swap_files. rewrite d_run_bind, g_run_bind, <- M1.
    assert (Un : forall q2 (o : outcome (nat * Z)), keeps q1 q2 -> numbered q2 -> exists q', d_run (d_catch (d_close_lock p) (fun _ => DRet o)) q2 = (q', o) /\
      q_mem q' = on_fs (q_mem q2) (sys_unlock i (m_fs (q_mem q2))) /\ numbered q').
    { intros q2 o (L2 & K2) N2. rewrite d_run_catch. unfold d_close_lock. rewrite d_run_call. unfold lock_number in *. rewrite L2, Ln.
      destruct (drop_lock q2 k i (K2 _ _ Tk eq_refl)) as (q3 & -> & M3 & F3 & _ & T3). cbn [fst snd d_run]. exists q3. split; [reflexivity|]. split; [exact M3|].
      eapply numbered_less; [exact F3| |apply (K2 _ _ Tk eq_refl)|reflexivity|exact T3|exact N2]. intros h j. rewrite M3. reflexivity. }
    destruct (prepare_alone a fuel p (x_name c) r q1 N1) as (q2 & -> & M2 & K2 & N2 & _).
    destruct (g_run (g_prepare_files a fuel p (x_name c) r) (q_mem q1)) as [m2 o2]. cbn [fst snd] in *.
    destruct o2 as [off| | |].
    2: { cbn [fst snd]. destruct (Un q2 Err K2 N2) as (q3 & -> & M3 & N3). exists q3. cbn [g_run fst snd] in *. split; [reflexivity|]. split; [rewrite M3, M2; reflexivity|exact N3]. }
    2: { cbn [fst snd]. destruct (Un q2 Panic K2 N2) as (q3 & -> & M3 & N3). exists q3. cbn [g_run fst snd] in *. split; [reflexivity|]. split; [rewrite M3, M2; reflexivity|exact N3]. }
    2: { cbn [fst snd]. destruct (Un q2 Fuel K2 N2) as (q3 & -> & M3 & N3). exists q3. cbn [g_run fst snd] in *. split; [reflexivity|]. split; [rewrite M3, M2; reflexivity|exact N3]. }
    destruct (replace_alone a (x_name c) off q2 N2) as (q3 & -> & M3 & K3 & N3 & _). rewrite M2 in *.
    destruct (g_run (g_replace_files a (x_name c) off) m2) as [m3 o3]. cbn [fst snd] in *.
    cbn [fst snd]. destruct (Un q3 o3 (keeps_trans _ _ _ K2 K3) N3) as (q4 & -> & M4 & N4). exists q4. cbn [g_run fst snd]. split; [reflexivity|]. split; [rewrite M4, M3; reflexivity|exact N4].
  Qed.

  Lemma reads_ret' {A} (o : outcome A) : reads (GRet o).
  Proof. constructor. Qed.
  Lemma reads_update_reference id now : reads (g_update_reference H mv id now).
  Proof.
    unfold g_update_reference. apply reads_then; [apply reads_find|]. intros p. apply reads_then; [apply reads_reference|]. intros parent.
    apply reads_then; [apply reads_look|]. intros blocks. apply reads_then; [apply reads_ret'|]. intros values. cbv zeta.
    apply reads_then; [apply reads_reference|]. intros old. apply reads_then; [apply reads_ret'|]. intros cs.
    apply reads_then; [apply reads_reference|]. intros older. apply reads_then; [apply reads_reference|]. intros off.
    apply reads_then; [apply reads_look|]. intros pd. apply reads_then; [apply reads_ret'|]. intros new. apply reads_then; [apply reads_ret'|]. intros keys. apply reads_ret'.
  Qed.
  Lemma reads_run_d {A} (g : gprog A) q : reads g -> d_run (d_lift g) q = (q, snd (g_run g (q_mem q))).
  Proof. intros R. rewrite d_run_lift, (reads_run g _ R). now rewrite on_same. Qed.

  Lemma steady_assign id f : steady (g_assign id f).
  Proof.
    intros m h i. unfold g_assign. rewrite g_run_bind. cbn [g_lookup g_run]. destruct (ptr_get (m_ctxs m) id) as [p|]; [|reflexivity].
    cbn [g_store g_run]. destruct (nth_error (m_heap m) p); reflexivity.
  Qed.

  Lemma lift_bind {A B} (g : gprog A) (k : A -> dprog B) (k' : A -> gprog B) q : steady g -> numbered q ->
    (forall q1 v, numbered q1 -> exists q', d_run (k v) q1 = (q', snd (g_run (k' v) (q_mem q1))) /\ q_mem q' = fst (g_run (k' v) (q_mem q1)) /\ numbered q') ->
    exists q', d_run (d_then (d_lift g) k) q = (q', snd (g_run (g_then g k') (q_mem q))) /\ q_mem q' = fst (g_run (g_then g k') (q_mem q)) /\ numbered q'.
  Proof.
    intros S N K. rewrite d_run_bind, d_run_lift, g_run_bind. pose proof (numbered_lift g q S N) as N1.
    destruct (g_run g (q_mem q)) as [m1 o1]. cbn [fst snd] in *.
    destruct o1 as [v| | |]; try (exists (on_mem q m1); now auto). destruct (K (on_mem q m1) v N1) as (q' & E & M & N'). exists q'. auto.
  Qed.

  (** Commit alone: the numbers change nothing. *)
  Lemma d_commit_alone fuel now id q : numbered q -> locks_ok (m_fs (q_mem q)) -> exists q',
    d_run (d_commit H mv a fuel now id) q = (q', snd (g_run (g_commit H mv a fuel now id) (q_mem q))) /\
    q_mem q' = fst (g_run (g_commit H mv a fuel now id) (q_mem q)) /\ numbered q'.
  Proof.
    intros N Lk. unfold d_commit, g_commit. rewrite d_run_bind, g_run_bind, reads_run_d by apply reads_update_reference.
    pose proof (reads_run _ (q_mem q) (reads_update_reference id now)) as Rr.
    destruct (g_run (g_update_reference H mv id now) (q_mem q)) as [m1 o1]. cbn [fst snd] in *. subst m1.
    destruct o1 as [r| | |]; try (exists q; now auto).
    rewrite d_run_bind, g_run_bind, reads_run_d by apply reads_find. pose proof (reads_run _ (q_mem q) (reads_find id)) as Rf.
    destruct (g_run (g_find id) (q_mem q)) as [m2 o2]. cbn [fst snd] in *. subst m2.
    destruct o2 as [p| | |]; try (exists q; now auto).
    rewrite d_run_bind, g_run_bind. destruct (update_database_alone fuel p r q N Lk) as (q3 & -> & M3 & N3).
    destruct (g_run (g_update_database a fuel p r) (q_mem q)) as [m3 o3]. cbn [fst snd] in *. subst m3.
    destruct o3 as [x| | |]; try (exists q3; now auto).
    apply lift_bind; [apply steady_assign|exact N3|]. intros q4 _ N4. apply lift_bind; [apply steady_assign|exact N4|]. intros q5 _ N5.
    rewrite d_run_lift. eexists. split; [reflexivity|]. split; [reflexivity|]. apply numbered_lift; [apply steady_assign|exact N5].
  Qed.
End Commit.
