(** Descriptors: Open, Read and Close alone, and what is left after two Commits at once. *)
From Coq Require Import List ZArith NArith Lia Bool.
From Coq Require Import Init.Byte Strings.Byte.
From Verif Require Import Base BaseLemmas HashModel HashTreeModel RefModel DbModel DbConcurrent DbFsProofs DbThreads SpecThreads DbThreadProofs DbThreadProofs2
  DbDescriptors SpecDescriptors DbDescriptorProofs DbDescriptorProofs2 DbDescriptorProofs3.
Import ListNotations.

(** ** Reading the reference of a file *)
Lemma chunks_still h k : forall chunk last off s, fst (run (p_read_chunks h k chunk last off) s) = s.
Proof.
  induction k as [|k IH]; intros chunk last off s; [reflexivity|]. cbn [p_read_chunks]. cbv zeta.
  destruct ((if Nat.eqb (S k) 1 then last else chunk) <? 0)%Z; [reflexivity|].
  unfold andthen. rewrite run_catch_fst. unfold p_read. cbn [call run fst snd].
  match goal with |- context [read_at ?a ?b ?c ?d] => destruct (read_at a b c d) as [b0| | |] end; cbn [run fst]; try reflexivity.
  rewrite run_catch_fst. match goal with |- context [run (p_read_chunks h k ?a ?b ?c) s] => specialize (IH a b c s); destruct (run (p_read_chunks h k a b c) s) as [s1 o1] end.
  cbn [fst snd] in *. destruct o1; cbn [run fst]; exact IH.
Qed.

Section WithSha.
  Variable H : bytes -> bytes.
  Variable mv : byte.
  Variable behind : bytes -> bytes.

  Lemma reference_still chunk h s : fst (run (p_reference H mv behind chunk h) s) = s.
  Proof.
    unfold p_reference. rewrite run_catch_fst. unfold p_read at 1 2. cbn [call run fst snd].
    destruct (read_at s h 8 0) as [b| | |]; cbn [run fst]; try reflexivity. cbv zeta. destruct (_ =? 0)%Z; [reflexivity|].
    unfold andthen. rewrite run_catch_fst. match goal with |- context [run (p_read_chunks h ?k ?a ?b ?c) s] =>
      pose proof (chunks_still h k a b c s) as E; destruct (run (p_read_chunks h k a b c) s) as [s1 o1] end.
    cbn [fst snd] in *. destruct o1; cbn [run fst]; exact E.
  Qed.

  Lemma retrieve_leaves chunk n s : exists l, fst (run (p_retrieve H mv behind chunk n) s) = with_handles s (f_handles s ++ l) /\
    Forall (fun x => h_open x = false) l.
  Proof.
    unfold p_retrieve, andthen. rewrite run_catch_fst. cbn [call run]. unfold sys_open.
    assert (Z : s = with_handles s (f_handles s ++ [])) by (rewrite app_nil_r; now destruct s).
    destruct (dir_get (f_dir s) n) as [[i|]|]; cbn [run fst snd]; try (exists []; split; [exact Z|constructor]).
    rewrite run_catch_fst. cbn [run fst]. rewrite reference_still. exists [Handle i 0 false]. split; [|now constructor].
    unfold sys_close. cbn [with_handles f_handles]. rewrite nth_error_app2, Nat.sub_diag by lia. cbn [nth_error fst with_handles f_dir f_data f_locks f_faults].
    unfold with_handles. f_equal. clear. induction (f_handles s) as [|x l IH]; cbn; [reflexivity|]. now rewrite IH.
  Qed.

  Lemma steady_retrieve chunk n : steady (lift (p_retrieve H mv behind chunk n)).
  Proof.
    intros m h i. rewrite run_lift. cbn [fst on_fs m_fs]. destruct (retrieve_leaves chunk n (m_fs m)) as (l & E & F). rewrite E. unfold open_at. cbn [with_handles f_handles].
    destruct (lt_dec h (length (f_handles (m_fs m)))) as [L|L]; [now rewrite nth_error_app1|].
    rewrite nth_error_app2 by lia. rewrite (proj2 (nth_error_None (f_handles (m_fs m)) h)) by lia.
    split; intros (pos & X); [|discriminate]. apply nth_error_In in X. rewrite Forall_forall in F. now apply F in X.
  Qed.

  (** ** Calls alone *)
  Variable a : dbapp.

  Lemma d_read_alone id ptr q : numbered q -> d_run (d_read id ptr) q = (q, snd (g_run (g_read id ptr) (q_mem q))) /\ fst (g_run (g_read id ptr) (q_mem q)) = q_mem q.
  Proof.
    intros N. split; [|apply reads_run, reads_read]. unfold d_read, g_read. rewrite d_run_bind, g_run_bind, reads_run_d by apply reads_find.
    pose proof (reads_run _ (q_mem q) (reads_find id)) as Rf. destruct (g_run (g_find id) (q_mem q)) as [m1 [p| | |]]; cbn [fst snd] in *; subst m1; try reflexivity.
    rewrite d_run_bind, field_run, g_run_bind. cbn [g_field g_run]. destruct (nth_error (m_heap (q_mem q)) p) as [c|] eqn:Ec; [|reflexivity].
    destruct (two63 <=? p_length ptr)%Z; [reflexivity|]. rewrite d_run_bind, field_run, g_run_bind. cbn [g_field g_run]. rewrite Ec.
    rewrite (agree_pread _ _ _ q N). cbn [lift p_read call g_run fst snd]. f_equal. destruct q as [[x y z] ? ? ?]. reflexivity.
  Qed.

  Lemma steady_look {A} (f : mem -> outcome A) : steady (GStep (fun m => (m, GRet (f m)))).
  Proof. apply steady_reads, reads_look. Qed.

  Lemma d_open_alone n q : numbered q -> exists q',
    d_run (d_open H mv behind a n) q = (q', snd (g_run (g_open H mv behind a n) (q_mem q))) /\
    q_mem q' = fst (g_run (g_open H mv behind a n) (q_mem q)) /\ numbered q'.
  Proof.
    intros N. unfold d_open, g_open. apply lift_bind; [apply steady_look|exact N|]. intros q1 [|] N1; [exists q1; auto|].
    apply lift_bind; [apply steady_retrieve|exact N1|]. intros q2 r N2.
    rewrite d_run_bind, g_run_bind, g_run_call. destruct (open_alone n q2 N2) as (q3 & -> & M3 & _ & N3 & _).
    destruct (sys_open n (m_fs (q_mem q2))) as [s3 [conn| | |]]; cbn [fst snd] in *; try (exists q3; now auto). rewrite <- M3.
    apply lift_bind; [apply steady_look|exact N3|]. intros q4 id N4.
    apply lift_bind; [intros m h i; reflexivity|exact N4|]. intros q5 p N5.
    apply lift_bind; [intros m h i; reflexivity|exact N5|]. intros q6 _ N6. exists q6. auto.
  Qed.

  Lemma d_close_alone id q : numbered q -> exists q',
    d_run (d_close id) q = (q', snd (g_run (g_close id) (q_mem q))) /\ q_mem q' = fst (g_run (g_close id) (q_mem q)) /\ numbered q'.
  Proof.
    intros N. unfold d_close, g_close. apply lift_bind; [apply steady_reads, reads_find|exact N|]. intros q1 p N1.
    apply lift_bind; [apply steady_field|exact N1|]. intros q2 conn N2.
    rewrite d_run_bind, g_run_bind, g_run_call. destruct (close_alone conn q2 N2) as (q3 & -> & M3 & _ & N3 & _).
    destruct (sys_close conn (m_fs (q_mem q2))) as [s3 [u| | |]]; cbn [fst snd] in *; try (exists q3; now auto). rewrite <- M3.
    rewrite d_run_lift. eexists. split; [reflexivity|]. split; [reflexivity|]. apply numbered_lift; [|exact N3]. intros m h i. reflexivity.
  Qed.

  (** ** A number that stands for nothing *)
  Section Lost.
    Variables (q : proc) (id : Z) (p : nat) (c : ctx) (k : nat).
    Hypothesis Ep : ptr_get (m_ctxs (q_mem q)) id = Some p.
    Hypothesis Ec : nth_error (m_heap (q_mem q)) p = Some c.
    Hypothesis Ek : num_get (q_files q) (x_conn c) = Some k.
    Hypothesis Et : fd_get (q_table q) k = None.

    Lemma lost_read ptr : (0 < p_length ptr < two63)%Z -> d_run (d_read id ptr) q = (q, Err).
    Proof.
      intros L. unfold d_read. rewrite d_run_bind, reads_run_d by apply reads_find. destruct (still_find id (q_mem q) p Ep) as (-> & _). cbn [snd].
      rewrite d_run_bind, field_run, Ec. rewrite (proj2 (Z.leb_gt two63 (p_length ptr))) by lia.
      rewrite d_run_bind, field_run, Ec. unfold d_pread. rewrite d_run_call. unfold pread. rewrite Ek, Et. f_equal. destruct (_ <? 0)%Z; [reflexivity|]. rewrite (proj2 (Z.eqb_neq (p_length ptr) 0)) by lia. reflexivity.
    Qed.

    Lemma lost_close : snd (d_run (d_close id) q) = Err.
    Proof.
      unfold d_close. rewrite d_run_bind, reads_run_d by apply reads_find. destruct (still_find id (q_mem q) p Ep) as (-> & _). cbn [snd].
      rewrite d_run_bind, field_run, Ec, d_run_bind. unfold d_close_file. rewrite d_run_call, Ek. unfold drop_number. cbn [with_files q_table]. now rewrite Et.
    Qed.

    (** Another database is opened: its connection gets the number. *)
    Lemma lost_open n2 j2 q2 id2 : x_conn c < length (f_handles (m_fs (q_mem q))) ->
      (forall j, j < k -> fd_get (q_table q) j <> None) -> dir_get (f_dir (m_fs (q_mem q))) n2 = Some (EFile j2) ->
      d_run (d_open H mv behind a n2) q = (q2, Ok id2) -> id2 <> id ->
      exists p2 c2, ptr_get (m_ctxs (q_mem q2)) id = Some p /\ nth_error (m_heap (q_mem q2)) p = Some c /\
        ptr_get (m_ctxs (q_mem q2)) id2 = Some p2 /\ nth_error (m_heap (q_mem q2)) p2 = Some c2 /\ x_conn c2 <> x_conn c /\
        num_get (q_files q2) (x_conn c) = Some k /\ num_get (q_files q2) (x_conn c2) = Some k /\
        fd_get (q_table q2) k = Some (Desc j2 (Some (x_conn c2)) false) /\
        nth_error (f_handles (m_fs (q_mem q2))) (x_conn c2) = Some (Handle j2 0 true) /\ f_data (m_fs (q_mem q2)) = f_data (m_fs (q_mem q)).
    Proof.
      intros Lc B Dn R Ni. assert (Lw : lowest (q_table q) = k) by (now apply lowest_is).
      unfold d_open in R. rewrite d_run_bind, reads_run_d in R by apply reads_look. cbn [g_run snd] in R. destruct (existsb _ _); [discriminate|].
      rewrite d_run_bind, d_run_lift, run_lift in R. destruct (retrieve_leaves (a_chunk a) n2 (m_fs (q_mem q))) as (l & E1 & F1).
      destruct (run (p_retrieve H mv behind (a_chunk a) n2) (m_fs (q_mem q))) as [s1 [r| | |]]; cbn [fst snd] in *; try discriminate.
      rewrite d_run_bind in R. unfold d_open_file in R. rewrite d_run_call in R. cbn [on_mem q_mem on_fs m_fs] in R. unfold sys_open in R.
      assert (D1 : dir_get (f_dir s1) n2 = Some (EFile j2)) by now rewrite E1. rewrite D1 in R. cbn [with_handles f_handles] in R.
      rewrite nth_error_app2, Nat.sub_diag in R by lia. cbn [nth_error h_ino take on_files on_mem q_table q_files with_files with_table] in R.
      rewrite Lw in R. set (h2 := length (f_handles s1)) in *.
      rewrite d_run_bind, reads_run_d in R by apply reads_look. cbn [g_run snd] in R.
      rewrite d_run_bind, d_run_lift in R. cbn [g_run fst snd] in R. rewrite d_run_bind, d_run_lift in R. cbn [g_enter g_run fst snd d_run] in R.
      injection R as <- <-. cbn [on_mem q_mem q_files q_table m_ctxs m_heap m_fs on_fs with_handles f_handles f_data].
      exists (length (m_heap (q_mem q))). eexists. cbn [on_mem with_files with_table on_files on_fs q_mem q_files q_table m_ctxs m_heap m_fs with_handles f_handles f_data num_get x_conn].
      assert (Lh : x_conn c < h2) by (unfold h2; rewrite E1; cbn [with_handles f_handles]; rewrite app_length; lia).
      repeat split.
      - rewrite ptr_get_set. cbn in Ni. destruct (Z.eqb_spec (zlen (m_ctxs (q_mem q))) id); [contradiction|exact Ep].
      - rewrite nth_error_app1; [exact Ec|]. apply nth_error_Some. congruence.
      - rewrite ptr_get_set. now rewrite Z.eqb_refl.
      - rewrite nth_error_app2, Nat.sub_diag by lia. reflexivity.
      - cbn [x_conn]. lia.
      - destruct (Nat.eqb_spec h2 (x_conn c)); [lia|exact Ek].
      - cbn [x_conn]. now rewrite Nat.eqb_refl.
      - rewrite <- Lw, fd_get_put, Nat.eqb_refl. reflexivity.
      - cbn [x_conn]. rewrite nth_error_app2 by (fold h2; lia). fold h2. rewrite Nat.sub_diag. reflexivity.
      - rewrite E1. reflexivity.
    Qed.
  End Lost.
End WithSha.
