(** Descriptors: two Commits at once, from any session. *)
From Coq Require Import List ZArith NArith Lia Bool.
From Coq Require Import Init.Byte Strings.Byte.
From Verif Require Import Base BaseLemmas HashModel HashProofs SpecHash HashTreeModel HashTreeProofs
  RefModel RefProofs SpecRef PropHash DbModel SpecDb DbRefProofs DbFsProofs DbCommitProofs DbOpenProofs DbApiProofs
  DbSession DbSessionProofs DbMoreProofs DbConcurrent DbThreads SpecThreads DbThreadProofs DbThreadProofs2
  DbDescriptors SpecDescriptors DbDescriptorProofs DbDescriptorProofs2 DbDescriptorProofs3 DbDescriptorProofs4.
Import ListNotations.

Lemma steady_store p f : steady (g_store p f).
Proof. intros m h i. unfold g_store. cbn [g_run fst snd]. destruct (nth_error (m_heap m) p); reflexivity. Qed.

Section Two.
  Variable H : bytes -> bytes.
  Variable mv : byte.
  Variable behind : bytes -> bytes.
  Hypothesis HL : sha_ok H.

  Lemma two_commits a s n id bs pd now1 now2 fuel2 q :
    synced H mv a s n id bs pd -> ok_batch (pd, now1) -> ok_batch (pd, now2) ->
    fits H mv (bs ++ [(pd, now1)]) -> fits H mv (bs ++ [(pd, now2)]) -> chunk_ok (a_chunk a) (history_data bs) ->
    in_memory a s (q_mem q) -> numbered q -> no_gap q id ->
    let new := bs ++ [(pd, now1)] in
    exists q' a' s' p h' k0 i,
      let c := Ctx id n h' (history_ref H mv new) (zlen (header (history_ref H mv new))) pd in
      d_goes (DTeam (d_commit H mv a (rounds a s id) now1 id) (d_commit H mv a fuel2 now2 id) q) (DTeam (DRet (Ok tt)) (DRet Err) q') /\
      in_memory a' s' (q_mem q') /\ a' = with_ctxs a (a_ctxs a') /\ ctx_get (a_ctxs a') id = Some c /\
      ptr_get (m_ctxs (q_mem q')) id = Some p /\ nth_error (m_heap (q_mem q')) p = Some c /\
      dir_get (f_dir s') n = Some (EFile i) /\ data_of s' i = history_file H mv new /\ h' < length (f_handles s') /\
      num_get (q_files q') h' = Some k0 /\ fd_get (q_table q') k0 = None /\ (forall j, j < k0 -> fd_get (q_table q') j <> None).
  Proof.
    intros Sy W1 W2 Ft1 Ft2 Ck Im N Ng. cbv zeta.
    destruct (commit_ok H mv HL a s n id _ _ now1 Sy W1 Ft1 Ck) as (s2 & a2 & E & Sy2 & Ea & _).
    pose proof (alone_commit H mv a s (q_mem q) Im id now1) as X. rewrite E in X. destruct X as (m2 & Rc & I2).
    destruct Sy as (i & h & (A1 & A2 & A3 & A4 & A5 & A6 & A7 & A8 & A9 & A10 & A11) & Ec & Eh).
    set (c := Ctx id n h (history_ref H mv bs) (zlen (header (history_ref H mv bs))) pd) in *.
    destruct (in_memory_ctx _ _ _ _ _ Im Ec) as (p & Ep & Ehp).
    destruct (update_reference_spec H mv HL c bs now2) as (r2 & Er2 & _); auto.
    { now apply fits_data in Ft2. }
    assert (Em : m_fs (q_mem q) = s) by apply Im.
    assert (Ek : exists k0, num_get (q_files q) h = Some k0).
    { specialize (N h). destruct (num_get (q_files q) h) as [k0|]; [eauto|]. exfalso. apply (N i). exists 0. now rewrite Em. }
    destruct Ek as (k0 & Ek).
    destruct (accident H mv a id now1 now2 (rounds a s id) fuel2 q p c k0 r2 m2) as (q' & s3 & i3 & h' & G & F & M & (c2 & Ep2 & Eh2 & Ch) & (pos & j & O) & Nk & T & B); auto.
    { intros x Hx. rewrite Em, A8 in Hx. destruct Hx. }
    { intros j L. apply (Ng k0); [|exact L]. exists p, c. auto. }
    { rewrite Em. cbn [c x_name]. rewrite A5. discriminate. }
    assert (E2 : m_fs m2 = s2) by apply I2.
    destruct Sy2 as (i2 & h2 & (B1 & B2 & B3 & B4 & B5 & B6 & B7 & B8 & B9 & B10 & B11) & Ec2 & Ehh).
    assert (Eq : Some c2 = Some (Ctx id n h2 (history_ref H mv (bs ++ [(pd, now1)])) (zlen (header (history_ref H mv (bs ++ [(pd, now1)])))) pd)).
    { rewrite <- Ec2. destruct I2 as (_ & _ & _ & _ & _ & _ & I2). rewrite I2, Ep2. now symmetry. }
    injection Eq as Eq. assert (Hh : h2 = h') by (rewrite <- Ch, Eq; reflexivity). subst h2.
    assert (Es : s2 = sys_unlock i3 s3) by congruence.
    assert (D3 : f_dir (shut h' s3) = f_dir s2 /\ f_data (shut h' s3) = f_data s2 /\ length (f_handles (shut h' s3)) = length (f_handles s2)).
    { rewrite Es. unfold shut, sys_close. rewrite O. cbn. rewrite set_nth_len. auto. }
    destruct D3 as (D1 & D2 & D3).
    exists q', a2, (shut h' s3), p, h', k0, i2.
    split; [exact G|]. split; [rewrite M; now apply (in_memory_fs a2 s2)|]. split; [exact Ea|]. split; [exact Ec2|].
    rewrite M. cbn [on_fs m_ctxs m_heap]. split; [exact Ep2|]. split; [now rewrite <- Eq|]. split; [now rewrite D1|].
    split; [unfold data_of; rewrite D2; exact B9|]. split; [rewrite D3; apply nth_error_Some; congruence|]. auto.
  Qed.
End Two.

(** Another database has got the number. *)
Section Reused.
  Variables (q : proc) (id id2 : Z) (p p2 : nat) (c c2 : ctx) (k j2 : nat).
  Hypothesis Ep : ptr_get (m_ctxs (q_mem q)) id = Some p.
  Hypothesis Ec : nth_error (m_heap (q_mem q)) p = Some c.
  Hypothesis Ep2 : ptr_get (m_ctxs (q_mem q)) id2 = Some p2.
  Hypothesis Ec2 : nth_error (m_heap (q_mem q)) p2 = Some c2.
  Hypothesis Nc : x_conn c2 <> x_conn c.
  Hypothesis Ni : id2 <> id.
  Hypothesis Ek : num_get (q_files q) (x_conn c) = Some k.
  Hypothesis Ek2 : num_get (q_files q) (x_conn c2) = Some k.
  Hypothesis Et : fd_get (q_table q) k = Some (Desc j2 (Some (x_conn c2)) false).
  Hypothesis Eh : nth_error (f_handles (m_fs (q_mem q))) (x_conn c2) = Some (Handle j2 0 true).

  Lemma reused_read from len : (0 <= x_off c)%Z -> (0 <= from)%Z -> (0 < len)%Z -> (x_off c + from + len <= zlen (data_of (m_fs (q_mem q)) j2) < two63)%Z ->
    d_run (d_read id (Pointer from len)) q = (q, Ok (sub (data_of (m_fs (q_mem q)) j2) (x_off c + from) len)).
  Proof.
    intros Lo Lf Ll Lz. unfold d_read. rewrite d_run_bind, reads_run_d by apply reads_find. destruct (still_find id (q_mem q) p Ep) as (-> & _). cbn [snd].
    rewrite d_run_bind, field_run, Ec. cbn [p_length p_from]. rewrite (proj2 (Z.leb_gt two63 len)) by lia.
    rewrite d_run_bind, field_run, Ec. unfold d_pread. rewrite d_run_call. unfold pread. rewrite Ek, Et. f_equal.
    assert (U : i64 (u64 (x_off c + from)) = (x_off c + from)%Z).
    { assert (L : (0 <= x_off c + from < two63)%Z) by lia. revert L. generalize (x_off c + from)%Z. clear. intros z L. unfold i64, u64, two63, two64 in *.
      rewrite Z.mod_mod by lia. rewrite Z.mod_small by lia. match goal with |- context [(z <? ?b)%Z] => destruct (Z.ltb_spec z b) end; lia. }
    rewrite U. apply read_at_file with (i := j2); auto; lia.
  Qed.

  Lemma reused_close : exists q', d_run (d_close id) q = (q', Ok tt) /\
    ptr_get (m_ctxs (q_mem q')) id2 = Some p2 /\ nth_error (m_heap (q_mem q')) p2 = Some c2 /\
    num_get (q_files q') (x_conn c2) = Some k /\ fd_get (q_table q') k = None.
  Proof.
    unfold d_close. rewrite d_run_bind, reads_run_d by apply reads_find. destruct (still_find id (q_mem q) p Ep) as (-> & _). cbn [snd].
    rewrite d_run_bind, field_run, Ec, d_run_bind. unfold d_close_file. rewrite d_run_call, Ek. unfold drop_number. cbn [with_files q_table]. rewrite Et.
    cbn [d_handle d_lock]. rewrite d_run_lift. eexists. cbn [g_run fst snd]. split; [reflexivity|].
    cbn [on_files on_mem with_table with_files q_mem q_table q_files on_fs m_ctxs m_heap m_fs].
    split. { rewrite ptr_get_drop. destruct (Z.eqb_spec id id2); [congruence|exact Ep2]. }
    split; [exact Ec2|]. split. { rewrite num_get_del. destruct (Nat.eqb_spec (x_conn c) (x_conn c2)); [congruence|exact Ek2]. }
    rewrite fd_get_set by congruence. now rewrite Nat.eqb_refl.
  Qed.
End Reused.
