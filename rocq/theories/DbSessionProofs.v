(** Sessions follow their specification. *)
From Coq Require Import List ZArith NArith Lia Bool.
From Coq Require Import Init.Byte Strings.Byte.
From Verif Require Import Base BaseLemmas HashModel HashProofs SpecHash HashTreeModel HashTreeProofs
  RefModel RefProofs SpecRef DbModel SpecDb DbRefProofs DbFsProofs DbCommitProofs DbOpenProofs DbApiProofs DbSession.
Import ListNotations.

Lemma selects_unique {A} (P : A -> Prop) l : forall a b, selects P l a -> selects P l b -> a = b.
Proof.
  induction l as [|x l IH]; intros a b Sa Sb; inversion Sa; inversion Sb; subst; auto; try contradiction.
  f_equal. auto.
Qed.

Section Session.
  Variable H : bytes -> bytes.
  Variable mv : byte.
  Variable behind : bytes -> bytes.
  Hypothesis HL : forall x, length (H x) = 64.

  Notation synced := (synced H mv).
  Notation db_file := (db_file H mv).

  Lemma tree_commit_of parent cs t now : Forall (fun c => length (ct_hash c) = 64) cs ->
    cs <> [] -> build_tree H (Some (map ct_hash cs)) = Ok t ->
    commit_of H parent (cs, now) (commit_now H mv t now parent None).
  Proof.
    intros F N E. unfold commit_of, commit_now; cbn [c_parent c_time c_mine c_values fst snd].
    repeat split; auto.
    destruct (build_tree_spec H HL (map ct_hash cs)) as (t' & k & pad & E' & P & _ & _ & L & _).
    { destruct cs; [congruence|discriminate]. }
    rewrite E in E'. injection E' as <-. exists pad.
    assert (El : map leaf_head (ht_leaves t) = map ct_hash cs ++ repeat (H []) pad).
    { rewrite L, map_map. cbn [leaf_head]. rewrite map_id, map_map. f_equal. apply map_ext_in.
      intros c I. rewrite Forall_forall in F. now rewrite from_bytes_64 by auto. }
    split; [exact El|]. rewrite <- El. now apply (perfect_ht_merkle H k).
  Qed.

  Lemma chain_linked bs : forall p, Forall ok_batch bs -> linked H p bs (chain H mv p bs).
  Proof.
    induction bs as [|[cs now] bs IH]; intros p F; cbn [chain]; constructor; inversion F as [|? ? W F']; subst; auto.
    destruct W as (N & Fc & _). cbn [fst snd] in *. unfold batch_commit. cbn [fst snd].
    apply tree_commit_of; auto.
    - eapply Forall_impl; [|exact Fc]. intros c X. apply X.
    - now apply batch_tree_ok.
  Qed.

  Lemma synced_shows a s n id bs pd : synced a s n id bs pd -> shows H (a, s, id) bs.
  Proof.
    intros S. unfold shows. split; [|split; [|split]].
    { exists (chain H mv None bs). split; [eapply synced_commits; eauto|].
      apply chain_linked. destruct S as (i & h & D & _). apply D. }
    - exists (history_keys H mv None 0 bs). split; [eapply read_keys; eauto|].
      intros kind sel Es. unfold content_keys_by_kind. rewrite (synced_keys _ _ _ _ _ _ _ _ S).
      pose proof (keys_by_kind_spec (history_keys H mv None 0 bs) kind) as K.
      rewrite (selects_unique _ _ _ _ Es K). destruct bs; reflexivity.
    - intros h ct L. eapply read_hash_found; eauto.
    - intros h N. eapply read_hash_missing; eauto.
  Qed.

  Lemma session_step a s n id bs pd o : synced a s n id bs pd -> Forall ok_content pd ->
    allowed H mv (a_chunk a) (bs, pd) o ->
    exists a' s' id', exec_step H mv behind n (a, s, id) o = Ok (a', s', id') /\
      synced a' s' n id' (fst (spec_step (bs, pd) o)) (snd (spec_step (bs, pd) o)) /\
      Forall ok_content (snd (spec_step (bs, pd) o)) /\ a_chunk a' = a_chunk a.
  Proof.
    intros S F A. destruct o as [h d k| |now|]; cbn [exec_step spec_step fst snd allowed] in *.
    - destruct A as (Lh & Nd & Rk). destruct (write_ok _ _ _ _ _ _ _ _ h d k S Nd) as (a' & E & S' & Ea).
      exists a', s, id. rewrite E. cbn [bind]. repeat split; auto.
      + apply Forall_app. split; auto. repeat constructor; auto; apply Rk.
      + rewrite Ea. reflexivity.
    - destruct (cancel_ok _ _ _ _ _ _ _ _ S) as (a' & E & S' & Ea). exists a', s, id. rewrite E. cbn [bind].
      repeat split; auto. rewrite Ea. reflexivity.
    - destruct A as (Np & Rt & Ft & Ch).
      destruct (commit_ok H mv HL a s n id bs pd now S) as (s' & a' & E & S' & Ea & _); auto.
      { repeat split; auto; apply Rt. }
      exists a', s', id. rewrite E. cbn [bind]. repeat split; auto. rewrite Ea. reflexivity.
    - destruct (close_ok _ _ _ _ _ _ _ _ S) as (s' & a' & i & E & D & _ & Ea & _).
      rewrite E. cbn [bind].
      assert (D' : db_file (with_ctxs a' []) s' n i bs) by exact D.
      destruct (open_ok H mv behind HL (with_ctxs a' []) s' n i bs D' eq_refl) as (s'' & a'' & E' & S'' & _ & Ea'' & _).
      rewrite E'. cbn [bind]. eexists _, _, _. split; [reflexivity|]. repeat split; auto.
      rewrite Ea'', Ea. reflexivity.
  Qed.

  Lemma session_run n os : forall a s id bs pd, synced a s n id bs pd -> Forall ok_content pd ->
    all_allowed H mv (a_chunk a) (bs, pd) os ->
    exists a' s' id', exec H mv behind n (a, s, id) os = Ok (a', s', id') /\
      synced a' s' n id' (fst (spec_run (bs, pd) os)) (snd (spec_run (bs, pd) os)) /\
      Forall ok_content (snd (spec_run (bs, pd) os)) /\ a_chunk a' = a_chunk a.
  Proof.
    induction os as [|o os IH]; intros a s id bs pd S F A.
    - exists a, s, id. repeat split; auto.
    - destruct A as (A1 & A2). destruct (session_step _ _ _ _ _ _ _ S F A1) as (a1 & s1 & id1 & E & S1 & F1 & C1).
      cbn [exec]. rewrite E. cbn [bind]. rewrite <- C1 in A2.
      destruct (spec_step (bs, pd) o) as [bs1 pd1] eqn:Es. cbn [fst snd] in *.
      destruct (IH _ _ _ _ _ S1 F1 A2) as (a2 & s2 & id2 & E2 & S2 & F2 & C2).
      exists a2, s2, id2. unfold spec_run in *. cbn [fold_left]. rewrite Es.
      repeat split; auto. congruence.
  Qed.

  Lemma new_synced a n s : good_config a -> calm s -> clear a s n -> dir_get (f_dir s) n = None ->
    exists a' s' id, start H mv behind a n s = Ok (a', s', id) /\ synced a' s' n id [] [] /\
      a_chunk a' = a_chunk a /\ a_dst a' = a_dst a /\ a_bck a' = a_bck a.
  Proof.
    intros (N & P) (V & I & Ff & Lk) (Nd & Nb) E. unfold start, new_db, sys_stat. rewrite E.
    assert (K : fs_ok s) by (split; auto).
    destruct (sys_create_spec n s K) as (s1 & i & Ec & Dir & Dd & Do & Ll & Ld & Eh & El & Ef & Orig & K1).
    { rewrite E. discriminate. }
    rewrite Ec. cbn [bind].
    assert (Fr : forall e, bytes_eqb n (side n e) = false)
      by (intros e; apply bytes_eqb_neq; intros X; symmetry in X; now apply side_neq in X).
    assert (D : db_file (with_ctxs a []) s1 n i []).
    { unfold DbApiProofs.db_file. cbn [with_ctxs a_dst a_bck a_chunk].
      split; [exact N|]. split; [exact P|]. split; [exact K1|]. split; [congruence|].
      split; [rewrite Dir; now rewrite bytes_eqb_refl|].
      split; [now rewrite Dir, Fr|]. split; [now rewrite Dir, Fr|]. split; [congruence|].
      split; [rewrite Dd; reflexivity|]. split; [constructor|].
      unfold fits, history_file. cbn. reflexivity. }
    destruct (open_ok H mv behind HL (with_ctxs a []) s1 n i [] D eq_refl) as (s2 & a2 & E2 & S2 & _ & Ea & _).
    rewrite E2. cbn [bind]. eexists _, _, _. split; [reflexivity|]. split; [exact S2|].
    rewrite Ea. repeat split.
  Qed.

  Theorem session_ok a n s os : good_config a -> calm s -> clear a s n -> dir_get (f_dir s) n = None ->
    all_allowed H mv (a_chunk a) ([], []) os ->
    exists st st', start H mv behind a n s = Ok st /\ exec H mv behind n st os = Ok st' /\
      synced (fst (fst st')) (snd (fst st')) n (snd st') (fst (spec_run ([], []) os)) (snd (spec_run ([], []) os)).
  Proof.
    intros G C Cl E A. destruct (new_synced a n s G C Cl E) as (a1 & s1 & id1 & E1 & S1 & Ch & _).
    rewrite <- Ch in A. destruct (session_run n os a1 s1 id1 [] [] S1 (Forall_nil _) A) as (a2 & s2 & id2 & E2 & S2 & _).
    exists (a1, s1, id1), (a2, s2, id2). auto.
  Qed.
End Session.
