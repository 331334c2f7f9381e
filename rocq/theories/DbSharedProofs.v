(** Proofs about sessions with shared memory. *)
From Coq Require Import List ZArith NArith Lia Bool Arith.
From Coq Require Import Init.Byte Strings.Byte.
From Verif Require Import Base BaseLemmas HashModel HashProofs SpecHash HashTreeModel HashTreeProofs
  RefModel RefProofs SpecRef DbModel SpecDb DbRefProofs DbFsProofs DbCommitProofs DbOpenProofs DbApiProofs
  DbSession DbSessionProofs DbMoreProofs DbShared.
Import ListNotations.

Lemma cut_length mem off len : off + len <= length mem -> length (cut mem off len) = len.
Proof. intros L. unfold cut. rewrite firstn_length, skipn_length. lia. Qed.

Lemma store_length mem off d : off + length d <= length mem -> length (store mem off d) = length mem.
Proof. intros L. unfold store. rewrite !app_length, firstn_length, skipn_length. lia. Qed.

Lemma cut_store mem off d : off + length d <= length mem -> cut (store mem off d) off (length d) = d.
Proof.
  intros L. unfold cut, store. rewrite skipn_app, skipn_all2 by (rewrite firstn_length; lia).
  rewrite firstn_length, Nat.min_l, Nat.sub_diag by lia. cbn [app skipn].
  rewrite firstn_app, Nat.sub_diag, firstn_all. cbn [firstn]. apply app_nil_r.
Qed.

Section Shared.
  Variable H : bytes -> bytes.
  Variable mv : byte.
  Variable behind : bytes -> bytes.
  Hypothesis HL : forall x, length (H x) = 64.

  Definition ok_ref (mem : bytes) (r : ref_content) : Prop :=
    let '(h, off, len, k) := r in
    length h = 64 /\ 0 < len /\ off + len <= length mem /\ (0 <= k < two64)%Z.

  Lemma view_ok mem rs : Forall (ok_ref mem) rs -> Forall ok_content (view mem rs).
  Proof.
    intros F. unfold view. apply Forall_map. eapply Forall_impl; [|exact F].
    intros [[[h off] len] k] (L & P & R & K). split; [exact L|]. split; [|exact K].
    cbn [ct_data]. intros E. pose proof (cut_length mem off len R) as X. rewrite E in X. cbn in X. lia.
  Qed.

  Lemma ok_ref_store mem off d r : off + length d <= length mem -> ok_ref mem r -> ok_ref (store mem off d) r.
  Proof. intros L. destruct r as [[[h o] len] k]. cbn. now rewrite store_length. Qed.

  Lemma refresh_synced a s n id bs pd pd' : synced H mv a s n id bs pd ->
    synced H mv (refresh a id pd') s n id bs pd' /\ a_chunk (refresh a id pd') = a_chunk a.
  Proof.
    intros (i & h & D & Ec & Eh). unfold refresh. rewrite Ec. split; [|reflexivity].
    exists i, h. split; [exact D|]. split; [|exact Eh].
    cbn [with_ctxs a_ctxs]. now rewrite ctx_get_set, Z.eqb_refl.
  Qed.

  Lemma shared_run n os : forall a s id bs rs mem, synced H mv a s n id bs (view mem rs) -> Forall (ok_ref mem) rs ->
    all_shared_allowed H mv (a_chunk a) (bs, rs, mem) os ->
    forall bs' rs' mem', fold_left shared_spec_step os (bs, rs, mem) = (bs', rs', mem') ->
    exists a' s' id', shared_exec H mv behind n (a, s, id, rs, mem) os = Ok (a', s', id', rs', mem') /\
      synced H mv a' s' n id' bs' (view mem' rs') /\ Forall (ok_ref mem') rs' /\ a_chunk a' = a_chunk a.
  Proof.
    induction os as [|o os IH]; intros a s id bs rs mem S F A bs' rs' mem' Es.
    - injection Es as <- <- <-. exists a, s, id. repeat split; auto.
    - destruct A as (A1 & A2). cbn [fold_left] in Es. cbn [shared_exec].
      assert (X : forall (o' : op) rs1, allowed H mv (a_chunk a) (bs, view mem rs) o' ->
        Forall (ok_ref mem) rs1 -> snd (spec_step (bs, view mem rs) o') = view mem rs1 ->
        shared_spec_step (bs, rs, mem) o = (fst (spec_step (bs, view mem rs) o'), rs1, mem) ->
        shared_step H mv behind n (a, s, id, rs, mem) o =
          (do st' <- exec_step H mv behind n (a, s, id) o'; Ok (st', rs1, mem)) ->
        exists a' s' id', (do st' <- shared_step H mv behind n (a, s, id, rs, mem) o; shared_exec H mv behind n st' os) =
            Ok (a', s', id', rs', mem') /\
          synced H mv a' s' n id' bs' (view mem' rs') /\ Forall (ok_ref mem') rs' /\ a_chunk a' = a_chunk a).
      { intros o' rs1 Al F1 Ev Est Eo. rewrite Est in A2, Es.
        destruct (session_step H mv behind HL _ _ _ _ _ _ _ S (view_ok _ _ F) Al) as (a1 & s1 & id1 & E & S1 & _ & C1).
        rewrite Eo, E. cbn [bind]. rewrite Ev in S1. rewrite <- C1 in A2 |- *.
        apply (IH a1 s1 id1 _ rs1 mem S1 F1 A2 _ _ _ Es). }
      destruct o as [h off len k|off d| |now|].
      + destruct A1 as (L & P & R & K). apply (X (OWrite h (cut mem off len) k) (rs ++ [(h, off, len, k)])); auto.
        * split; [exact L|]. split; [|exact K]. intros E. pose proof (cut_length mem off len R) as Y. rewrite E in Y. cbn in Y. lia.
        * apply Forall_app. split; auto. constructor; [|constructor]. repeat split; auto; apply K.
        * unfold view. rewrite map_app. reflexivity.
      + cbn [shared_step bind]. destruct (refresh_synced _ _ _ _ _ _ (view (store mem off d) rs) S) as (S1 & C1).
        cbn [shared_spec_step] in A2, Es. rewrite <- C1 in A2 |- *. eapply IH; eauto.
        eapply Forall_impl; [|exact F]. intros r. now apply ok_ref_store.
      + apply (X OCancel []); cbn; auto.
      + destruct A1 as (N & R & Ft & Ck). apply (X (OCommit now) rs); auto.
        cbn [allowed fst snd]. split; [|split; [exact R|split; [exact Ft|exact Ck]]]. intros E. apply N. now destruct rs.
      + apply (X OReopen []); cbn; auto.
  Qed.

  Lemma shared_start a0 n s0 mem os : good_config a0 -> calm s0 -> clear a0 s0 n -> dir_get (f_dir s0) n = None ->
    all_shared_allowed H mv (a_chunk a0) ([], [], mem) os ->
    forall bs' rs' mem', shared_spec mem os = (bs', rs', mem') ->
    exists st0 a s id, start H mv behind a0 n s0 = Ok st0 /\
      shared_exec H mv behind n (st0, [], mem) os = Ok (a, s, id, rs', mem') /\ synced H mv a s n id bs' (view mem' rs').
  Proof.
    intros G C Cl E A bs' rs' mem' Es.
    destruct (new_synced H mv behind HL a0 n s0 G C Cl E) as (a1 & s1 & id1 & E1 & S1 & Ch & _).
    rewrite <- Ch in A.
    destruct (shared_run n os a1 s1 id1 [] [] mem S1 (Forall_nil _) A _ _ _ Es) as (a & s & id & E2 & S2 & _).
    exists (a1, s1, id1), a, s, id. auto.
  Qed.
End Shared.
