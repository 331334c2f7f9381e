(** The lock: as long as the file is not replaced, only one of two commits is under way. *)
From Coq Require Import List ZArith NArith Lia Bool.
From Coq Require Import Init.Byte Strings.Byte.
From Verif Require Import Base BaseLemmas HashModel HashProofs SpecHash HashTreeModel HashTreeProofs
  RefModel RefProofs SpecRef DbModel SpecDb DbRefProofs DbFsProofs DbCommitProofs DbOpenProofs DbApiProofs
  DbSession DbSessionProofs DbMoreProofs DbMultiProofs DbFrameProofs DbForgeProofs DbConcurrent DbConcurrentProofs
  DbScheduleProofs DbSchedule2 DbSchedule3 DbSchedule4 DbSchedule5.
Import ListNotations.

Lemma gone_handles i x hs : gone i x -> gone i (with_handles x hs).
Proof. auto. Qed.

Lemma gone_remove i x m : gone i x -> gone i (fst (sys_remove m x)).
Proof.
  intros (L & G). unfold sys_remove. destruct (dir_get (f_dir x) m) as [[j|]|]; cbn [fst]; [|now split ..].
  split; [exact L|]. intros q. cbn [with_dir f_dir]. rewrite dir_get_del. destruct (bytes_eqb m q); [discriminate|apply G].
Qed.

Lemma gone_rename i x m m' : gone i x -> gone i (fst (sys_rename m m' x)).
Proof.
  intros (L & G). unfold sys_rename. destruct (dir_get (f_dir x) m) as [[j|]|] eqn:E; [|now split ..].
  assert (K : gone i (with_dir x (dir_set (dir_del (f_dir x) m) m' (EFile j)))).
  { split; [exact L|]. intros q. cbn [with_dir f_dir]. rewrite dir_get_set, dir_get_del.
    destruct (bytes_eqb m' q); [intros X; injection X as ->; now apply G in E|].
    destruct (bytes_eqb m q); [discriminate|apply G]. }
  destruct (dir_get (f_dir x) m') as [[k|]|]; cbn [fst]; auto. now split.
Qed.

Lemma gone_gap i a n id pd j r off : safe (gone i) any (at_gap a n id pd j r off).
Proof.
  unfold at_gap. eapply safe_then with (R := any); [|intros v _; constructor; intros; exact Logic.I].
  eapply safe_catch with (R := any).
  - unfold after_gap. eapply safe_then with (R := any).
    { apply safe_call. intros x Gx. split; [now apply gone_rename|intros; exact Logic.I]. }
    intros _ _. eapply safe_then with (R := any).
    { apply safe_call. intros x Gx. split; [now apply gone_remove|intros; exact Logic.I]. }
    intros _ _. eapply safe_then with (R := any).
    { apply safe_call. intros x Gx. split; [|intros; exact Logic.I]. unfold sys_open.
      destruct (dir_get (f_dir x) n) as [[k|]|]; exact Gx. }
    intros v _. constructor. intros; exact Logic.I.
  - intros o _. constructor. intros x Gx. split; [exact Gx|constructor; intros; exact Logic.I].
Qed.

Section Early.
  Variable H : bytes -> bytes.
  Variable mv : byte.
  Variables (a : dbapp) (s : fsys) (n : bytes) (id : Z) (bs : list batch) (pd : list content) (now : Z).
  Hypothesis Sy : synced H mv a s n id bs pd.
  Variables (i h : nat) (r : reference) (s1 s6 s7 s8 s9 s10 : fsys) (d b : nat) (off : Z).
  Hypothesis P : parts H mv a s n id bs pd now i h r s1 s6 s7 s8 s9 s10 d b off.
  Notation c := (Ctx id n h (history_ref H mv bs) (zlen (header (history_ref H mv bs))) pd).
  Notation fuel := (S (length (history_file H mv bs))).
  Notation commit := (p_commit H mv now a s id).
  Notation before := (states (prepare_files fuel a c r) s1).

  (** The commit has run alone and has not removed the file. *)
  Definition early (p : prog dbapp) (x : fsys) : Prop :=
    exists xs, alone commit s p x xs /\ length xs <= S (length before).

  Lemma early_start : early commit s.
  Proof. exists [s]. split; [constructor|cbn [length]; lia]. Qed.

  Lemma early_old p x : early p x -> old_at H mv n bs i x /\ (p = commit /\ x = s \/ f_locks x = [i]).
  Proof.
    clear Sy. intros (xs & A0 & L).
    pose proof (pa_frame _ _ _ _ _ _ _ _ _ _ _ _ _ _ _ _ _ _ _ _ _ P) as F. rewrite Forall_forall in F.
    assert (Old : old_at H mv n bs i s) by (split; apply P).
    destruct (alone_states _ _ _ _ _ A0) as ((pre & -> & Es) & _).
    destruct (states_cons p x) as (l & El). rewrite El in Es.
    rewrite (commit_states_eq H mv a s n id bs pd now i h r s1 s6 s7 s8 s9 s10 d b off P) in Es.
    rewrite app_length in L. cbn [length] in L. generalize dependent before. intros bf L F Es.
    destruct pre as [|y pre].
    { cbn [app] in *. injection Es as -> _. split; [exact Old|]. left. inversion A0; subst; auto.
      match goal with X : alone _ _ _ _ [] |- _ => inversion X end. }
    cbn [app] in Es. injection Es as <- Es. cbn [length] in L.
    assert (Ix : In x bf).
    { assert (X : nth_error (bf ++ [s7; s8; s9; s10; sys_unlock i s10]) (length pre) = Some x).
      { rewrite Es. rewrite nth_error_app2 by lia. now rewrite Nat.sub_diag. }
      rewrite nth_error_app1 in X by lia. eapply nth_error_In; eauto. }
    destruct (F x Ix) as (F1 & F2 & F3). split; [now split|now right].
  Qed.

  Lemma at_gap_states : states (at_gap a n id pd i r off) s7 = [s7; s8; s9; s10; sys_unlock i s10].
  Proof.
    unfold at_gap, andthen. rewrite states_catch_eq, states_catch_eq.
    rewrite (after_gap_states H mv a s n id bs pd now i h r s1 s6 s7 s8 s9 s10 d b off P), run_catch.
    rewrite (after_gap_run H mv a s n id bs pd now i h r s1 s6 s7 s8 s9 s10 d b off P). reflexivity.
  Qed.

  Lemma early_step f x : early (Step f) x ->
    early (snd (f x)) (fst (f x)) \/ (gone i (fst (f x)) /\ safe (gone i) any (snd (f x))).
  Proof.
    intros (xs & A0 & L). destruct (f x) as [x' p'] eqn:E. cbn [fst snd].
    pose proof (alone_snoc _ _ _ _ _ A0 _ _ E) as A1.
    destruct (Nat.eq_dec (length xs) (S (length before))) as [Eq|Ne].
    2:{ left. exists (xs ++ [x']). split; [exact A1|]. rewrite app_length. cbn [length]. lia. }
    right. destruct (to_gap H mv a s n id bs pd now i h r s1 s6 s7 s8 s9 s10 d b off P) as (ys & A2).
    destruct (alone_states _ _ _ _ _ A2) as ((pre & -> & Es) & _).
    rewrite (commit_states_eq H mv a s n id bs pd now i h r s1 s6 s7 s8 s9 s10 d b off P), at_gap_states in Es.
    rewrite app_comm_cons in Es. apply (f_equal (@length fsys)) in Es. rewrite !app_length in Es. cbn [length] in Es.
    destruct (alone_det _ _ _ _ _ A1 _ _ _ A2) as (-> & ->).
    { rewrite !app_length. cbn [length]. lia. }
    split; [|apply gone_gap].
    apply (s7_names H mv a s n id bs pd now Sy i h r s1 s6 s7 s8 s9 s10 d b off P).
  Qed.

  Lemma gone_commit : safe (gone i) any commit.
  Proof.
    rewrite (commit_prog H mv a s n id bs pd now i h r s1 s6 s7 s8 s9 s10 d b off P).
    eapply safe_then; [apply gone_safe|]. intros v _. constructor. intros; exact Logic.I.
  Qed.

  (** The first step is the lock. *)
  Lemma commit_blocked f x : commit = Step f -> dir_get (f_dir x) n = Some (EFile i) -> f_locks x = [i] -> f x = (x, Ret Err).
  Proof.
    intros E Dn Lk. rewrite (commit_prog H mv a s n id bs pd now i h r s1 s6 s7 s8 s9 s10 d b off P) in E.
    unfold andthen at 1, update_database, andthen at 1, call in E. cbn [catch x_name] in E. injection E as <-.
    unfold sys_trylock. rewrite Dn, Lk. cbn [existsb]. rewrite Nat.eqb_refl. reflexivity.
  Qed.
End Early.

Section Both.
  Variable H : bytes -> bytes.
  Variable mv : byte.
  Hypothesis HL : forall x, length (H x) = 64.
  Variables (s : fsys) (n : bytes) (bs : list batch).
  Variables (a : dbapp) (h1 : list handle) (id : Z) (pd : list content) (now : Z).
  Hypothesis Sy : synced H mv a (with_handles s h1) n id bs pd.
  Hypothesis Wb : ok_batch (pd, now).
  Hypothesis Ft : fits H mv (bs ++ [(pd, now)]).
  Hypothesis Ch : chunk_ok (a_chunk a) (history_data bs).
  Variables (b : dbapp) (h2 : list handle) (id2 : Z) (pd2 : list content) (now2 : Z).
  Hypothesis Sb : synced H mv b (with_handles s h2) n id2 bs pd2.
  Hypothesis Wb2 : ok_batch (pd2, now2).
  Hypothesis Ft2 : fits H mv (bs ++ [(pd2, now2)]).
  Hypothesis Ch2 : chunk_ok (a_chunk b) (history_data bs).
  Notation p1 := (p_commit H mv now a (with_handles s h1) id).
  Notation p2 := (p_commit H mv now2 b (with_handles s h2) id2).

  (** One is at work alone, the other has not begun or was turned away. *)
  Definition idle (p0 p : prog dbapp) (hs0 hs : list handle) : Prop := (p = p0 /\ hs = hs0) \/ p = Ret Err.

  Theorem one_at_a_time w : later (World p1 h1 p2 h2 s) w ->
    dir_get (f_dir (w_shared w)) n = dir_get (f_dir s) n ->
    file_at (w_shared w) n = Some (history_file H mv bs) /\
    ((exists xs, alone p1 (with_handles s h1) (w_first w) (with_handles (w_shared w) (w_files1 w)) xs) /\ idle p2 (w_second w) h2 (w_files2 w) \/
     (exists xs, alone p2 (with_handles s h2) (w_second w) (with_handles (w_shared w) (w_files2 w)) xs) /\ idle p1 (w_first w) h1 (w_files1 w)).
  Proof.
    destruct (commit_parts H mv HL a (with_handles s h1) n id bs pd now Sy Wb Ft Ch) as (i & h & r & s1 & s6 & s7 & s8 & s9 & s10 & d & bk & off & P).
    destruct (commit_parts H mv HL b (with_handles s h2) n id2 bs pd2 now2 Sb Wb2 Ft2 Ch2) as (j & h' & r2 & u1 & u6 & u7 & u8 & u9 & u10 & d2 & bk2 & off2 & P2).
    pose proof (pa_name _ _ _ _ _ _ _ _ _ _ _ _ _ _ _ _ _ _ _ _ _ P) as X1.
    pose proof (pa_name _ _ _ _ _ _ _ _ _ _ _ _ _ _ _ _ _ _ _ _ _ P2) as X2. cbn [with_handles f_dir] in X1, X2.
    assert (j = i) by congruence. subst j.
    set (e1 := early H mv a (with_handles s h1) n id bs pd now h r s1).
    set (e2 := early H mv b (with_handles s h2) n id2 bs pd2 now2 h' r2 u1).
    pose proof (early_old H mv a (with_handles s h1) n id bs pd now i h r s1 s6 s7 s8 s9 s10 d bk off P) as O1. fold e1 in O1.
    pose proof (early_old H mv b (with_handles s h2) n id2 bs pd2 now2 i h' r2 u1 u6 u7 u8 u9 u10 d2 bk2 off2 P2) as O2. fold e2 in O2.
    pose proof (early_step H mv a (with_handles s h1) n id bs pd now Sy i h r s1 s6 s7 s8 s9 s10 d bk off P) as T1. fold e1 in T1.
    pose proof (early_step H mv b (with_handles s h2) n id2 bs pd2 now2 Sb i h' r2 u1 u6 u7 u8 u9 u10 d2 bk2 off2 P2) as T2. fold e2 in T2.
    pose proof (gone_commit H mv a (with_handles s h1) n id bs pd now i h r s1 s6 s7 s8 s9 s10 d bk off P) as C1.
    pose proof (gone_commit H mv b (with_handles s h2) n id2 bs pd2 now2 i h' r2 u1 u6 u7 u8 u9 u10 d2 bk2 off2 P2) as C2.
    pose proof (commit_blocked H mv a (with_handles s h1) n id bs pd now i h r s1 s6 s7 s8 s9 s10 d bk off P) as B1.
    pose proof (commit_blocked H mv b (with_handles s h2) n id2 bs pd2 now2 i h' r2 u1 u6 u7 u8 u9 u10 d2 bk2 off2 P2) as B2.
    set (I := fun w : world dbapp dbapp =>
      (e1 (w_first w) (with_handles (w_shared w) (w_files1 w)) /\ idle p2 (w_second w) h2 (w_files2 w)) \/
      (e2 (w_second w) (with_handles (w_shared w) (w_files2 w)) /\ idle p1 (w_first w) h1 (w_files1 w)) \/
      (gone i (w_shared w) /\ safe (gone i) any (w_first w) /\ safe (gone i) any (w_second w))).
    assert (Fail : forall o : outcome dbapp, safe (gone i) any (Ret o)) by (intros o; constructor; intros; exact Logic.I).
    assert (Si1 : forall p hs, idle p1 p h1 hs -> safe (gone i) any p) by (intros p hs [(-> & _)| ->]; auto).
    assert (Si2 : forall p hs, idle p2 p h2 hs -> safe (gone i) any p) by (intros p hs [(-> & _)| ->]; auto).
    assert (Inv : forall w w', later w w' -> I w -> I w').
    { clear w. intros w w'. induction 1 as [w|f k1 q k2 t t' p' w' E L IH|p k1 f k2 t t' q' w' E L IH]; auto; intros Iw; apply IH; clear IH L w';
        unfold I in *; cbn [w_first w_second w_files1 w_files2 w_shared] in *; rewrite ?handles_eta.
      - destruct Iw as [(E1 & Id)|[(E2 & Id)|(Gt & S1 & S2)]].
        + destruct (T1 _ _ E1) as [X|(X & Y)]; rewrite E in *; cbn [fst snd] in *; eauto.
          right; right. split; [exact X|]. split; [exact Y|eauto].
        + destruct Id as [(Ep & ->)|Ep]; [|discriminate Ep].
          destruct (O2 _ _ E2) as ((N2 & D2) & [(-> & Es)|Lk]).
          * (* nobody has begun *)
            assert (Et : with_handles t h1 = with_handles s h1).
            { apply (f_equal (fun x => with_handles x h1)) in Es. exact Es. }
            assert (Eh : k2 = h2) by exact (f_equal f_handles Es).
            rewrite Et in E. pose proof (early_start H mv a (with_handles s h1) n id bs pd now h r s1) as St. fold e1 in St.
            rewrite <- Ep in St at 1. destruct (T1 _ _ St) as [X|(X & Y)]; rewrite E in *; cbn [fst snd] in *.
            -- left. split; [exact X|left; auto].
            -- right; right. auto.
          * symmetry in Ep. rewrite (B1 _ _ Ep) in E; [|exact N2|exact Lk]. injection E as <- <-.
            right; left. split; [exact E2|right; reflexivity].
        + right; right. inversion S1 as [|f' Q]; subst. destruct (Q (with_handles t k1) Gt) as (Y1 & Y2). rewrite E in Y1, Y2. auto.
      - destruct Iw as [(E1 & Id)|[(E2 & Id)|(Gt & S1 & S2)]].
        + destruct Id as [(Ep & ->)|Ep]; [|discriminate Ep].
          destruct (O1 _ _ E1) as ((N1 & D1) & [(-> & Es)|Lk]).
          * assert (Et : with_handles t h2 = with_handles s h2).
            { apply (f_equal (fun x => with_handles x h2)) in Es. exact Es. }
            assert (Eh : k1 = h1) by exact (f_equal f_handles Es).
            rewrite Et in E. pose proof (early_start H mv b (with_handles s h2) n id2 bs pd2 now2 h' r2 u1) as St. fold e2 in St.
            rewrite <- Ep in St at 1. destruct (T2 _ _ St) as [X|(X & Y)]; rewrite E in *; cbn [fst snd] in *.
            -- right; left. split; [exact X|left; auto].
            -- right; right. auto.
          * symmetry in Ep. rewrite (B2 _ _ Ep) in E; [|exact N1|exact Lk]. injection E as <- <-.
            left. split; [exact E1|right; reflexivity].
        + destruct (T2 _ _ E2) as [X|(X & Y)]; rewrite E in *; cbn [fst snd] in *; eauto.
          right; right. split; [exact X|]. split; [eauto|exact Y].
        + right; right. inversion S2 as [|f' Q]; subst. destruct (Q (with_handles t k2) Gt) as (Y1 & Y2). rewrite E in Y1, Y2. auto. }
    intros L En. destruct (Inv _ _ L) as [(E1 & Id)|[(E2 & Id)|((_ & G) & _)]].
    - left. split; [apply early_start|left; auto].
    - destruct (O1 _ _ E1) as ((N1 & D1) & _). cbn [with_handles f_dir] in N1. split.
      + unfold file_at. rewrite N1. f_equal. exact D1.
      + left. split; [|exact Id]. destruct E1 as (xs & A0 & _). eauto.
    - destruct (O2 _ _ E2) as ((N1 & D1) & _). cbn [with_handles f_dir] in N1. split.
      + unfold file_at. rewrite N1. f_equal. exact D1.
      + right. split; [|exact Id]. destruct E2 as (xs & A0 & _). eauto.
    - exfalso. apply (G n). rewrite En. exact X1.
  Qed.
End Both.
