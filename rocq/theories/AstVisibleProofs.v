(** Between values the channels do not matter. *)
From Coq Require Import List ZArith Lia Bool.
From Coq Require Import Init.Byte Strings.Byte.
From Verif Require Import Base BaseLemmas AstModel SpecAst AstProofs AstTraceProofs AstFuelProofs AstListProofs SpecPeg AstPegProofs.
Import ListNotations.

(** ** The skipped bytes *)
Lemma round_shrinks ps : Forall (fun p : peg ast => forall d a d', p d = Some (a, d') -> length d' < length d) ps ->
  forall d, peg_round ps d = d \/ length (peg_round ps d) < length d.
Proof.
  unfold peg_round. induction 1 as [|p ps Hp F IH]; intros d; cbn [fold_left]; auto.
  destruct (p d) as [[a d']|] eqn:E; auto. apply Hp in E. right. destruct (IH d') as [-> | L]; auto. lia.
Qed.
Lemma iter_stable f : (forall d : bytes, f d = d \/ length (f d) < length d) ->
  forall n d, length d <= n -> f (Nat.iter n f d) = Nat.iter n f d.
Proof.
  intros S. induction n as [|n IH]; intros d L.
  - destruct d; [|cbn in L; lia]. cbn. destruct (S []) as [E|E]; auto. cbn in E. lia.
  - destruct (S d) as [E|E].
    + rewrite iter_fixed by exact E. exact E.
    + rewrite iter_succ. apply IH. lia.
Qed.
Lemma channel_pegs_shrink (chs : list channel) :
  Forall (fun p : peg ast => forall d a d', p d = Some (a, d') -> length d' < length d)
    (map (fun c => let 'Channel t _ := c in peg_token (peg_skip []) t) chs).
Proof.
  apply Forall_forall. intros p I. apply in_map_iff in I as ([t cond] & <- & _). intros x a x'.
  apply peg_token_shrinks, lessens_id.
Qed.
Lemma skipper_stable chs d : skipper chs (skipper chs d) = skipper chs d.
Proof.
  unfold skipper at 1. unfold peg_skip. apply iter_fixed. unfold skipper, peg_skip.
  apply iter_stable; auto. apply round_shrinks, channel_pegs_shrink.
Qed.

Section Visible.
  Variable chs : list channel.
  Let sk := skipper chs.

  Lemma seen_skip d v : seen chs (sk d) v -> seen chs d v.
  Proof.
    unfold sk. intros S. inversion S as [? E|? b r ? E S']; subst; unfold skipped in E; fold (skipper chs) in E; rewrite skipper_stable in E.
    - now constructor.
    - eapply seen_byte; eauto.
  Qed.
  Lemma skip_seen d v : seen chs d v -> seen chs (sk d) v.
  Proof.
    unfold sk. intros S. inversion S as [? E|? b r ? E S']; subst; unfold skipped in E; fold (skipper chs) in E.
    - constructor. unfold skipped. fold (skipper chs). now rewrite skipper_stable.
    - eapply seen_byte; eauto. unfold skipped. fold (skipper chs). now rewrite skipper_stable.
  Qed.
  Lemma seen_nil v : seen chs [] v -> v = [].
  Proof.
    intros S. inversion S as [? E|? b r ? E S']; subst; auto. unfold skipped in E. fold (skipper chs) in E.
    pose proof (skipper_lessens chs []) as L. rewrite E in L. cbn in L. lia.
  Qed.
  Lemma seen_total d : exists v, seen chs d v.
  Proof.
    enough (A : forall n d, length d <= n -> exists v, seen chs d v) by (eapply A; eauto).
    induction n as [|n IH]; intros x L; destruct (skipper chs x) as [|b r] eqn:E; try (exists []; now constructor).
    - pose proof (skipper_lessens chs x) as S. rewrite E in S. cbn in S. lia.
    - pose proof (skipper_lessens chs x) as S. rewrite E in S. cbn in S. destruct (IH r) as (v & V); [lia|].
      exists (b :: v). eapply seen_byte; eauto.
  Qed.
  Lemma seen_unique d v : seen chs d v -> forall v', seen chs d v' -> v = v'.
  Proof.
    induction 1 as [d E|d b r v E S IH]; intros v' S'; inversion S' as [? E'|? b' r' v2 E' S2]; subst; unfold skipped in *; rewrite E in E'; try congruence.
    injection E' as <- <-. f_equal. auto.
  Qed.

  Definition moves (d d' v v' : bytes) : Prop := (d' = d /\ v' = v) \/ (length d' < length d /\ length v' < length v).
  Lemma moves_trans d d1 d2 v v1 v2 : moves d d1 v v1 -> moves d1 d2 v1 v2 -> moves d d2 v v2.
  Proof. intros [(-> & ->)|(A & B)] [(-> & ->)|(C & D)]; unfold moves; auto. right. lia. Qed.

  Definition sim {A} (p q : peg A) : Prop := forall d v, seen chs d v ->
    match q v with
    | Some (a, v') => exists d', p d = Some (a, d') /\ seen chs d' v' /\ moves d d' v v'
    | None => p d = None
    end.

  Lemma sim_byte b : sim (fun d => peg_byte b (sk d)) (fun d => peg_byte b (peg_skip [] d)).
  Proof.
    intros d v S. rewrite peg_skip_nil. inversion S as [? E|? b' r v' E S']; subst; unfold skipped in E; fold (skipper chs) in E; unfold sk; rewrite E; cbn [peg_byte].
    - reflexivity.
    - destruct (Byte.eqb b b'); auto. exists r. split; auto. split; auto. right.
      pose proof (skipper_lessens chs d) as L. rewrite E in L. cbn [length] in *. lia.
  Qed.

  Lemma sim_greedy {A} (p q : peg A) max : sim p q -> (forall d a d', p d = Some (a, d') -> length d' < length d) ->
    forall n m k d v, seen chs d v -> length d <= n -> length v <= m ->
    exists xs d' v', peg_greedy p max n k d = (xs, d') /\ peg_greedy q max m k v = (xs, v') /\ seen chs d' v' /\ moves d d' v v'.
  Proof.
    intros Sm Sh. assert (Qn : q [] = None).
    { pose proof (Sm [] [] (seen_end chs [] ltac:(unfold skipped; fold (skipper chs); destruct (skipper chs []) eqn:E; auto; pose proof (skipper_lessens chs []) as L; rewrite E in L; cbn in L; lia))) as H.
      destruct (q []) as [[a v']|]; auto. destruct H as (d' & E & _). apply Sh in E. cbn in E. lia. }
    assert (Gn : forall m k, peg_greedy q max m k [] = ([], [])).
    { destruct m; intros k; cbn [peg_greedy]; auto. rewrite Qn. destruct (match max with Some _ => _ | None => _ end); auto. }
    induction n as [|n IH]; intros m k d v S Ld Lv.
    - destruct d; [|cbn in Ld; lia]. apply seen_nil in S as V. subst v. exists [], [], []. rewrite Gn. cbn. repeat split; auto. now left.
    - cbn [peg_greedy]. destruct m as [|m].
      + destruct v; [|cbn in Lv; lia]. specialize (Sm _ _ S). rewrite Qn in Sm. rewrite Sm. exists [], d, []. cbn [peg_greedy].
        destruct (match max with Some _ => _ | None => _ end); repeat split; auto; now left.
      + cbn [peg_greedy]. destruct (match max with Some _ => _ | None => _ end) eqn:Em.
        { exists [], d, v. repeat split; auto. now left. }
        specialize (Sm _ _ S). destruct (q v) as [[a v1]|] eqn:Eq.
        * destruct Sm as (d1 & Ep & S1 & M). rewrite Ep. apply Sh in Ep. destruct M as [(-> & _)|(M1 & M2)]; [lia|].
          destruct (IH m (k + 1)%Z d1 v1 S1 ltac:(lia) ltac:(lia)) as (xs & d2 & v2 & -> & -> & S2 & M).
          exists (a :: xs), d2, v2. repeat split; auto. eapply moves_trans; eauto. now right.
        * rewrite Sm. exists [], d, v. repeat split; auto. now left.
  Qed.

  Lemma sim_times {A} (p q : peg A) min max : sim p q -> (forall d a d', p d = Some (a, d') -> length d' < length d) ->
    sim (peg_times p min max) (peg_times q min max).
  Proof.
    intros Sm Sh d v S. unfold peg_times.
    destruct (sim_greedy p q max Sm Sh (length d) (length v) 0 d v S (Nat.le_refl _) (Nat.le_refl _)) as (xs & d' & v' & -> & -> & S' & M).
    destruct (zlen xs <? min)%Z; auto. exists d'. auto.
  Qed.

  Lemma sim_seq (l : list container) (p q : container -> peg (list ast)) : (forall c, In c l -> sim (p c) (q c)) ->
    sim (peg_seq (map (fun c => (c_name c, p c)) l)) (peg_seq (map (fun c => (c_name c, q c)) l)).
  Proof.
    induction l as [|c l IH]; intros H d v S; cbn [map peg_seq].
    - exists d. repeat split; auto. now left.
    - pose proof (H c (or_introl eq_refl) d v S) as Sc. destruct (q c v) as [[xs v1]|]; [|now rewrite Sc].
      destruct Sc as (d1 & -> & S1 & M1). specialize (IH (fun c' I => H c' (or_intror I)) d1 v1 S1).
      destruct (peg_seq (map (fun c => (c_name c, q c)) l) v1) as [[es v2]|]; [|now rewrite IH].
      destruct IH as (d2 & -> & S2 & M2). exists d2. repeat split; auto. eapply moves_trans; eauto.
  Qed.

  Lemma sim_first {A B} (ls : list B) (p q : B -> peg A) : (forall l, In l ls -> sim (p l) (q l)) ->
    forall i, sim (peg_first i (map p ls)) (peg_first i (map q ls)).
  Proof.
    induction ls as [|l ls IH]; intros H i d v S; cbn [map peg_first]; auto.
    pose proof (H l (or_introl eq_refl) d v S) as Sl. specialize (IH (fun c I => H c (or_intror I)) (Datatypes.S i) d v S).
    destruct (q l v) as [[a v1]|].
    - destruct Sl as (d1 & -> & S1 & M). destruct M as [(-> & ->)|(M1 & M2)].
      + rewrite !Nat.ltb_irrefl. exact IH.
      + destruct (Nat.ltb_spec (length v1) (length v)); [|lia]. destruct (Nat.ltb_spec (length d1) (length d)); [|lia].
        exists d1. repeat split; auto. now right.
    - rewrite Sl. exact IH.
  Qed.

  Lemma sim_token : forall n t, tok_size t <= n -> every_container value_or_token t ->
    sim (peg_token sk t) (peg_token (peg_skip []) t).
  Proof.
    induction n as [|n IH]; intros t Sz V; [pose proof (tok_size_pos t); lia|].
    intros d v S. rewrite !peg_token_eq.
    assert (F : sim (peg_first 0 (map (line_peg sk) (t_lines t))) (peg_first 0 (map (line_peg (peg_skip [])) (t_lines t)))).
    { apply sim_first. intros l Il. unfold line_peg. apply sim_seq. intros c Ic.
      pose proof (V t l c (within_refl t) Il Ic) as Vc. destruct c as [e mi ma|m vs]; [|intros ? ? _; reflexivity].
      cbn [peg_container]. apply sim_times; [|intros ? ? ?; apply peg_content_shrinks, skipper_lessens].
      destruct e as [m b|m g|u|m u esc|m]; try contradiction.
      - apply sim_byte.
      - assert (C : child t u) by (eapply child_token; eauto). apply IH.
        + apply child_size in C. lia.
        + intros t' l' c' W. apply V. clear - W C. induction W as [|a b W IHW Cb]; [eapply within_step; eauto using within_refl|eapply within_step; eauto]. }
    specialize (F d v S). destruct (peg_first 0 (map (line_peg (peg_skip [])) (t_lines t)) v) as [[[i es] v']|] eqn:E.
    - destruct F as (d' & -> & S' & M). exists (sk d'). rewrite peg_skip_nil. split; auto. split; [now apply skip_seen|].
      apply peg_first_shrinks in E. destruct M as [(-> & ->)|(M1 & M2)]; [lia|]. right.
      pose proof (skipper_lessens chs d') as L. unfold sk. lia.
    - now rewrite F.
  Qed.
End Visible.

Lemma peg_of_seen root chs d v : every_container value_or_token root -> seen chs d v ->
  match peg_of (Grammar root []) v with
  | Some (a, v') => exists d', peg_of (Grammar root chs) d = Some (a, d') /\ seen chs d' v' /\ skipped chs d' d'
  | None => peg_of (Grammar root chs) d = None
  end.
Proof.
  intros V S. rewrite !peg_of_eq. rewrite skipper_nil. pose proof (sim_token chs _ root (Nat.le_refl _) V d v S) as H.
  destruct (peg_token (peg_skip []) root v) as [[a v']|]; auto. destruct H as (d' & E & S' & _). exists d'.
  split; auto. split; auto. rewrite peg_token_eq in E.
  destruct (peg_first 0 (map (line_peg (skipper chs)) (t_lines root)) d) as [[[i es] d1]|]; [|discriminate].
  injection E as _ <-. unfold skipped. fold (skipper chs). apply skipper_stable.
Qed.
