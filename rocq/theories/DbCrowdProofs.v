(** Any number of processes: those that only read do not notice each other, and the lock lets one commit work at a
    time until the file is replaced. *)
From Coq Require Import List ZArith NArith Lia Bool.
From Coq Require Import Init.Byte Strings.Byte.
From Verif Require Import Base BaseLemmas HashModel HashProofs SpecHash HashTreeModel HashTreeProofs
  RefModel RefProofs SpecRef DbModel SpecDb DbRefProofs DbFsProofs DbCommitProofs DbOpenProofs DbApiProofs
  DbSession DbSessionProofs DbMoreProofs DbMultiProofs DbFrameProofs DbForgeProofs DbConcurrent DbConcurrentProofs
  DbScheduleProofs DbSchedule2 DbSchedule3 DbSchedule4 DbSchedule5 DbSchedule6 DbCrowd.
Import ListNotations.

(** Equal except for the open files. *)
Definition alike (x y : fsys) : Prop := forall h, with_handles x h = with_handles y h.

Lemma alike_refl x : alike x x.
Proof. intros h. reflexivity. Qed.
Lemma alike_trans x y z : alike x y -> alike y z -> alike x z.
Proof. intros A B h. now rewrite A. Qed.
Lemma alike_sym x y : alike x y -> alike y x.
Proof. intros A h. now rewrite A. Qed.

Lemma quiet_alike {A} f s h s' (p : prog A) : quiet (Step f) -> f (with_handles s h) = (s', p) -> alike s' s /\ quiet p.
Proof.
  intros Q E. inversion Q as [|f' Q1]; subst. destruct (Q1 (with_handles s h)) as (E1 & Q2). rewrite E in E1, Q2. cbn [fst snd] in E1, Q2.
  split; [|exact Q2]. rewrite E1. intros k. reflexivity.
Qed.

(** ** Lists with one element replaced *)
Lemma nth_here {A} (pre : list A) x post : nth_error (pre ++ x :: post) (length pre) = Some x.
Proof. rewrite nth_error_app2, Nat.sub_diag by lia. reflexivity. Qed.
Lemma nth_elsewhere {A} (pre : list A) x y post i : i <> length pre -> nth_error (pre ++ x :: post) i = nth_error (pre ++ y :: post) i.
Proof.
  intros N. destruct (Nat.lt_ge_cases i (length pre)) as [L|L].
  - now rewrite !nth_error_app1.
  - rewrite !nth_error_app2 by lia. destruct (i - length pre) as [|j] eqn:E; [lia|reflexivity].
Qed.
Lemma length_replaced {A} (pre : list A) x y post : length (pre ++ x :: post) = length (pre ++ y :: post).
Proof. rewrite !app_length. reflexivity. Qed.

Lemma later_alike {A B} (w w' : world A B) : later w w' -> forall x, alike x (w_shared w) ->
  exists y, alike y (w_shared w') /\
    later (World (w_first w) (w_files1 w) (w_second w) (w_files2 w) x)
          (World (w_first w') (w_files1 w') (w_second w') (w_files2 w') y).
Proof.
  induction 1 as [w|f h1 q h2 s s' p' w E L IH|p h1 f h2 s s' q' w E L IH]; intros x X; cbn [w_first w_files1 w_second w_files2 w_shared] in *.
  - exists x. split; [exact X|constructor].
  - destruct (IH s' (alike_refl _)) as (y & Y & L'). exists y. split; [exact Y|].
    eapply later_first; [rewrite X; exact E|exact L'].
  - destruct (IH s' (alike_refl _)) as (y & Y & L'). exists y. split; [exact Y|].
    eapply later_second; [rewrite X; exact E|exact L'].
Qed.

Notation all_quiet := (Forall (fun x => quiet (fst x))).

(** ** One writer: what it and one of the readers go through is a schedule of these two *)
Lemma crowd_two {A B} (w w' : crowd A B) : crowd_later w w' -> all_quiet (c_readers w) ->
  forall p h, c_writers w = [(p, h)] ->
  exists p' h', c_writers w' = [(p', h')] /\
  forall i q k, nth_error (c_readers w) i = Some (q, k) ->
  exists q' k' y, nth_error (c_readers w') i = Some (q', k') /\ alike y (c_shared w') /\
    later (World p h q k (c_shared w)) (World p' h' q' k' y).
Proof.
  induction 1 as [w|pre f h0 post rs s s' p0 w E L IH|ws pre f h0 post s s' q0 w E L IH]; intros Q p h Ew; cbn [c_writers c_readers c_shared] in *.
  - exists p, h. split; [exact Ew|]. intros i q k N. exists q, k, (c_shared w). split; [exact N|]. split; [apply alike_refl|constructor].
  - destruct pre as [|x pre]; [|destruct pre; discriminate Ew]. cbn [app] in *. injection Ew as <- <- ->.
    destruct (IH Q _ _ eq_refl) as (p' & h' & Ew' & K). exists p', h'. split; [exact Ew'|]. intros i q k N.
    destruct (K i q k N) as (q' & k' & y & N' & Y & L'). exists q', k', y. split; [exact N'|]. split; [exact Y|].
    eapply later_first; [exact E|exact L'].
  - assert (Q0 := Q). apply Forall_app in Q0 as (Q1 & Q2). inversion Q2 as [|x l Q3 Q4]; subst. cbn [fst] in Q3.
    destruct (quiet_alike _ _ _ _ _ Q3 E) as (Al & Qq).
    assert (Q' : all_quiet (pre ++ (q0, f_handles s') :: post)) by (apply Forall_app; split; [exact Q1|constructor; [exact Qq|exact Q4]]).
    destruct (IH Q' p h eq_refl) as (p' & h' & Ew' & K). exists p', h'. split; [exact Ew'|]. intros i q k N.
    destruct (Nat.eq_dec i (length pre)) as [->|Ni].
    + rewrite nth_here in N. injection N as <- <-.
      destruct (K (length pre) q0 (f_handles s') (nth_here _ _ _)) as (q' & k' & y & N' & Y & L').
      exists q', k', y. split; [exact N'|]. split; [exact Y|]. eapply later_second; [exact E|exact L'].
    + rewrite (nth_elsewhere _ _ (q0, f_handles s')) in N by exact Ni. destruct (K i q k N) as (q' & k' & y & N' & Y & L').
      destruct (later_alike _ _ L' s (alike_sym _ _ Al)) as (y' & Y' & L'').
      exists q', k', y'. split; [exact N'|]. cbn [w_first w_files1 w_second w_files2 w_shared] in *.
      split; [exact (alike_trans _ _ _ Y' Y)|exact L''].
Qed.

(** The writer alone. *)
Lemma crowd_writer_alone {A B} (w w' : crowd A B) : crowd_later w w' -> all_quiet (c_readers w) ->
  forall p h, c_writers w = [(p, h)] ->
  exists p' h' xs, c_writers w' = [(p', h')] /\ alone p (with_handles (c_shared w) h) p' (with_handles (c_shared w') h') xs.
Proof.
  induction 1 as [w|pre f h0 post rs s s' p0 w E L IH|ws pre f h0 post s s' q0 w E L IH]; intros Q p h Ew; cbn [c_writers c_readers c_shared] in *.
  - exists p, h. eexists. split; [exact Ew|constructor].
  - destruct pre as [|x pre]; [|destruct pre; discriminate Ew]. cbn [app] in *. injection Ew as <- <- ->.
    destruct (IH Q _ _ eq_refl) as (p' & h' & xs & Ew' & A0). exists p', h', (with_handles s h0 :: xs). split; [exact Ew'|].
    rewrite handles_eta in A0. econstructor; [exact E|exact A0].
  - assert (Q0 := Q). apply Forall_app in Q0 as (Q1 & Q2). inversion Q2 as [|x l Q3 Q4]; subst. cbn [fst] in Q3.
    destruct (quiet_alike _ _ _ _ _ Q3 E) as (Al & Qq).
    assert (Q' : all_quiet (pre ++ (q0, f_handles s') :: post)) by (apply Forall_app; split; [exact Q1|constructor; [exact Qq|exact Q4]]).
    destruct (IH Q' p h eq_refl) as (p' & h' & xs & Ew' & A0). exists p', h', xs. split; [exact Ew'|]. now rewrite (Al h) in A0.
Qed.

Lemma crowd_readers_length {A B} (w w' : crowd A B) : crowd_later w w' -> length (c_readers w') = length (c_readers w).
Proof.
  induction 1 as [w|pre f h0 post rs s s' p0 w E L IH|ws pre f h0 post s s' q0 w E L IH]; cbn [c_readers] in *; auto.
  rewrite IH. apply length_replaced.
Qed.

(** ** Any number of writers: what a reader goes through *)
Lemma crowd_watch {A B} (w w' : crowd A B) : crowd_later w w' -> all_quiet (c_readers w) ->
  forall i q k o k', nth_error (c_readers w) i = Some (q, k) -> nth_error (c_readers w') i = Some (Ret o, k') ->
  exists x xs ys, watch q k (x :: xs) o k' ys /\ alike x (c_shared w) /\
    Forall (fun y => exists v, crowd_later w v /\ crowd_later v w' /\ y = c_shared v) (x :: xs).
Proof.
  induction 1 as [w|pre f h0 post rs s s' p0 w E L IH|ws pre f h0 post s s' q0 w E L IH]; intros Q i q k o k' N N'; cbn [c_writers c_readers c_shared] in *.
  - rewrite N in N'. injection N' as -> ->. exists (c_shared w), [], [c_shared w]. split; [constructor|]. split; [apply alike_refl|].
    constructor; [|constructor]. exists w. split; [constructor|]. split; [constructor|reflexivity].
  - destruct (IH Q i q k o k' N N') as (x & xs & ys & W & _ & F). exists s, (x :: xs), ys. split; [now apply watch_skip|]. split; [apply alike_refl|].
    constructor.
    + eexists. split; [apply crowd_now|]. split; [eapply crowd_writer; eauto|reflexivity].
    + eapply Forall_impl; [|exact F]. cbv beta. intros y (v & V1 & V2 & V3). exists v. split; [eapply crowd_writer; eauto|auto].
  - assert (Q0 := Q). apply Forall_app in Q0 as (Q1 & Q2). inversion Q2 as [|x l Q3 Q4]; subst. cbn [fst] in Q3.
    destruct (quiet_alike _ _ _ _ _ Q3 E) as (Al & Qq).
    assert (Q' : all_quiet (pre ++ (q0, f_handles s') :: post)) by (apply Forall_app; split; [exact Q1|constructor; [exact Qq|exact Q4]]).
    assert (Lift : forall l, Forall (fun y => exists v, crowd_later (Crowd ws (pre ++ (q0, f_handles s') :: post) s') v /\ crowd_later v w /\ y = c_shared v) l ->
      Forall (fun y => exists v, crowd_later (Crowd ws (pre ++ (Step f, h0) :: post) s) v /\ crowd_later v w /\ y = c_shared v) l).
    { intros l' F. eapply Forall_impl; [|exact F]. cbv beta. intros y (v & V1 & V2 & V3). exists v. split; [eapply crowd_reader; eauto|auto]. }
    destruct (Nat.eq_dec i (length pre)) as [->|Ni].
    + rewrite nth_here in N. injection N as <- <-.
      destruct (IH Q' (length pre) q0 (f_handles s') o k' (nth_here _ _ _) N') as (x & xs & ys & W & X & F).
      exists x, xs, ys. split; [|split; [exact (alike_trans _ _ _ X Al)|auto]].
      apply (watch_step _ _ _ _ s' q0); [|exact W]. now rewrite X, Al.
    + rewrite (nth_elsewhere _ _ (q0, f_handles s')) in N by exact Ni.
      destruct (IH Q' i q k o k' N N') as (x & xs & ys & W & X & F).
      exists x, xs, ys. split; [exact W|]. split; [exact (alike_trans _ _ _ X Al)|auto].
Qed.

(** ** The lock among any number of commits *)
Section Lock.
  Variable H : bytes -> bytes.
  Variable mv : byte.
  Hypothesis HL : forall x, length (H x) = 64.
  Variables (s : fsys) (n : bytes) (bs : list batch) (i : nat).
  Hypothesis Name : dir_get (f_dir s) n = Some (EFile i).

  (** [E] describes how far the commit [p0], started with the open files [h], has gone alone before it removes the
      file. *)
  Record good (p0 : prog dbapp) (h : list handle) (E : prog dbapp -> fsys -> Prop) : Prop := Good {
    good_start : E p0 (with_handles s h);
    good_old : forall p x, E p x -> old_at H mv n bs i x /\ (p = p0 /\ x = with_handles s h \/ f_locks x = [i]);
    good_step : forall f x, E (Step f) x -> E (snd (f x)) (fst (f x)) \/ (gone i (fst (f x)) /\ safe (gone i) any (snd (f x)));
    good_safe : safe (gone i) any p0;
    good_blocked : forall f x, p0 = Step f -> dir_get (f_dir x) n = Some (EFile i) -> f_locks x = [i] -> f x = (x, Ret Err);
    good_alone : forall p x, E p x -> exists xs, alone p0 (with_handles s h) p x xs;
    good_grows : forall p x, E p x -> length (f_data s) <= length (f_data x) }.

  Lemma commit_good a h id pd now : synced H mv a (with_handles s h) n id bs pd -> ok_batch (pd, now) ->
    fits H mv (bs ++ [(pd, now)]) -> chunk_ok (a_chunk a) (history_data bs) ->
    exists E, good (p_commit H mv now a (with_handles s h) id) h E.
  Proof.
    intros Sy Wb Ft Ch.
    destruct (commit_parts H mv HL a (with_handles s h) n id bs pd now Sy Wb Ft Ch) as (j & h' & r & s1 & s6 & s7 & s8 & s9 & s10 & d & bk & off & P).
    pose proof (pa_name _ _ _ _ _ _ _ _ _ _ _ _ _ _ _ _ _ _ _ _ _ P) as X1. cbn [with_handles f_dir] in X1.
    assert (j = i) by congruence. subst j.
    exists (early H mv a (with_handles s h) n id bs pd now h' r s1). constructor.
    - apply early_start.
    - exact (early_old H mv a (with_handles s h) n id bs pd now i h' r s1 s6 s7 s8 s9 s10 d bk off P).
    - exact (early_step H mv a (with_handles s h) n id bs pd now Sy i h' r s1 s6 s7 s8 s9 s10 d bk off P).
    - exact (gone_commit H mv a (with_handles s h) n id bs pd now i h' r s1 s6 s7 s8 s9 s10 d bk off P).
    - exact (commit_blocked H mv a (with_handles s h) n id bs pd now i h' r s1 s6 s7 s8 s9 s10 d bk off P).
    - intros p x (xs & A0 & _). eauto.
    - intros p x (xs & A0 & _). destruct (alone_states _ _ _ _ _ A0) as ((pre & -> & Es) & _).
      destruct (states_cons p x) as (l & El). rewrite El in Es.
      apply (commit_grows H mv now a (with_handles s h) id x (synced_fs H mv a (with_handles s h) n id bs pd Sy)).
      rewrite <- states_p_commit, Es. apply in_or_app. right. now left.
  Qed.

  Notation start := (list (prog dbapp * list handle)).

  (** Writer [k] of [l] works alone, and no other has begun. *)
  Definition one_works (l : start) {B} (w : crowd dbapp B) : Prop :=
    exists k p0 h E p hs, nth_error l k = Some (p0, h) /\ nth_error (c_writers w) k = Some (p, hs) /\
      good p0 h E /\ E p (with_handles (c_shared w) hs) /\
      forall j p1 h1, j <> k -> nth_error l j = Some (p1, h1) ->
        exists p2 h2, nth_error (c_writers w) j = Some (p2, h2) /\ idle p1 p2 h1 h2.

  Definition all_good (l : start) : Prop := Forall (fun x => exists E, good (fst x) (snd x) E) l.

  Definition stays (l : start) {B} (w : crowd dbapp B) : Prop :=
    length (c_writers w) = length l /\
    (one_works l w \/ (gone i (c_shared w) /\ Forall (fun x => safe (gone i) any (fst x)) (c_writers w))).

  Lemma safe_fail (o : outcome dbapp) : safe (gone i) any (Ret o).
  Proof. constructor. intros; exact Logic.I. Qed.

  Lemma stays_writer (l : start) B pre f h post (rs : list (prog B * list handle)) t t' p' : all_good l ->
    f (with_handles t h) = (t', p') -> stays l (Crowd (pre ++ (Step f, h) :: post) rs t) ->
    stays l (Crowd (pre ++ (p', f_handles t') :: post) rs t').
  Proof.
    intros G Ef (Ln & C). unfold stays. cbn [c_writers c_shared] in *. split; [rewrite <- Ln; apply length_replaced|].
    destruct C as [(k & p0 & h0 & E & p & hs & Nk & Nw & Gk & Ek & Id)|(Gt & Sf)].
    - cbn [c_writers c_shared] in *.
      assert (Sid : forall j p2 h2, j <> k -> nth_error (pre ++ (Step f, h) :: post) j = Some (p2, h2) -> safe (gone i) any p2).
      { intros j p2 h2 Nj X. assert (Lj : j < length l) by (rewrite <- Ln; apply nth_error_Some; congruence).
        apply nth_error_Some in Lj. destruct (nth_error l j) as [[p1 h1]|] eqn:Ej; [|congruence].
        destruct (Id j p1 h1 Nj Ej) as (p3 & h3 & X' & I3). rewrite X in X'. injection X' as <- <-.
        destruct I3 as [(-> & _)| ->]; [|apply safe_fail]. unfold all_good in G. rewrite Forall_forall in G.
        destruct (G (p1, h1) (nth_error_In _ _ Ej)) as (E1 & G1). exact (good_safe _ _ _ G1). }
      destruct (Nat.eq_dec k (length pre)) as [->|Nk'].
      + rewrite nth_here in Nw. injection Nw as <- <-. destruct (good_step _ _ _ Gk _ _ Ek) as [X|(X & Y)]; rewrite Ef in X; cbn [fst snd] in X.
        * left. exists (length pre), p0, h0, E, p', (f_handles t'). split; [exact Nk|]. split; [apply nth_here|]. split; [exact Gk|]. cbn [c_shared].
          split; [rewrite handles_eta; exact X|]. intros j p1 h1 Nj Ej. destruct (Id j p1 h1 Nj Ej) as (p2 & h2 & X2 & I2). exists p2, h2. split; [|exact I2].
          cbn [c_writers]. rewrite <- X2. now apply nth_elsewhere.
        * right. rewrite Ef in Y. cbn [snd] in Y. split; [exact X|]. apply Forall_forall. intros [p2 h2] I2. apply In_nth_error in I2 as (j & Ej). cbn [fst].
          destruct (Nat.eq_dec j (length pre)) as [->|Nj]; [rewrite nth_here in Ej; injection Ej as <- _; exact Y|].
          rewrite (nth_elsewhere _ _ (Step f, h)) in Ej by exact Nj. eauto.
      + assert (Ll : length pre < length l) by (rewrite <- Ln, app_length; cbn [length]; lia).
        apply nth_error_Some in Ll. destruct (nth_error l (length pre)) as [[p1 h1]|] eqn:Ep; [|congruence].
        destruct (Id (length pre) p1 h1 ltac:(auto) Ep) as (p2 & h2 & X2 & I2). rewrite nth_here in X2. injection X2 as <- <-.
        destruct I2 as [(E1 & ->)|E1]; [|discriminate E1].
        assert (G1 := G). unfold all_good in G1. rewrite Forall_forall in G1. destruct (G1 (p1, h1) (nth_error_In _ _ Ep)) as (E' & G'). cbn [fst snd] in G'.
        rewrite (nth_elsewhere _ _ (p', f_handles t')) in Nw by exact Nk'.
        destruct (good_old _ _ _ Gk _ _ Ek) as ((O1 & O2) & [(-> & Es)|Lk]).
        * (* nobody has begun *)
          assert (Et : with_handles t h1 = with_handles s h1) by exact (f_equal (fun x => with_handles x h1) Es).
          assert (Eh : hs = h0) by exact (f_equal f_handles Es). subst hs.
          rewrite Et in Ef. pose proof (good_start _ _ _ G') as St. rewrite <- E1 in St.
          destruct (good_step _ _ _ G' _ _ St) as [X|(X & Y)]; rewrite Ef in X; cbn [fst snd] in X.
          -- left. exists (length pre), p1, h1, E', p', (f_handles t'). split; [exact Ep|]. split; [apply nth_here|]. split; [exact G'|]. cbn [c_shared].
             split; [rewrite handles_eta; exact X|]. intros j p3 h3 Nj Ej. cbn [c_writers].
             destruct (Nat.eq_dec j k) as [->|Njk].
             ++ rewrite Nk in Ej. injection Ej as <- <-. exists p0, h0. split; [exact Nw|left; auto].
             ++ destruct (Id j p3 h3 Njk Ej) as (p4 & h4 & X4 & I4). exists p4, h4. split; [|exact I4]. rewrite <- X4. now apply nth_elsewhere.
          -- right. rewrite Ef in Y. cbn [snd] in Y. split; [exact X|]. apply Forall_forall. intros [p3 h3] I3. apply In_nth_error in I3 as (j & Ej). cbn [fst].
             destruct (Nat.eq_dec j (length pre)) as [->|Nj]; [rewrite nth_here in Ej; injection Ej as <- _; exact Y|].
             destruct (Nat.eq_dec j k) as [->|Njk].
             ++ rewrite Nw in Ej. injection Ej as <- <-. exact (good_safe _ _ _ Gk).
             ++ rewrite (nth_elsewhere _ _ (Step f, h1)) in Ej by exact Nj. eauto.
        * (* the lock is taken *)
          rewrite (good_blocked _ _ _ G' f (with_handles t h1) (eq_sym E1) O1 Lk) in Ef. injection Ef as <- <-.
          left. exists k, p0, h0, E, p, hs. split; [exact Nk|]. split; [exact Nw|]. split; [exact Gk|]. split; [exact Ek|].
          intros j p3 h3 Nj Ej. cbn [c_writers]. destruct (Nat.eq_dec j (length pre)) as [->|Nj'].
          -- exists (Ret Err). eexists. split; [apply nth_here|right; reflexivity].
          -- destruct (Id j p3 h3 Nj Ej) as (p4 & h4 & X4 & I4). exists p4, h4. split; [|exact I4]. rewrite <- X4. now apply nth_elsewhere.
    - right. apply Forall_app in Sf as (S1 & S2). inversion S2 as [|x m S3 S4]; subst. cbn [fst] in S3. inversion S3 as [|f' Q]; subst.
      destruct (Q (with_handles t h) Gt) as (Y1 & Y2). rewrite Ef in Y1, Y2. cbn [fst snd] in Y1, Y2.
      split; [exact Y1|]. apply Forall_app. split; [exact S1|]. constructor; [exact Y2|exact S4].
  Qed.

  Lemma crowd_stays {B} (l : start) (w w' : crowd dbapp B) : all_good l -> crowd_later w w' -> all_quiet (c_readers w) ->
    stays l w -> stays l w'.
  Proof.
    intros G. induction 1 as [w|pre f h0 post rs t t' p0 w E L IH|ws pre f h0 post t t' q0 w E L IH]; intros Q St; cbn [c_readers] in *; auto.
    - apply IH; [exact Q|]. eapply stays_writer; eauto.
    - assert (Q0 := Q). apply Forall_app in Q0 as (Q1 & Q2). inversion Q2 as [|x m Q3 Q4]; subst. cbn [fst] in Q3.
      destruct (quiet_alike _ _ _ _ _ Q3 E) as (Al & Qq). apply IH.
      + apply Forall_app; split; [exact Q1|constructor; [exact Qq|exact Q4]].
      + destruct St as (Ln & C). split; [exact Ln|]. cbn [c_writers c_shared] in *.
        destruct C as [(k & p1 & h1 & E1 & p & hs & Nk & Nw & Gk & Ek & Id)|(Gt & Sf)].
        * left. exists k, p1, h1, E1, p, hs. split; [exact Nk|]. split; [exact Nw|]. split; [exact Gk|]. cbn [c_shared c_writers] in *.
          split; [rewrite (Al hs); exact Ek|exact Id].
        * right. split; [|exact Sf]. pose proof (Al []) as X. destruct Gt as (G1 & G2). split.
          -- change (f_data t') with (f_data (with_handles t' [])). rewrite X. exact G1.
          -- change (f_dir t') with (f_dir (with_handles t' [])). rewrite X. exact G2.
  Qed.

  Lemma stays_start {B} (l : start) (rs : list (prog B * list handle)) : all_good l -> l <> [] -> stays l (Crowd l rs s).
  Proof.
    intros G N. split; [reflexivity|]. left. destruct l as [|[p h] l]; [congruence|]. unfold all_good in G. inversion G as [|x m (E & G1) G2]; subst.
    exists 0, p, h, E, p, h. split; [reflexivity|]. split; [reflexivity|]. split; [exact G1|]. split; [exact (good_start _ _ _ G1)|].
    intros j p1 h1 _ Ej. exists p1, h1. split; [exact Ej|left; auto].
  Qed.

  (** The file is what it was, or is gone for good. *)
  Lemma stays_old {B} (l : start) (w : crowd dbapp B) : stays l w -> old_at H mv n bs i (c_shared w) \/ gone i (c_shared w).
  Proof.
    intros (_ & [(k & p0 & h & E & p & hs & Nk & Nw & Gk & Ek & Id)|(Gt & _)]); [left|now right].
    destruct (good_old _ _ _ Gk _ _ Ek) as (O & _). exact O.
  Qed.
  Lemma stays_gone {B} (l : start) (w w' : crowd dbapp B) : stays l w -> crowd_later w w' -> all_quiet (c_readers w) ->
    gone i (c_shared w) -> Forall (fun x => safe (gone i) any (fst x)) (c_writers w) -> gone i (c_shared w').
  Proof.
    intros _. induction 1 as [w|pre f h0 post rs t t' p0 w E L IH|ws pre f h0 post t t' q0 w E L IH]; intros Q Gt Sf; cbn [c_readers c_writers c_shared] in *; auto.
    - apply Forall_app in Sf as (S1 & S2). inversion S2 as [|x m S3 S4]; subst. cbn [fst] in S3. inversion S3 as [|f' Qs]; subst.
      destruct (Qs (with_handles t h0) Gt) as (Y1 & Y2). rewrite E in Y1, Y2. cbn [fst snd] in Y1, Y2.
      apply IH; [exact Q|exact Y1|]. apply Forall_app. split; [exact S1|]. constructor; [exact Y2|exact S4].
    - assert (Q0 := Q). apply Forall_app in Q0 as (Q1 & Q2). inversion Q2 as [|x m Q3 Q4]; subst. cbn [fst] in Q3.
      destruct (quiet_alike _ _ _ _ _ Q3 E) as (Al & Qq). apply IH; [| |exact Sf].
      + apply Forall_app; split; [exact Q1|constructor; [exact Qq|exact Q4]].
      + pose proof (Al []) as X. destruct Gt as (G1 & G2). split.
        -- change (f_data t') with (f_data (with_handles t' [])). rewrite X. exact G1.
        -- change (f_dir t') with (f_dir (with_handles t' [])). rewrite X. exact G2.
  Qed.

  Hypothesis Li : i < length (f_data s).
  Hypothesis Fb : Forall ok_batch bs.
  Hypothesis Fit : fits H mv bs.
  Variable behind : bytes -> bytes.

  Section Until.
  Variables (B : Type) (l : start) (rs : list (prog B * list handle)) (w : crowd dbapp B).
  Hypothesis G : all_good l.
  Hypothesis Nl : l <> [].
  Hypothesis Qr : all_quiet rs.
  Hypothesis L : crowd_later (Crowd l rs s) w.
  Hypothesis Same : dir_get (f_dir (c_shared w)) n = dir_get (f_dir s) n.

  Lemma until_stays v : crowd_later (Crowd l rs s) v -> stays l v.
  Proof. intros Lv. eapply crowd_stays; [exact G|exact Lv|exact Qr|]. now apply stays_start. Qed.

  Lemma until_works v : crowd_later (Crowd l rs s) v -> crowd_later v w -> all_quiet (c_readers v) -> one_works l v.
  Proof.
    intros Lv Lw Q. destruct (until_stays v Lv) as (Ln & [X|(Gt & Sf)]); [exact X|]. exfalso.
    pose proof (stays_gone l v w (until_stays v Lv) Lw Q Gt Sf) as (_ & X). apply (X n). now rewrite Same.
  Qed.

  Lemma works_old (v : crowd dbapp B) : one_works l v -> old_at H mv n bs i (c_shared v) /\ length (f_data s) <= length (f_data (c_shared v)).
  Proof.
    intros (k & p0 & h & E & p & hs & Nk & Nw & Gk & Ek & Id). split.
    - destruct (good_old _ _ _ Gk _ _ Ek) as (O & _). exact O.
    - exact (good_grows _ _ _ Gk _ _ Ek).
  Qed.
  End Until.

  Lemma quiet_later {A B} (v w : crowd A B) : crowd_later v w -> all_quiet (c_readers v) -> all_quiet (c_readers w).
  Proof.
    induction 1 as [w|pre f h0 post rs t t' p0 w E L IH|ws pre f h0 post t t' q0 w E L IH]; intros Q; cbn [c_readers] in *; auto.
    assert (Q0 := Q). apply Forall_app in Q0 as (Q1 & Q2). inversion Q2 as [|x m Q3 Q4]; subst. cbn [fst] in Q3.
    destruct (quiet_alike _ _ _ _ _ Q3 E) as (Al & Qq). apply IH. apply Forall_app; split; [exact Q1|constructor; [exact Qq|exact Q4]].
  Qed.

  Lemma until_opens (l : start) rs w b hs j o hs' : all_good l -> l <> [] -> all_quiet rs ->
    crowd_later (Crowd l rs s) w -> dir_get (f_dir (c_shared w)) n = dir_get (f_dir s) n ->
    good_config b -> existsb (fun x => bytes_eqb (x_name (snd x)) n) (a_ctxs b) = false ->
    nth_error rs j = Some (p_open H mv behind b n, hs) -> nth_error (c_readers w) j = Some (Ret o, hs') ->
    exists b' id', o = Ok (b', id') /\ shows H (b', with_handles (c_shared w) hs', id') bs.
  Proof.
    intros G Nl Qr L Same Gb Nb Nj Nw. assert (Gb' := Gb). destruct Gb' as (G1 & G2).
    destruct (crowd_watch _ _ L Qr j _ _ _ _ Nj Nw) as (x & xs & ys & W & _ & F).
    assert (Old : forall y, In y (x :: xs) -> old_at H mv n bs i y).
    { rewrite Forall_forall in F. intros y Iy. destruct (F y Iy) as (v & V1 & V2 & ->).
      refine (proj1 (works_old _ l v _)). eapply (until_works _ l rs w G Nl Qr Same v V1 V2). exact (quiet_later _ _ V1 Qr). }
    assert (Ow : one_works l w). { eapply (until_works _ l rs w G Nl Qr Same w L); [constructor|exact (quiet_later _ _ L Qr)]. }
    destruct (works_old _ l w Ow) as ((O1 & O2) & Lw).
    assert (St : steady n (x :: xs)).
    { intros p z q k y Es Ez Iy. rewrite Es in Old. destruct (Old z) as (Z1 & Z2); [apply in_or_app; right; now left|].
      destruct (Old y) as (Y1 & Y2); [apply in_or_app; now right|]. assert (k = i) by congruence. subst k. congruence. }
    apply watch_p_open in W as (p & z & q & Es & M); auto. rewrite Es in Old.
    destruct (Old z) as (Z1 & Z2); [apply in_or_app; right; now left|].
    rewrite Z1, Z2, (retrieve_file H mv behind HL) in M by auto. destruct M as (y & Iy & M).
    destruct (Old y) as (Y1 & Y2); [apply in_or_app; now right|]. rewrite Y1 in M. destruct M as (-> & ->).
    eexists _, _. split; [reflexivity|].
    eapply (shows_at H mv behind HL _ _ n _ (S (length hs)) i); auto; [apply opened_ctx_file|apply second_end|].
    cbn [with_handles f_data]. lia.
  Qed.
End Lock.
