(** What any query gives. *)
From Coq Require Import List Arith Bool Lia.
From Verif Require Import Base BaseLemmas AstModel SpecAst InterpModel InterpProofs QueryModel SpecQuery QueryProofs QueryMeanProofs.
Import ListNotations.

Section Run.
Context {V W : Type}.
Variable vnil : V.
Notation query := (query V W).
Notation fetcher := (fetcher V W).
Notation st := (st V W).

Scheme runs_mut := Minimality for runs Sort Prop
  with collects_mut := Minimality for collects Sort Prop
  with gathers_mut := Minimality for gathers Sort Prop.

(** The map has the last query of each name. *)
Definition logged (log : list query) (s : st) : Prop :=
  forall n, match mget n (fst s) with Some q => last_named log n q | None => none_named log n end.

Lemma logged_nil w : logged [] ([], w).
Proof. intros n. cbn. intros q []. Qed.

Lemma logged_lift log {A B} (f : ufn W A B) a s : logged log s -> logged log (snd (lift f a s)).
Proof. intros L n. rewrite lift_map. apply L. Qed.

Lemma logged_entered log q s : logged log s -> logged (q :: log) (entered q s).
Proof.
  intros L n. cbn [entered fst]. rewrite mget_mset. destruct (bytes_eqb n _) eqn:E.
  - apply bytes_eqb_true in E. exists [], log. refine (conj eq_refl (conj (eq_sym E) _)). intros q' [].
  - assert (D : name q <> n). { intros D. unfold name in D. rewrite D, bytes_eqb_refl in E. discriminate. }
    specialize (L n). destruct (mget n (fst s)) as [q'|].
    + destruct L as (l1 & l2 & -> & A & B). exists (q :: l1), l2. split; auto. split; auto. intros x [<- |I]; auto.
    + intros x [<- |I]; auto.
Qed.

Lemma last_fun log n (q q' : query) : last_named log n q -> last_named log n q' -> q = q'.
Proof.
  intros (l1 & l2 & E & A & B) (m1 & m2 & E' & A' & B').
  destruct (Nat.lt_trichotomy (length l1) (length m1)) as [L|[L|L]].
  - exfalso. apply (B' q); auto. eapply split_early; [exact E|exact E'|exact L].
  - rewrite E in E'. apply app_inj_length in E' as (_ & E'); [|exact L]. now injection E' as -> _.
  - exfalso. apply (B q'); auto. eapply split_early; [exact E'|exact E|exact L].
Qed.

Lemma last_none log n (q : query) : last_named log n q -> none_named log n -> False.
Proof. intros (l1 & l2 & -> & A & _) N. apply (N q); auto. rewrite in_app_iff. cbn. auto. Qed.

Lemma fetch_runs : forall n (q : query) t s log, height t <= n -> logged log s ->
  let '(o, s') := query_fetch vnil n q t s in
  o <> Fuel -> exists log', runs vnil log q t (snd s) o log' (snd s') /\ logged log' s'.
Proof.
  induction n as [|n IH]; intros q t s log L G; [pose proof (height_pos t); lia|].
  rewrite fetch_eq. pose proof (contents_spec (q_token q) t) as S.
  destruct (query_contents (q_token q) t) as [cs| | |] eqn:Ec.
  2:{ intros _. exists log. split; [now apply u_error|auto]. }
  2:{ intros _. exists log. split; [now apply u_panic|auto]. }
  2:{ congruence. }
  fold (entered q s). pose proof (logged_entered log q s G) as G1. unfold query_instance.
  assert (I : let '(o, s') := inside_instances (query_fetch vnil n) (q_inside q) cs (entered q s) in
    o <> Fuel -> exists log', collects vnil (q :: log) (q_inside q) cs (snd (entered q s)) o log' (snd s') /\ logged log' s').
  { destruct (q_inside q) as [f|f|fs] eqn:Ei; cbn [inside_instances].
    - destruct cs as [|c cs].
      + intros _. eexists. split; [constructor|auto].
      + pose proof (logged_lift _ f c _ G1) as A. unfold lift in *. destruct (f c (snd (entered q s))) as [o w] eqn:Ef.
        intros _. eexists. split; [now constructor|auto].
    - pose proof (logged_lift _ f cs _ G1) as A. unfold lift in *. destruct (f cs (snd (entered q s))) as [o w] eqn:Ef.
      intros _. eexists. split; [now constructor|auto].
    - rewrite rows_pairs.
      assert (X : forall l, incl l (pairs cs fs) -> forall s1 lg, logged lg s1 ->
        let '(o, s') := pairs_run (query_fetch vnil n) l s1 in
        o <> Fuel -> exists log', gathers vnil lg l (snd s1) o log' (snd s') /\ logged log' s').
      { induction l as [|[u f] l IHl]; intros Il s1 lg Gs; cbn [pairs_run].
        - intros _. exists lg. split; [constructor|auto].
        - destruct (pairs_in cs fs u f) as (Iu & If); [apply Il; cbn; auto|].
          pose proof (selection_height _ _ _ _ S Iu) as Hu.
          assert (F : (exists m, f = FRecursive m /\ none_named lg m /\ fetcher_run (query_fetch vnil n) f u s1 = (Err, s1)) \/
                      exists q', stands_after lg f q' /\ fetcher_run (query_fetch vnil n) f u s1 = query_fetch vnil n q' u s1).
          { destruct f as [m|q']; cbn [fetcher_run].
            - specialize (Gs m). destruct (mget m (fst s1)) as [q'|] eqn:Em.
              + right. exists q'. split; auto. now constructor.
              + left. exists m. auto.
            - right. exists q'. split; auto. constructor. }
          destruct F as [(m & -> & Nm & ->)|(q' & St & ->)].
          { cbn [qbind]. intros _. exists lg. split; [now apply g_unknown|auto]. }
          assert (IHq := IH q' u s1 lg). destruct (query_fetch vnil n q' u s1) as [o1 s2].
          assert (IHq' := IHq ltac:(lia) Gs). clear IHq.
          destruct o1 as [[v ok]| | |]; cbn [qbind].
          + destruct IHq' as (lg1 & B1 & B2); [discriminate|].
            assert (T : incl l (pairs cs fs)) by (intros x X; apply Il; cbn; auto).
            specialize (IHl T s2 lg1 B2). destruct (pairs_run (query_fetch vnil n) l s2) as [o2 s3].
            destruct o2 as [vs| | |]; cbn [qbind fst snd]; intros Nf; try congruence;
              (destruct IHl as (lg2 & C1 & C2); [discriminate|]); exists lg2; split; auto.
            * destruct ok; [eapply g_valid|eapply g_invalid]; eauto.
            * eapply g_later_error; eauto.
            * eapply g_later_panic; eauto.
          + intros _. destruct IHq' as (lg1 & B1 & B2); [discriminate|]. exists lg1. split; auto. eapply g_error; eauto.
          + intros _. destruct IHq' as (lg1 & B1 & B2); [discriminate|]. exists lg1. split; auto. eapply g_panic; eauto.
          + congruence. }
      specialize (X (pairs cs fs) (incl_refl _) (entered q s) (q :: log) G1).
      destruct (pairs_run (query_fetch vnil n) (pairs cs fs) (entered q s)) as [o s'].
      intros F. destruct (X F) as (lg & A & B). exists lg. split; auto. now constructor. }
  destruct (inside_instances (query_fetch vnil n) (q_inside q) cs (entered q s)) as [o s'].
  change (snd (entered q s)) with (snd s) in I.
  destruct o as [[|v vs]| | |]; cbn [qbind].
  - intros _. destruct I as (lg & A & B); [discriminate|]. exists lg. split; auto. eapply u_none; eauto.
  - destruct I as (lg & A & B); [discriminate|]. destruct (q_fn q) as [f|f] eqn:Ef.
    + pose proof (logged_lift _ f v _ B) as B1. unfold lift in *. destruct (f v (snd s')) as [o w] eqn:Eo.
      intros _. exists lg. split; auto. eapply u_single; eauto.
    + pose proof (logged_lift _ f (v :: vs) _ B) as B1. unfold lift in *. destruct (f (v :: vs) (snd s')) as [o w] eqn:Eo.
      intros _. exists lg. split; auto. eapply u_multi; eauto.
  - intros _. destruct I as (lg & A & B); [discriminate|]. exists lg. split; auto. eapply u_inside_error; eauto.
  - intros _. destruct I as (lg & A & B); [discriminate|]. exists lg. split; auto. eapply u_inside_panic; eauto.
  - congruence.
Qed.

Lemma runs_fetch : forall log (q : query) t w o log' w', runs vnil log q t w o log' w' ->
  forall n s, height t <= n -> snd s = w -> logged log s ->
  exists m', query_fetch vnil n q t s = (o, (m', w')) /\ logged log' (m', w').
Proof.
  pose (P1 := fun log (q : query) t w o log' w' => forall n s, height t <= n -> snd s = w -> logged log s ->
    exists m', query_fetch vnil n q t s = (o, (m', w')) /\ logged log' (m', w')).
  pose (P2 := fun log (i : inside V W) cs w o log' w' => forall n s, snd s = w -> logged log s ->
    (forall u, In (TTree u) cs -> height u <= n) ->
    exists m', inside_instances (query_fetch vnil n) i cs s = (o, (m', w')) /\ logged log' (m', w')).
  pose (P3 := fun log (l : list (tree * fetcher)) w o log' w' => forall n s, snd s = w -> logged log s ->
    (forall t f, In (t, f) l -> height t <= n) ->
    exists m', pairs_run (query_fetch vnil n) l s = (o, (m', w')) /\ logged log' (m', w')).
  assert (S1 : forall log q t w cs oi lg wi, selection (q_token q) t (Ok cs) -> P2 (q :: log) (q_inside q) cs w oi lg wi ->
    forall n s, height t <= S n -> snd s = w -> logged log s ->
    exists m1, logged lg (m1, wi) /\ query_fetch vnil (S n) q t s = qbind (oi, (m1, wi)) (fun vs s1 =>
      match vs with [] => (Ok (vnil, false), s1) | v :: _ => match q_fn q with QSingle f => lift f v s1 | QMulti f => lift f vs s1 end end)).
  { intros log q t w cs oi lg wi S I n s L <- G. rewrite fetch_eq. rewrite (proj1 (contents_iff _ _ _) S).
    unfold query_instance. destruct (I n (entered q s)) as (m1 & Em & Gm); auto.
    - now apply logged_entered.
    - intros u Iu. pose proof (selection_height _ _ _ _ S Iu). lia.
    - exists m1. split; auto. fold (entered q s). rewrite Em. reflexivity. }
  assert (S3 : forall log t f q' l w o1 lg w1, stands_after log f q' -> P1 log q' t w o1 lg w1 ->
    forall n s, snd s = w -> logged log s -> (forall t' f', In (t', f') ((t, f) :: l) -> height t' <= n) ->
    exists m1, logged lg (m1, w1) /\ pairs_run (query_fetch vnil n) ((t, f) :: l) s =
      qbind (o1, (m1, w1)) (fun r s1 => qbind (pairs_run (query_fetch vnil n) l s1) (fun vs s2 =>
        (Ok (if snd r then fst r :: vs else vs), s2)))).
  { intros log t f q' l w o1 lg w1 St I n s Es G H. 
    assert (F : fetcher_run (query_fetch vnil n) f t s = query_fetch vnil n q' t s).
    { destruct St as [q2|m q2 Lm]; cbn [fetcher_run]; auto. specialize (G m). destruct (mget m (fst s)) as [q3|].
      - now rewrite (last_fun _ _ _ _ G Lm).
      - exfalso. eapply last_none; eauto. }
    destruct (I n s) as (m1 & Em & Gm); auto; [eapply H; cbn; eauto|]. exists m1. split; auto.
    cbn [pairs_run]. rewrite F, Em. reflexivity. }
  assert (HP : forall t n, height t <= n -> exists n', n = S n').
  { intros t n L. pose proof (height_pos t). destruct n as [|n']; [lia|eauto]. }
  apply (runs_mut V W vnil P1 P2 P3); unfold P1, P2, P3 in *; clear P1 P2 P3.
  - intros log q t w S n s L <- G. destruct (HP _ _ L) as (n' & ->). rewrite fetch_eq.
    rewrite (proj1 (contents_iff _ _ _) S). exists (fst s). destruct s. auto.
  - intros log q t w S n s L <- G. destruct (HP _ _ L) as (n' & ->). rewrite fetch_eq.
    rewrite (proj1 (contents_iff _ _ _) S). exists (fst s). destruct s. auto.
  - intros log q t w cs lg w1 S _ I n s L Es G. destruct (HP _ _ L) as (n' & ->).
    destruct (S1 log q t w cs _ _ _ S I n' s L Es G) as (m1 & G1 & ->). exists m1. auto.
  - intros log q t w cs v vs lg w1 f o w2 S _ I Ef Eo n s L Es G. destruct (HP _ _ L) as (n' & ->).
    destruct (S1 log q t w cs _ _ _ S I n' s L Es G) as (m1 & G1 & ->). exists m1. cbn [qbind]. rewrite Ef. unfold lift. cbn [fst snd].
    rewrite Eo. auto.
  - intros log q t w cs v vs lg w1 f o w2 S _ I Ef Eo n s L Es G. destruct (HP _ _ L) as (n' & ->).
    destruct (S1 log q t w cs _ _ _ S I n' s L Es G) as (m1 & G1 & ->). exists m1. cbn [qbind]. rewrite Ef. unfold lift. cbn [fst snd].
    rewrite Eo. auto.
  - intros log q t w cs lg w1 S _ I n s L Es G. destruct (HP _ _ L) as (n' & ->).
    destruct (S1 log q t w cs _ _ _ S I n' s L Es G) as (m1 & G1 & ->). exists m1. auto.
  - intros log q t w cs lg w1 S _ I n s L Es G. destruct (HP _ _ L) as (n' & ->).
    destruct (S1 log q t w cs _ _ _ S I n' s L Es G) as (m1 & G1 & ->). exists m1. auto.
  - intros log f c cs w o w' Ef n s <- G H. cbn [inside_instances]. unfold lift. rewrite Ef. eauto.
  - intros log f w n s <- G H. cbn [inside_instances]. exists (fst s). destruct s. auto.
  - intros log f cs w o w' Ef n s <- G H. cbn [inside_instances]. unfold lift. rewrite Ef. eauto.
  - intros log fs cs w o lg w' _ I n s Es G H. cbn [inside_instances]. rewrite rows_pairs. apply I; auto.
    intros t f X. apply pairs_in in X as (X1 & X2). auto.
  - intros log w n s <- G H. exists (fst s). destruct s. auto.
  - intros log t m l w N n s <- G H. exists (fst s). cbn [pairs_run fetcher_run]. pose proof (G m) as Gm.
    destruct (mget m (fst s)) as [q|]; [exfalso; eapply last_none; eauto|]. destruct s. auto.
  - intros log t f q' l w v lg w1 vs lg2 w2 St _ I _ J n s Es G H.
    destruct (S3 log t f q' l w _ _ _ St I n s Es G H) as (m1 & G1 & ->). cbn [qbind].
    destruct (J n (m1, w1)) as (m2 & -> & G2); auto; [intros; eapply H; cbn; eauto|]. exists m2. auto.
  - intros log t f q' l w v lg w1 vs lg2 w2 St _ I _ J n s Es G H.
    destruct (S3 log t f q' l w _ _ _ St I n s Es G H) as (m1 & G1 & ->). cbn [qbind].
    destruct (J n (m1, w1)) as (m2 & -> & G2); auto; [intros; eapply H; cbn; eauto|]. exists m2. auto.
  - intros log t f q' l w lg w1 St _ I n s Es G H.
    destruct (S3 log t f q' l w _ _ _ St I n s Es G H) as (m1 & G1 & ->). exists m1. auto.
  - intros log t f q' l w lg w1 St _ I n s Es G H.
    destruct (S3 log t f q' l w _ _ _ St I n s Es G H) as (m1 & G1 & ->). exists m1. auto.
  - intros log t f q' l w v b lg w1 lg2 w2 St _ I _ J n s Es G H.
    destruct (S3 log t f q' l w _ _ _ St I n s Es G H) as (m1 & G1 & ->). cbn [qbind].
    destruct (J n (m1, w1)) as (m2 & -> & G2); auto; [intros; eapply H; cbn; eauto|]. exists m2. auto.
  - intros log t f q' l w v b lg w1 lg2 w2 St _ I _ J n s Es G H.
    destruct (S3 log t f q' l w _ _ _ St I n s Es G H) as (m1 & G1 & ->). cbn [qbind].
    destruct (J n (m1, w1)) as (m2 & -> & G2); auto; [intros; eapply H; cbn; eauto|]. exists m2. auto.
Qed.

Lemma execute_runs (q : query) t w n o w' : height t <= n -> o <> Fuel ->
  (query_execute vnil n q t w = (reported o (tr_remaining t), w') <-> exists log, runs vnil [] q t w o log w').
Proof.
  intros L F. split.
  - intros X. pose proof (fetch_runs n q t ([], w) [] L (logged_nil _)) as M.
    unfold query_execute in X. destruct (query_fetch vnil n q t ([], w)) as [o1 s1].
    cbn [snd] in M. injection X as X <-. assert (o1 = o) as <-.
    { destruct o1 as [r| | |], o as [r'| | |]; cbn in X; try discriminate; try reflexivity. now injection X as ->. }
    destruct (M F) as (lg & A & _). eauto.
  - intros (lg & M). destruct (runs_fetch _ _ _ _ _ _ _ M n ([], w) L eq_refl (logged_nil _)) as (m & Em & _).
    unfold query_execute. rewrite Em. reflexivity.
Qed.
End Run.
