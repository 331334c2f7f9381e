From Coq Require Import List ZArith Bool Lia Arith.
From Coq Require Import Init.Byte Strings.Byte.
From Verif Require Import Base BaseLemmas AstModel SpecAst AstProofs AstTraceProofs AstFuelProofs AstPanicProofs AstListProofs CoverModel SpecCover.
Import ListNotations.

(** ** Compositions *)
Lemma all_repeat (b : byte) w : (forall x, In x w -> x = b) -> w = repeat b (length w).
Proof. induction w as [|x w IH]; cbn; intros H; auto. rewrite (H x) by auto. f_equal. auto. Qed.

Lemma spells_bytes l w : small l -> spells l w -> w = compose_bytes l.
Proof.
  intros Sm H. induction H as [|b n l w w' Hn Hl Hw H IH]; auto. cbn [compose_bytes flat_map fst snd].
  rewrite i64_small by (apply (Sm b); now left). fold (compose_bytes l). rewrite IH by (intros c m I; apply (Sm c m); now right).
  rewrite (all_repeat b w Hw), Hl. now rewrite !repeat_length || reflexivity.
Qed.
Lemma compose_spells l : small l -> spells l (compose_bytes l).
Proof.
  induction l as [|[b n] l IH]; intros Sm; [constructor|]. cbn [compose_bytes flat_map fst snd]. fold (compose_bytes l).
  assert (Hn : (0 <= n < two63)%Z) by (apply (Sm b); now left). rewrite i64_small by auto.
  constructor; [lia|apply repeat_length|intros x I; now apply repeat_spec in I|]. apply IH. intros c m I. apply (Sm c m). now right.
Qed.

Lemma compose_line_spells l w : (forall n vs, In (CCompose n vs) l -> small vs) ->
  compose_line l = Ok w <-> line_spells l w.
Proof.
  revert w. induction l as [|c l IH]; intros w Sm; cbn [compose_line].
  - split; [intros [= <-]; constructor|inversion 1; auto].
  - assert (IH' : forall w, compose_line l = Ok w <-> line_spells l w) by (intros; apply IH; intros; apply (Sm n); now right).
    destruct c as [e mi ma|n vs]; [split; [discriminate|inversion 1]|].
    split.
    + destruct (compose_line l) as [r| | |] eqn:E; cbn [bind]; try discriminate. intros [= <-]. constructor; [|now apply IH'].
      apply compose_spells. apply (Sm n). now left.
    + inversion 1 as [|n' vs' l' w1 w2 Sp Ls]; subst. apply IH' in Ls. rewrite Ls. cbn [bind]. f_equal. f_equal. symmetry. apply spells_bytes; auto. apply (Sm n). now left.
Qed.

Lemma compose_line_err l : (exists e min max, In (CElement e min max) l) <-> compose_line l = Err.
Proof.
  induction l as [|c l IH]; cbn [compose_line].
  - split; [now intros (? & ? & ? & [])|discriminate].
  - destruct c as [e mi ma|n vs].
    + split; auto. intros _. exists e, mi, ma. now left.
    + split.
      * intros (e & mi & ma & [I|I]); [discriminate|]. now rewrite (proj1 IH) by eauto.
      * destruct (compose_line l) eqn:E; cbn [bind]; try discriminate. intros _. destruct (proj2 IH eq_refl) as (e & mi & ma & I). exists e, mi, ma. now right.
Qed.

(** ** Equations *)
Section Cov.
  Variable fuel : nat.
  Section Lines.
  Variable chs : list channel.
  Fixpoint cov_line (l : list container) (skip : list bytes) : outcome (list coverage * list bytes) :=
    match l with
    | [] => Ok ([], skip)
    | c :: l' =>
      do x <- cov_container fuel c chs skip;
      do y <- cov_line l' (snd x);
      Ok (fst x ++ fst y, snd y)
    end.
  Fixpoint cov_lines (ls : list (list container)) (skip : list bytes) : outcome (list coverage * list bytes) :=
    match ls with
    | [] => Ok ([], skip)
    | l :: ls' =>
      do a <- cov_line l skip;
      do b <- cov_lines ls' (snd a);
      Ok (fst a ++ fst b, snd b)
    end.
  End Lines.
  Fixpoint cov_channels (l : list channel) (skip : list bytes) : outcome (list coverage) :=
    match l with
    | [] => Ok []
    | Channel t _ :: l' =>
      do x <- cov_token fuel t [] skip;
      do y <- cov_channels l' (snd x);
      Ok (fst x ++ y)
    end.

  Lemma cov_token_eq t chs skip : cov_token fuel t chs skip =
    if existsb (bytes_eqb (t_name t)) skip then Ok ([], skip)
    else
      do ex <- suites_run fuel t chs (t_suites t);
      do r <- cov_lines chs (t_lines t) (t_name t :: skip);
      Ok (fst r ++ match ex with [] => [] | _ => [Coverage t ex] end, snd r).
  Proof. destruct t. reflexivity. Qed.
  Lemma cov_external_eq n g chs skip : cov_content fuel (EExternal n g) chs skip = do x <- coverages fuel g; Ok (x, skip).
  Proof. reflexivity. Qed.
  Lemma cov_inner_eq u chs skip : cov_content fuel (EToken u) chs skip = cov_token fuel u chs skip.
  Proof. reflexivity. Qed.
  Lemma cov_everything_eq n u esc chs skip : cov_content fuel (EEverything n u esc) chs skip =
    do x <- cov_token fuel u chs skip;
    match esc with
    | None => Ok x
    | Some e' => do y <- cov_token fuel e' chs (snd x); Ok (fst x ++ fst y, snd y)
    end.
  Proof. reflexivity. Qed.
  Lemma cov_element_eq e min max chs skip : cov_container fuel (CElement e min max) chs skip = cov_content fuel e chs skip.
  Proof. reflexivity. Qed.
  Lemma coverages_eq root chs : coverages fuel (Grammar root chs) =
    do r <- cov_token fuel root chs [];
    do c <- cov_channels chs (snd r);
    Ok (c ++ fst r).
  Proof. reflexivity. Qed.
End Cov.

Lemma grammar_induction (P : token -> Prop) (R : grammar -> Prop) :
  (forall t, (forall u, child t u -> P u) ->
     (forall l n g min max, In l (t_lines t) -> In (CElement (EExternal n g) min max) l -> R g) -> P t) ->
  (forall root chs, P root -> (forall t cond, In (Channel t cond) chs -> P t) -> R (Grammar root chs)) ->
  (forall t, P t) /\ (forall g, R g).
Proof.
  intros HP HR.
  assert (A : forall n, (forall t, tok_size t <= n -> P t) /\ (forall g, gram_size g <= n -> R g)).
  { induction n as [|n [IP IR]].
    - split; [intros t L; pose proof (tok_size_pos t); lia|intros [root chs] L; cbn [gram_size] in L; lia].
    - split.
      + intros t L. apply HP.
        * intros u C. apply IP. apply child_size in C. lia.
        * intros l m g mi ma I Ic. apply IR. pose proof (tok_size_container _ _ _ I Ic) as S'. cbn [cont_size econ_size] in S'. lia.
      + intros [root chs] L. cbn [gram_size] in L. apply HR.
        * apply IP. lia.
        * intros t cond I. apply IP. apply in_chan_size in I. cbn [chan_size] in I. lia. }
  split; [intros t; apply (proj1 (A (tok_size t)))|intros g; apply (proj2 (A (gram_size g)))]; auto.
Qed.

(** ** What is listed *)
Definition entry (fuel : nat) (g : grammar) (c : coverage) : Prop :=
  exists chs, part_of g (cv_token c) chs /\ cv_executions c <> [] /\ map fst (cv_executions c) = t_suites (cv_token c) /\
    Forall (fun x => suite_run fuel (cv_token c) chs (fst x) = Ok x) (cv_executions c).

Lemma suites_run_entry fuel t chs : forall l ex, suites_run fuel t chs l = Ok ex ->
  map fst ex = l /\ Forall (fun x => suite_run fuel t chs (fst x) = Ok x) ex.
Proof.
  induction l as [|s l IH]; intros ex; cbn [suites_run].
  - intros [= <-]. now split.
  - destruct (suite_run fuel t chs s) as [x| | |] eqn:E; cbn [bind]; try discriminate.
    destruct (suites_run fuel t chs l) as [r| | |] eqn:F; cbn [bind]; try discriminate. intros [= <-].
    destruct (IH _ eq_refl) as [A B]. cbn [map].
    assert (X : fst x = s).
    { unfold suite_run in E. destruct s as [v vs]. destruct (snd (token_run fuel t [] None chs false [] (compose_bytes vs))); inversion E; auto. }
    rewrite X, A. split; auto. constructor; auto. now rewrite X.
Qed.

Lemma cov_entries fuel g :
  (forall t, forall chs skip r, part_of g t chs -> cov_token fuel t chs skip = Ok r -> Forall (entry fuel g) (fst r)) /\
  (forall g', forall r, uses g g' -> coverages fuel g' = Ok r -> Forall (entry fuel g) r).
Proof.
  apply grammar_induction.
  - intros t IC IE chs skip r Po. rewrite cov_token_eq. destruct (existsb (bytes_eqb (t_name t)) skip); [intros [= <-]; constructor|].
    destruct (suites_run fuel t chs (t_suites t)) as [ex| | |] eqn:Es; cbn [bind]; try discriminate.
    assert (L : forall ls skip r, incl ls (t_lines t) -> cov_lines fuel chs ls skip = Ok r -> Forall (entry fuel g) (fst r)).
    { clear skip r. induction ls as [|l ls IH]; intros skip r Inc; cbn [cov_lines]; [intros [= <-]; constructor|].
      assert (Il : In l (t_lines t)) by (apply Inc; now left).
      assert (C : forall l1 skip r, incl l1 l -> cov_line fuel chs l1 skip = Ok r -> Forall (entry fuel g) (fst r)).
      { clear skip r. induction l1 as [|c l1 IH1]; intros skip r Inc1; cbn [cov_line]; [intros [= <-]; constructor|].
        assert (Ic : In c l) by (apply Inc1; now left).
        destruct (cov_container fuel c chs skip) as [x| | |] eqn:Ec; cbn [bind]; try discriminate.
        destruct (cov_line fuel chs l1 (snd x)) as [y| | |] eqn:El; cbn [bind]; try discriminate.
        intros [= <-]. cbn [fst]. apply Forall_app. split; [|eapply IH1; eauto; intros z Hz; apply Inc1; now right].
        destruct Po as (root & U & W). destruct c as [e mi ma|n vs]; [rewrite cov_element_eq in Ec|injection Ec as <-; constructor].
        destruct e as [n b|n g'|u|n u esc|n]; [|rewrite cov_external_eq in Ec|rewrite cov_inner_eq in Ec|rewrite cov_everything_eq in Ec|].
        - injection Ec as <-. constructor.
        - destruct (coverages fuel g') as [r'| | |] eqn:Eg; cbn [bind] in Ec; try discriminate. injection Ec as <-. cbn [fst].
          eapply IE; eauto. eapply uses_external; eauto.
        - eapply IC; eauto; [eapply child_token; eauto|]. exists root. split; auto. apply (within_step root t u W). eapply child_token; eauto.
        - destruct (cov_token fuel u chs skip) as [a| | |] eqn:Ea; cbn [bind] in Ec; try discriminate.
          assert (Fa : Forall (entry fuel g) (fst a)).
          { eapply (IC u); eauto; [eapply child_exception; eauto|]. exists root. split; auto. apply (within_step root t u W). eapply child_exception; eauto. }
          destruct esc as [e'|]; [|injection Ec as <-; auto].
          destruct (cov_token fuel e' chs (snd a)) as [b| | |] eqn:Eb; cbn [bind] in Ec; try discriminate. injection Ec as <-. cbn [fst].
          apply Forall_app. split; auto. eapply (IC e'); eauto; [eapply child_escape; eauto|]. exists root. split; auto.
          apply (within_step root t e' W). eapply child_escape; eauto.
        - injection Ec as <-. constructor. }
      destruct (cov_line fuel chs l skip) as [a| | |] eqn:El; cbn [bind]; try discriminate.
      destruct (cov_lines fuel chs ls (snd a)) as [b| | |] eqn:Els; cbn [bind]; try discriminate.
      intros [= <-]. cbn [fst]. apply Forall_app. split; [eapply C; eauto; apply incl_refl|]. eapply IH; eauto. intros z Hz. apply Inc. now right. }
    destruct (cov_lines fuel chs (t_lines t) (t_name t :: skip)) as [r1| | |] eqn:El; cbn [bind]; try discriminate.
    intros [= <-]. cbn [fst]. apply Forall_app. split; [eapply L; eauto; apply incl_refl|].
    destruct (suites_run_entry _ _ _ _ _ Es) as [A B]. destruct ex as [|x ex]; constructor; auto.
    exists chs. cbn [cv_token cv_executions]. repeat split; auto. discriminate.
  - intros root chs IR IC r U. rewrite coverages_eq.
    destruct (cov_token fuel root chs []) as [a| | |] eqn:Ea; cbn [bind]; try discriminate.
    assert (L : forall l skip r, incl l chs -> cov_channels fuel l skip = Ok r -> Forall (entry fuel g) r).
    { induction l as [|[t cond] l IH]; intros skip q Inc; cbn [cov_channels]; [intros [= <-]; constructor|].
      assert (It : In (Channel t cond) chs) by (apply Inc; now left).
      destruct (cov_token fuel t [] skip) as [x| | |] eqn:Ex; cbn [bind]; try discriminate.
      destruct (cov_channels fuel l (snd x)) as [y| | |] eqn:Ey; cbn [bind]; try discriminate.
      intros [= <-]. apply Forall_app. split; [|eapply IH; eauto; intros z Hz; apply Inc; now right].
      eapply IC; eauto. exists t. split; [|apply within_refl]. eapply uses_channel; eauto. }
    destruct (cov_channels fuel chs (snd a)) as [c| | |] eqn:Ec; cbn [bind]; try discriminate.
    intros [= <-]. apply Forall_app. split; [eapply L; eauto; apply incl_refl|]. eapply IR; eauto. exists root. split; auto. apply within_refl.
Qed.

Lemma coverages_entries fuel g r : coverages fuel g = Ok r -> Forall (entry fuel g) r.
Proof. apply cov_entries. apply uses_refl. Qed.

Lemma suite_run_execution fuel t chs x : small (suite_values (fst x)) -> suite_run fuel t chs (fst x) = Ok x -> execution_of fuel t chs x.
Proof.
  intros Sm E w Sp. rewrite (spells_bytes _ _ Sm Sp). clear Sp. destruct x as [[v vs] o]. unfold suite_run in E. cbn [fst snd suite_values execute] in *.
  destruct (snd (token_run fuel t [] None chs false [] (compose_bytes vs))) as [tr| | |]; try discriminate; injection E as <-; reflexivity.
Qed.

(** ** Every token with suites is listed, once *)
Lemma existsb_name n l : existsb (bytes_eqb n) l = true <-> In n l.
Proof.
  rewrite existsb_exists. split.
  - intros (m & I & E). apply bytes_eqb_true in E. now subst.
  - intros I. exists n. split; auto. apply bytes_eqb_refl.
Qed.

Section Walk.
  Variable fuel : nat.
  Variable root : token.
  Variable chs : list channel.
  Variable J : list coverage -> list bytes -> list bytes -> Prop.
  Hypothesis Jnil : forall s, J [] s s.
  Hypothesis Japp : forall a b s s1 s2, J a s s1 -> J b s1 s2 -> J (a ++ b) s s2.
  Hypothesis Jincl : forall a s s', J a s s' -> incl s s'.
  Hypothesis Jext : forall t l n g' min max x s, within root t -> In l (t_lines t) -> In (CElement (EExternal n g') min max) l ->
    coverages fuel g' = Ok x -> J x s s.
  Hypothesis Jtok : forall t ex a s s', within root t -> ~ In (t_name t) s -> suites_run fuel t chs (t_suites t) = Ok ex ->
    J a (t_name t :: s) s' -> (forall u, child t u -> In (t_name u) s') ->
    J (a ++ match ex with [] => [] | _ => [Coverage t ex] end) s s'.

  Definition inner (c : container) : list token :=
    match c with
    | CElement (EToken u) _ _ => [u]
    | CElement (EEverything _ u None) _ _ => [u]
    | CElement (EEverything _ u (Some e)) _ _ => [u; e]
    | _ => []
    end.

  Lemma child_inner t u : child t u -> exists l c, In l (t_lines t) /\ In c l /\ In u (inner c).
  Proof.
    intros [l v mi ma I Ic|l n v e mi ma I Ic|l n v e mi ma I Ic]; eexists l, _; refine (conj I (conj Ic _)); cbn [inner].
    - now left.
    - destruct e; now left.
    - right. now left.
  Qed.

  Lemma walk : forall n t, tok_size t <= n -> within root t -> forall s r, cov_token fuel t chs s = Ok r ->
    J (fst r) s (snd r) /\ In (t_name t) (snd r).
  Proof.
    induction n as [|n IH]; intros t Sz W s r; [pose proof (tok_size_pos t); lia|].
    rewrite cov_token_eq. destruct (existsb (bytes_eqb (t_name t)) s) eqn:E.
    { apply existsb_name in E. intros [= <-]. cbn [fst snd]. auto. }
    assert (Nt : ~ In (t_name t) s) by (rewrite <- existsb_name; congruence).
    assert (IHc : forall u, child t u -> forall s r, cov_token fuel u chs s = Ok r -> J (fst r) s (snd r) /\ In (t_name u) (snd r)).
    { intros u C. apply IH; [apply child_size in C; lia|]. now apply (within_step root t u W). }
    destruct (suites_run fuel t chs (t_suites t)) as [ex| | |] eqn:Es; cbn [bind]; try discriminate.
    assert (L : forall ls s r, incl ls (t_lines t) -> cov_lines fuel chs ls s = Ok r ->
      J (fst r) s (snd r) /\ forall l c u, In l ls -> In c l -> In u (inner c) -> In (t_name u) (snd r)).
    { clear s r E Nt. induction ls as [|l ls IHl]; intros s r Inc; cbn [cov_lines].
      { intros [= <-]. split; auto. intros l c u []. }
      assert (Il : In l (t_lines t)) by (apply Inc; now left).
      assert (C : forall l1 s r, incl l1 l -> cov_line fuel chs l1 s = Ok r ->
        J (fst r) s (snd r) /\ forall c u, In c l1 -> In u (inner c) -> In (t_name u) (snd r)).
      { clear s r. induction l1 as [|c l1 IH1]; intros s r Inc1; cbn [cov_line].
        { intros [= <-]. split; auto. intros c u []. }
        assert (Ic : In c l) by (apply Inc1; now left).
        destruct (cov_container fuel c chs s) as [x| | |] eqn:Ec; cbn [bind]; try discriminate.
        destruct (cov_line fuel chs l1 (snd x)) as [y| | |] eqn:El; cbn [bind]; try discriminate.
        intros [= <-]. cbn [fst snd].
        destruct (IH1 (snd x) y) as [Jy Cy]; auto. { intros z Hz. apply Inc1. now right. }
        assert (X : J (fst x) s (snd x) /\ forall u, In u (inner c) -> In (t_name u) (snd x)).
        { destruct c as [e mi ma|nm vs]; [rewrite cov_element_eq in Ec|injection Ec as <-; split; [apply Jnil|intros u []]].
          destruct e as [nm b|nm g'|u|nm u esc|nm]; [|rewrite cov_external_eq in Ec|rewrite cov_inner_eq in Ec|rewrite cov_everything_eq in Ec|].
          - injection Ec as <-. split; [apply Jnil|intros u []].
          - destruct (coverages fuel g') as [q| | |] eqn:Eg; cbn [bind] in Ec; try discriminate. injection Ec as <-. cbn [fst snd].
            split; [|intros u []]. eapply Jext; eauto.
          - destruct (IHc u ltac:(eapply child_token; eauto) _ _ Ec) as [A B]. split; auto. intros v [<-|[]]; auto.
          - destruct (cov_token fuel u chs s) as [a| | |] eqn:Ea; cbn [bind] in Ec; try discriminate.
            destruct (IHc u ltac:(eapply child_exception; eauto) _ _ Ea) as [A B].
            destruct esc as [e'|]; [|injection Ec as <-; split; auto; intros v [<-|[]]; auto].
            destruct (cov_token fuel e' chs (snd a)) as [b| | |] eqn:Eb; cbn [bind] in Ec; try discriminate.
            destruct (IHc e' ltac:(eapply child_escape; eauto) _ _ Eb) as [A' B'].
            injection Ec as <-. cbn [fst snd]. split; [eapply Japp; eauto|]. intros v [<-|[<-|[]]]; auto. eapply Jincl; eauto.
          - injection Ec as <-. split; [apply Jnil|intros u []]. }
        destruct X as [Jx Cx]. split; [eapply Japp; eauto|]. intros c' u [<-|I'] Iu; [|eapply Cy; eauto]. eapply Jincl; eauto. }
      destruct (cov_line fuel chs l s) as [a| | |] eqn:El; cbn [bind]; try discriminate.
      destruct (cov_lines fuel chs ls (snd a)) as [b| | |] eqn:Els; cbn [bind]; try discriminate.
      intros [= <-]. cbn [fst snd]. destruct (C l s a (incl_refl _) El) as [Ja Ca].
      destruct (IHl (snd a) b) as [Jb Cb]; auto. { intros z Hz. apply Inc. now right. }
      split; [eapply Japp; eauto|]. intros l' c u [<-|I'] Ic Iu; [|eapply Cb; eauto]. eapply Jincl; eauto. }
    destruct (cov_lines fuel chs (t_lines t) (t_name t :: s)) as [r1| | |] eqn:El; cbn [bind]; try discriminate.
    intros [= <-]. cbn [fst snd]. destruct (L _ _ _ (incl_refl _) El) as [Jr Cr]. split.
    - apply Jtok; auto. intros u C. destruct (child_inner _ _ C) as (l & c & I & Ic & Iu). eauto.
    - apply (Jincl _ _ _ Jr). now left.
  Qed.
End Walk.

Lemma suites_run_nil fuel t chs l ex : suites_run fuel t chs l = Ok ex -> l <> [] -> ex <> [].
Proof. intros E N ->. apply suites_run_entry in E as [A _]. cbn in A. congruence. Qed.

Lemma within_trans r t u : within r t -> within t u -> within r u.
Proof. intros A B. induction B as [|v w B IH C]; auto. now apply (within_step r v w IH). Qed.

Lemma root_listed fuel root chs s r : names_tell root -> s = [] -> cov_token fuel root chs s = Ok r ->
  forall u, within root u -> t_suites u <> [] -> exists ex, In (Coverage u ex) (fst r).
Proof.
  intros Nt Es E.
  set (J := fun (a : list coverage) (s s' : list bytes) => incl s s' /\
    forall u, within root u -> In (t_name u) s' -> ~ In (t_name u) s ->
      (t_suites u <> [] -> exists ex, In (Coverage u ex) a) /\ forall v, child u v -> In (t_name v) s').
  assert (JJ : J (fst r) s (snd r) /\ In (t_name root) (snd r)).
  { apply (walk fuel root chs J) with (n := tok_size root) (t := root); auto using within_refl; unfold J.
    - intros s0. split; [apply incl_refl|]. intros u _ A B. now destruct B.
    - intros a b s0 s1 s2 [I1 A] [I2 B]. split; [eapply incl_tran; eauto|]. intros u W I N.
      destruct (in_dec (list_eq_dec byte_eq_dec) (t_name u) s1) as [I'|N'].
      + destruct (A u W I' N) as [A1 A2]. split; [|intros v C; apply I2; auto]. intros S'. destruct (A1 S') as [ex Ie]. exists ex. apply in_app_iff. now left.
      + destruct (B u W I N') as [B1 B2]. split; auto. intros S'. destruct (B1 S') as [ex Ie]. exists ex. apply in_app_iff. now right.
    - now intros a s0 s' [I _].
    - intros t l n g' mi ma x s0 _ _ _ _. split; [apply incl_refl|]. intros u _ A B. now destruct B.
    - intros t ex a s0 s' W N E' [I A] C. split; [intros z Hz; apply I; now right|]. intros u Wu Iu Nu.
      destruct (list_eq_dec byte_eq_dec (t_name t) (t_name u)) as [Eq|Neq].
      + rewrite <- (Nt t u W Wu Eq). split; auto. intros S'. exists ex. apply in_app_iff. right.
        pose proof (suites_run_nil _ _ _ _ _ E' S'). destruct ex; [congruence|now left].
      + destruct (A u Wu Iu) as [A1 A2]; [intros [Q|Q]; auto|]. split; auto. intros S'. destruct (A1 S') as [ex' Ie]. exists ex'. apply in_app_iff. now left. }
  subst s. destruct JJ as [[_ A] Ir]. intros u W. assert (In (t_name u) (snd r)) as Iu.
  { induction W as [|t u W IH C]; auto. destruct (A t W IH) as [_ B]; auto. }
  destruct (A u W Iu); auto.
Qed.

Definition names (l : list coverage) : list bytes := map (fun c => t_name (cv_token c)) l.

Lemma nodup_app A (a b : list A) : NoDup a -> NoDup b -> (forall x, In x a -> ~ In x b) -> NoDup (a ++ b).
Proof.
  induction 1 as [|x a N D IH]; cbn; auto. intros Db H. constructor.
  - rewrite in_app_iff. intros [I|I]; [auto|]. apply (H x); auto.
  - apply IH; auto.
Qed.

Definition fresh (a : list coverage) (s s' : list bytes) : Prop :=
  incl s s' /\ NoDup (names a) /\ forall n, In n (names a) -> In n s' /\ ~ In n s.

Lemma fresh_app a b s s1 s2 : fresh a s s1 -> fresh b s1 s2 -> fresh (a ++ b) s s2.
Proof.
  intros (I1 & D1 & A) (I2 & D2 & B). unfold fresh, names in *. refine (conj (incl_tran I1 I2) _). rewrite map_app. split.
  - apply nodup_app; auto. intros n Ha Hb. destruct (A n Ha), (B n Hb). auto.
  - intros n. rewrite in_app_iff. intros [Ha|Hb]; [destruct (A n Ha)|destruct (B n Hb)]; auto.
Qed.

Lemma token_fresh fuel root chs g s r : no_external g -> uses g (Grammar root chs) -> cov_token fuel root chs s = Ok r ->
  fresh (fst r) s (snd r).
Proof.
  intros Ne U E. apply (walk fuel root chs fresh) with (n := tok_size root) (t := root); eauto using within_refl, fresh_app.
  - intros s0. refine (conj (incl_refl _) (conj _ _)); [constructor|intros n []].
  - now intros a s0 s' [I _].
  - intros t l n g' mi ma x s0 W I Ic _. destruct (Ne _ _ U t l _ W I Ic).
  - intros t ex a s0 s' W N E' (I & D & A) C. refine (conj _ _); [intros z Hz; apply I; now right|]. unfold names in *. rewrite map_app. split.
    + apply nodup_app; auto.
      * destruct ex; constructor; [intros []|constructor].
      * intros n Ha Hb. destruct ex as [|x0 ex]; [destruct Hb|destruct Hb as [Hb|[]]]. cbn [cv_token] in Hb. destruct (A n Ha) as [_ Q]. apply Q. now left.
    + intros n. rewrite in_app_iff. intros [Ha|Hb].
      * destruct (A n Ha) as [A1 A2]. split; auto. intros Q. apply A2. now right.
      * destruct ex as [|x0 ex]; [destruct Hb|destruct Hb as [Hb|[]]]. cbn [cv_token] in Hb. subst n. split; auto. apply I. now left.
Qed.

Lemma coverages_once fuel g r : no_external g -> coverages fuel g = Ok r -> NoDup (names r).
Proof.
  destruct g as [root chs]. intros Ne. rewrite coverages_eq.
  destruct (cov_token fuel root chs []) as [a| | |] eqn:Ea; cbn [bind]; try discriminate.
  assert (Fa := token_fresh _ _ _ _ _ _ Ne (uses_refl _) Ea).
  assert (L : forall l s q, incl l chs -> cov_channels fuel l s = Ok q -> exists s', fresh q s s').
  { induction l as [|[t cond] l IH]; intros s q Inc; cbn [cov_channels].
    - intros [= <-]. exists s. refine (conj (incl_refl _) (conj _ _)); [constructor|intros n []].
    - assert (It : In (Channel t cond) chs) by (apply Inc; now left).
      destruct (cov_token fuel t [] s) as [x| | |] eqn:Ex; cbn [bind]; try discriminate.
      destruct (cov_channels fuel l (snd x)) as [y| | |] eqn:Ey; cbn [bind]; try discriminate.
      intros [= <-]. destruct (IH (snd x) y) as [s' F]; auto. { intros z Hz. apply Inc. now right. }
      exists s'. eapply fresh_app; eauto. eapply token_fresh; eauto. eapply uses_channel; eauto using uses_refl. }
  destruct (cov_channels fuel chs (snd a)) as [c| | |] eqn:Ec; cbn [bind]; try discriminate.
  intros [= <-]. destruct (L _ _ _ (incl_refl _) Ec) as [s' (_ & Dc & C)]. destruct Fa as (_ & Da & A).
  unfold names in *. rewrite map_app. apply nodup_app; auto. intros n Hc Ha. destruct (C n Hc) as [_ Q]. destruct (A n Ha). auto.
Qed.

Lemma coverages_listed fuel root chs r : names_tell root -> coverages fuel (Grammar root chs) = Ok r ->
  forall u, within root u -> t_suites u <> [] -> exists ex, In (Coverage u ex) r.
Proof.
  intros Nt. rewrite coverages_eq. destruct (cov_token fuel root chs []) as [a| | |] eqn:Ea; cbn [bind]; try discriminate.
  destruct (cov_channels fuel chs (snd a)) as [c| | |] eqn:Ec; cbn [bind]; try discriminate.
  intros [= <-] u W S'. destruct (root_listed _ _ _ _ _ Nt eq_refl Ea u W S') as [ex I]. exists ex. apply in_app_iff. now right.
Qed.

(** ** Coverages end *)
Lemma eventually_list A (Q : nat -> A -> Prop) l : (forall x, In x l -> exists N, forall f, N <= f -> Q f x) ->
  exists N, forall f, N <= f -> forall x, In x l -> Q f x.
Proof.
  induction l as [|x l IH]; intros H.
  - exists 0. intros f _ x [].
  - destruct IH as [N HN]; [intros; apply H; now right|]. destruct (H x) as [M HM]; [now left|].
    exists (N + M). intros f L y [<-|I]; [apply HM; lia|apply HN; auto; lia].
Qed.

Lemma uses_within root chs t g : within root t -> uses (Grammar t chs) g -> uses (Grammar root chs) g \/ g = Grammar t chs.
Proof.
  intros W. induction 1 as [|root' chs' t' l n g' min max U IH W' I Ic|root' chs' t' cond U IH I|root' chs' t' b a U IH I|root' chs' t' b a U IH I]; auto; left.
  - destruct IH as [IH|[= -> ->]]; [apply (uses_external _ root' chs' t' l n g' min max); auto|].
    apply (uses_external _ root chs t' l n g' min max); auto using uses_refl. eapply within_trans; eauto.
  - destruct IH as [IH|[= -> ->]]; [apply (uses_channel _ root' chs' t' cond); auto|]. apply (uses_channel _ root chs t' cond); auto using uses_refl.
  - destruct IH as [IH|[= -> ->]]; [apply (uses_before _ root' chs' t' b a); auto|]. apply (uses_before _ root chs t' b a); auto using uses_refl.
  - destruct IH as [IH|[= -> ->]]; [apply (uses_after _ root' chs' t' b a); auto|]. apply (uses_after _ root chs t' b a); auto using uses_refl.
Qed.

Definition safe (g : grammar) : Prop := no_escape g /\ guarded g.
Lemma safe_uses g g' : safe g -> uses g g' -> safe g'.
Proof.
  intros [A B] U. split.
  - intros root chs U'. apply (A root chs). eapply uses_trans; eauto.
  - eapply guarded_uses; eauto.
Qed.
Lemma safe_within root chs t : safe (Grammar root chs) -> within root t -> safe (Grammar t chs).
Proof.
  intros [A B] W. split.
  - intros root' chs' U'. destruct (uses_within _ _ _ _ W U') as [U|[= -> ->]]; [now apply (A root' chs')|].
    intros u l c Wu. apply (A _ _ (uses_refl _)). eapply within_trans; eauto.
  - intros root' chs' u l U' Wu. destruct (uses_within _ _ _ _ W U') as [U|[= -> ->]]; [now apply (B root' chs')|].
    apply (B _ _ u l (uses_refl _)). eapply within_trans; eauto.
Qed.

Lemma suites_end t chs : safe (Grammar t chs) -> exists N, forall f, N <= f -> exists ex, suites_run f t chs (t_suites t) = Ok ex.
Proof.
  intros [Ne G].
  assert (A : exists N, forall f, N <= f -> forall s, In s (t_suites t) -> exists x, suite_run f t chs s = Ok x).
  { apply eventually_list. intros [v vs] _. exists (enough (gram_size (Grammar t chs)) (length (compose_bytes vs))). intros f L.
    pose proof (guarded_terminates (Grammar t chs) (compose_bytes vs) G f L) as X.
    pose proof (execute_no_panic f (Grammar t chs) (compose_bytes vs) Ne) as Y. cbn [execute] in X, Y. unfold suite_run.
    destruct (snd (token_run f t [] None chs false [] (compose_bytes vs))); try congruence; eauto. }
  destruct A as [N A]. exists N. intros f L. specialize (A f L). revert A. generalize (t_suites t) as l.
  induction l as [|s l IH]; intros A; cbn [suites_run]; [eauto|].
  destruct (A s) as [x ->]; [now left|]. cbn [bind]. destruct IH as [r ->]; [intros; apply A; now right|]. cbn [bind]. eauto.
Qed.

Lemma cov_total f g : (forall t chs, part_of g t chs -> exists ex, suites_run f t chs (t_suites t) = Ok ex) ->
  (forall t, forall chs s, part_of g t chs -> exists r, cov_token f t chs s = Ok r) /\
  (forall g', uses g g' -> exists r, coverages f g' = Ok r).
Proof.
  intros Hs. apply grammar_induction.
  - intros t IC IE chs s Po. rewrite cov_token_eq. destruct (existsb (bytes_eqb (t_name t)) s); [eauto|].
    destruct (Hs t chs Po) as [ex ->]. cbn [bind]. destruct Po as (root & U & W).
    assert (Pc : forall u, child t u -> part_of g u chs) by (intros u C; exists root; split; auto; now apply (within_step root t u W)).
    assert (H2 : forall l c s, In l (t_lines t) -> In c l -> exists r, cov_container f c chs s = Ok r).
    { clear s. intros l c s Il Ic. destruct c as [e mi ma|nm vs]; [|eexists; reflexivity].
      destruct e as [nm b|nm g'|u|nm u esc|nm]; try (eexists; reflexivity).
      - rewrite cov_element_eq, cov_external_eq. destruct (IE _ _ _ _ _ Il Ic) as [r ->]; [eapply uses_external; eauto|]. cbn [bind]. eauto.
      - assert (C : child t u) by (eapply child_token; eauto). rewrite cov_element_eq, cov_inner_eq. eauto.
      - assert (C : child t u) by (eapply child_exception; eauto). rewrite cov_element_eq, cov_everything_eq.
        destruct (IC u C chs s (Pc u C)) as [r ->]. cbn [bind]. destruct esc as [e'|]; [|eauto].
        assert (C' : child t e') by (eapply child_escape; eauto). destruct (IC e' C' chs (snd r) (Pc e' C')) as [r' ->]. cbn [bind]. eauto. }
    assert (LL : forall ls s, incl ls (t_lines t) -> exists r, cov_lines f chs ls s = Ok r).
    { clear s. induction ls as [|l ls IH]; intros s Inc; cbn [cov_lines]; [eauto|].
      assert (Il : In l (t_lines t)) by (apply Inc; now left).
      assert (C : forall l1 s, incl l1 l -> exists r, cov_line f chs l1 s = Ok r).
      { clear s. induction l1 as [|c l1 IH1]; intros s Inc1; cbn [cov_line]; [eauto|].
        destruct (H2 l c s Il ltac:(apply Inc1; now left)) as [r ->]. cbn [bind].
        destruct (IH1 (snd r)) as [r' ->]; [intros z Hz; apply Inc1; now right|]. cbn [bind]. eauto. }
      destruct (C l s (incl_refl _)) as [r ->]. cbn [bind].
      destruct (IH (snd r)) as [r' ->]; [intros z Hz; apply Inc; now right|]. cbn [bind]. eauto. }
    destruct (LL (t_lines t) (t_name t :: s) (incl_refl _)) as [r ->]. cbn [bind]. eauto.
  - intros root chs IR IC U. rewrite coverages_eq.
    destruct (IR chs []) as [a ->]; [exists root; split; auto; apply within_refl|]. cbn [bind].
    assert (LL : forall l s, incl l chs -> exists q, cov_channels f l s = Ok q).
    { induction l as [|[t cond] l IH]; intros s Inc; cbn [cov_channels]; [eauto|].
      assert (It : In (Channel t cond) chs) by (apply Inc; now left).
      destruct (IC t cond It [] s) as [r ->]; [exists t; split; [eapply uses_channel; eauto|apply within_refl]|]. cbn [bind].
      destruct (IH (snd r)) as [r' ->]; [intros z Hz; apply Inc; now right|]. cbn [bind]. eauto. }
    destruct (LL chs (snd a) (incl_refl _)) as [q ->]. cbn [bind]. eauto.
Qed.

Lemma coverages_end g : no_escape g -> guarded g -> exists N, forall f, N <= f -> exists r, coverages f g = Ok r.
Proof.
  intros A B.
  assert (Gs : forall gs, (forall g', In g' gs -> safe g') ->
    exists N, forall f, N <= f -> forall root chs t, In (Grammar root chs) gs -> within root t -> exists ex, suites_run f t chs (t_suites t) = Ok ex).
  { induction gs as [|[root chs] gs IH]; intros Hg.
    - exists 0. intros f _ root chs t [].
    - destruct IH as [N HN]; [intros; apply Hg; now right|].
      assert (Ts : forall ts, (forall t, In t ts -> within root t) ->
        exists N, forall f, N <= f -> forall t, In t ts -> exists ex, suites_run f t chs (t_suites t) = Ok ex).
      { intros ts Ht. apply eventually_list. intros t It. apply suites_end. apply (safe_within root); auto. apply Hg. now left. }
      destruct (Ts (tok_tokens root)) as [M HM]; [apply tokens_within|]. exists (N + M). intros f L root' chs' t [[= <- <-]|I] W.
      + apply HM; [lia|]. now apply within_tokens.
      + apply (HN f ltac:(lia) root' chs'); auto. }
  destruct (Gs (gram_grammars g)) as [N H]. { intros g' I. eapply safe_uses; [split; eauto|]. now apply grammars_uses. }
  exists N. intros f L. apply (cov_total f g); auto using uses_refl. intros t chs (root & U & W). apply (H f L root chs); auto. now apply uses_grammars.
Qed.

Lemma covered_ok l : l <> [] -> exists m, covered l = Ok m.
Proof. destruct l; [congruence|]. cbn [covered]. eauto. Qed.

Lemma uncovered_end root chs : no_escape (Grammar root chs) -> guarded (Grammar root chs) -> t_suites root <> [] ->
  exists N, forall f, N <= f -> exists m, uncovered f (Grammar root chs) = Ok m.
Proof.
  intros A B S'. destruct (coverages_end _ A B) as [N H]. exists N. intros f L. unfold uncovered. destruct (H f L) as [r E]. rewrite E. cbn [bind].
  assert (r <> []) as Nr.
  { rewrite coverages_eq in E. destruct (cov_token f root chs []) as [a| | |] eqn:Ea; cbn [bind] in E; try discriminate.
    destruct (cov_channels f chs (snd a)) as [c| | |] eqn:Ec; cbn [bind] in E; try discriminate. injection E as <-.
    rewrite cov_token_eq in Ea. cbn [existsb] in Ea.
    destruct (suites_run f root chs (t_suites root)) as [ex| | |] eqn:Es; cbn [bind] in Ea; try discriminate.
    destruct (cov_lines f chs (t_lines root) [t_name root]) as [r1| | |] eqn:El; cbn [bind] in Ea; try discriminate. injection Ea as <-.
    pose proof (suites_run_nil _ _ _ _ _ Es S'). destruct ex; [congruence|]. cbn [fst]. intros Q.
    apply app_eq_nil in Q as [_ Q]. apply app_eq_nil in Q as [_ Q]. discriminate. }
  destruct (covered_ok r Nr) as [m ->]. cbn [bind]. eauto.
Qed.

Lemma no_suites_total fuel g : no_suites g -> exists r, coverages fuel g = Ok r.
Proof.
  intros Ns. apply (cov_total fuel g); auto using uses_refl. intros t chs Po. rewrite (Ns t chs Po). cbn [suites_run]. eauto.
Qed.

Lemma no_suites_empty fuel g r : no_suites g -> coverages fuel g = Ok r -> r = [].
Proof.
  intros Ns E. apply coverages_entries in E. destruct r as [|c r]; auto. exfalso. inversion E as [|? ? En]; subst.
  destruct En as (chs & Po & Ne & M & _). rewrite (Ns _ _ Po) in M. destruct (cv_executions c); [congruence|discriminate].
Qed.
