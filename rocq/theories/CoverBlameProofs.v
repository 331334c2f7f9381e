(** Proofs about the failures of Coverages (C183). *)
From Coq Require Import List ZArith Lia Bool.
From Coq Require Import Init.Byte Strings.Byte.
From Verif Require Import Base BaseLemmas AstModel SpecAst AstProofs AstTraceProofs AstFuelProofs AstPanicProofs AstListProofs
  CoverModel SpecCover CoverProofs.
Import ListNotations.

(** A suite of a part of the grammar whose run ends like this. *)
Definition culprit (fuel : nat) (g : grammar) (o : outcome (suite * option tree)) : Prop :=
  exists t chs s, part_of g t chs /\ In s (t_suites t) /\ suite_run fuel t chs s = o.

Definition blamed {A} (fuel : nat) (g : grammar) (o : outcome A) : Prop :=
  match o with Ok _ => True | Err => False | Panic => culprit fuel g Panic | Fuel => culprit fuel g Fuel end.

Lemma blamed_bind {A B} fuel g (m : outcome A) (k : A -> outcome B) :
  blamed fuel g m -> (forall a, m = Ok a -> blamed fuel g (k a)) -> blamed fuel g (bind m k).
Proof. destruct m; cbn [bind blamed]; auto. Qed.

Lemma suites_blamed fuel g t chs : part_of g t chs -> forall l, incl l (t_suites t) -> blamed fuel g (suites_run fuel t chs l).
Proof.
  intros Po. induction l as [|s l IH]; intros Inc; cbn [suites_run]; [exact I|]. apply blamed_bind.
  - assert (Is : In s (t_suites t)) by (apply Inc; now left). destruct (suite_run fuel t chs s) as [x| | |] eqn:E; cbn [blamed]; auto.
    + unfold suite_run in E. destruct s as [v vs]. destruct (snd _); discriminate.
    + exists t, chs, s. auto.
    + exists t, chs, s. auto.
  - intros x _. apply blamed_bind; [|intros; exact I]. apply IH. intros z Hz. apply Inc. now right.
Qed.

Lemma cov_blamed fuel g :
  (forall t, forall chs skip, part_of g t chs -> blamed fuel g (cov_token fuel t chs skip)) /\
  (forall g', uses g g' -> blamed fuel g (coverages fuel g')).
Proof.
  apply grammar_induction.
  - intros t IC IE chs skip Po. rewrite cov_token_eq. destruct (existsb (bytes_eqb (t_name t)) skip); [exact I|].
    apply blamed_bind; [apply suites_blamed; [exact Po|apply incl_refl]|]. intros ex _. apply blamed_bind; [|intros; exact I].
    assert (L : forall ls skip, incl ls (t_lines t) -> blamed fuel g (cov_lines fuel chs ls skip)).
    { clear skip. induction ls as [|l ls IH]; intros skip Inc; cbn [cov_lines]; [exact I|].
      assert (Il : In l (t_lines t)) by (apply Inc; now left).
      assert (C : forall l1 skip, incl l1 l -> blamed fuel g (cov_line fuel chs l1 skip)).
      { clear skip. induction l1 as [|c l1 IH1]; intros skip Inc1; cbn [cov_line]; [exact I|].
        assert (Ic : In c l) by (apply Inc1; now left).
        apply blamed_bind; [|intros x _; apply blamed_bind; [apply IH1; intros z Hz; apply Inc1; now right|intros; exact I]].
        destruct Po as (root & U & W). destruct c as [e mi ma|n vs]; [rewrite cov_element_eq|exact I].
        destruct e as [n b|n g'|u|n u esc|n]; [exact I|rewrite cov_external_eq|rewrite cov_inner_eq|rewrite cov_everything_eq|exact I].
        - apply blamed_bind; [|intros; exact I]. eapply IE; eauto. eapply uses_external; eauto.
        - eapply IC; eauto; [eapply child_token; eauto|]. exists root. split; auto. apply (within_step root t u W). eapply child_token; eauto.
        - apply blamed_bind.
          + eapply (IC u); eauto; [eapply child_exception; eauto|]. exists root. split; auto. apply (within_step root t u W). eapply child_exception; eauto.
          + intros a _. destruct esc as [e'|]; [|exact I]. apply blamed_bind; [|intros; exact I].
            eapply (IC e'); eauto; [eapply child_escape; eauto|]. exists root. split; auto.
            apply (within_step root t e' W). eapply child_escape; eauto. }
      apply blamed_bind; [apply C; apply incl_refl|]. intros a _. apply blamed_bind; [|intros; exact I]. apply IH. intros z Hz. apply Inc. now right. }
    apply L. apply incl_refl.
  - intros root chs IR IC U. rewrite coverages_eq. apply blamed_bind.
    { eapply IR; eauto. exists root. split; auto. apply within_refl. }
    intros a _. apply blamed_bind; [|intros; exact I].
    assert (L : forall l skip, incl l chs -> blamed fuel g (cov_channels fuel l skip)).
    { induction l as [|[t cond] l IH]; intros skip Inc; cbn [cov_channels]; [exact I|].
      assert (It : In (Channel t cond) chs) by (apply Inc; now left).
      apply blamed_bind; [|intros x _; apply blamed_bind; [apply IH; intros z Hz; apply Inc; now right|intros; exact I]].
      eapply IC; eauto. exists t. split; [|apply within_refl]. eapply uses_channel; eauto. }
    apply L. apply incl_refl.
Qed.

Lemma coverages_blamed fuel g : blamed fuel g (coverages fuel g).
Proof. apply cov_blamed. apply uses_refl. Qed.

Lemma culprit_parses fuel g : small_suites g ->
  (culprit fuel g Panic -> exists t chs s, part_of g t chs /\ In s (t_suites t) /\ forall w, spells (suite_values s) w -> execute fuel (Grammar t chs) w = Panic) /\
  (culprit fuel g Fuel -> exists t chs s, part_of g t chs /\ In s (t_suites t) /\ forall w, spells (suite_values s) w -> execute fuel (Grammar t chs) w = Fuel).
Proof.
  intros Sm. split; intros (t & chs & s & Po & Is & E); exists t, chs, s; (split; [exact Po|]); (split; [exact Is|]); intros w Sp;
    rewrite (spells_bytes _ _ (Sm _ _ _ Po Is) Sp); destruct s as [v vs]; unfold suite_run in E; cbn [suite_values execute];
    destruct (snd (token_run fuel t [] None chs false [] (compose_bytes vs))); try discriminate; reflexivity.
Qed.

(** ** A result means that all suites were run *)
Lemma root_run fuel root chs s r : names_tell root -> s = [] -> cov_token fuel root chs s = Ok r ->
  forall u, within root u -> exists ex, suites_run fuel u chs (t_suites u) = Ok ex.
Proof.
  intros Nt Es E.
  set (J := fun (a : list coverage) (s s' : list bytes) => incl s s' /\
    forall u, within root u -> In (t_name u) s' -> ~ In (t_name u) s ->
      (exists ex, suites_run fuel u chs (t_suites u) = Ok ex) /\ forall v, child u v -> In (t_name v) s').
  assert (JJ : J (fst r) s (snd r) /\ In (t_name root) (snd r)).
  { apply (walk fuel root chs J) with (n := tok_size root) (t := root); auto using within_refl; unfold J.
    - intros s0. split; [apply incl_refl|]. intros u _ A B. now destruct B.
    - intros a b s0 s1 s2 [I1 A] [I2 B]. split; [eapply incl_tran; eauto|]. intros u W I N.
      destruct (in_dec (list_eq_dec byte_eq_dec) (t_name u) s1) as [I'|N'].
      + destruct (A u W I' N) as [A1 A2]. split; [exact A1|intros v C; apply I2; auto].
      + exact (B u W I N').
    - now intros a s0 s' [I _].
    - intros t l n g' mi ma x s0 _ _ _ _. split; [apply incl_refl|]. intros u _ A B. now destruct B.
    - intros t ex a s0 s' W N E' [I A] C. split; [intros z Hz; apply I; now right|]. intros u Wu Iu Nu.
      destruct (list_eq_dec byte_eq_dec (t_name t) (t_name u)) as [Eq|Neq].
      + rewrite <- (Nt t u W Wu Eq). split; eauto.
      + apply A; auto. intros [Q|Q]; auto. }
  subst s. destruct JJ as [[_ A] Ir]. intros u W. assert (In (t_name u) (snd r)) as Iu.
  { induction W as [|t u W IH C]; auto. destruct (A t W IH) as [_ B]; auto. }
  destruct (A u W Iu); auto.
Qed.

Lemma suites_run_each fuel t chs l ex : suites_run fuel t chs l = Ok ex -> forall s, In s l -> exists x, suite_run fuel t chs s = Ok x.
Proof.
  revert ex. induction l as [|s0 l IH]; intros ex; cbn [suites_run]; [intros _ s []|].
  destruct (suite_run fuel t chs s0) as [x| | |] eqn:E; cbn [bind]; try discriminate.
  destruct (suites_run fuel t chs l) as [y| | |] eqn:El; cbn [bind]; try discriminate. intros _ s [<-|I]; eauto.
Qed.

Lemma coverages_run fuel root chs r : names_tell root -> coverages fuel (Grammar root chs) = Ok r ->
  forall u s w, within root u -> In s (t_suites u) -> small (suite_values s) -> spells (suite_values s) w ->
  execute fuel (Grammar u chs) w <> Panic /\ execute fuel (Grammar u chs) w <> Fuel.
Proof.
  intros Nt E u s w W I Sm Sp. rewrite coverages_eq in E. destruct (cov_token fuel root chs []) as [a| | |] eqn:Ea; cbn [bind] in E; try discriminate.
  destruct (root_run _ _ _ _ _ Nt eq_refl Ea u W) as [ex R]. destruct (suites_run_each _ _ _ _ _ R s I) as [x X].
  rewrite (spells_bytes _ _ Sm Sp). destruct s as [v vs]. unfold suite_run in X. cbn [suite_values execute] in *.
  destruct (snd (token_run fuel u [] None chs false [] (compose_bytes vs))); try discriminate; split; discriminate.
Qed.
