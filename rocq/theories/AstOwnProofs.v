(** The tokens of the trees that the parser returns. *)
From Coq Require Import List ZArith Lia Bool.
From Coq Require Import Init.Byte Strings.Byte.
From Verif Require Import Base BaseLemmas AstModel SpecAst AstProofs AstTraceProofs SpecOwn.
Import ListNotations.

Section Own.
  Variable G : grammar.
  Definition known (r : token) : Prop := exists chs, uses G (Grammar r chs).
  Definition chs_known (chs : list channel) : Prop :=
    forall t cond, In (Channel t cond) chs -> exists root chs', uses G (Grammar root chs') /\ In (Channel t cond) chs'.
  Definition own1 (u : tree) : Prop :=
    token_of G (tr_grammar u) /\ forall v, passed_over u v -> channel_of G (tr_grammar v).
  Definition own (t : tree) : Prop := forall u, nested t u -> own1 u.
  Definition skipped_own (v : tree) : Prop := own v /\ channel_of G (tr_grammar v).
  Definition content_own (x : tcontent) : Prop :=
    match x with TValue _ p => Forall skipped_own p | TTree t => own t end.
  Definition element_own (e : telement) : Prop := Forall content_own (el_contents e).
  Definition used (c : econtent) (r : token) : Prop :=
    exists t l min max, within r t /\ In l (t_lines t) /\ In (CElement c min max) l.

  Lemma own_intro t : token_of G (tr_grammar t) ->
    (forall l e, successful (tr_block t) = Some l -> In e (l_elements l) -> element_own e) ->
    Forall skipped_own (tr_suffix t) -> own t.
  Proof.
    intros T He Hs. rewrite Forall_forall in Hs.
    assert (Hx : forall l e x, successful (tr_block t) = Some l -> In e (l_elements l) -> In x (el_contents e) -> content_own x).
    { intros l e x E I Ix. specialize (He _ _ E I). unfold element_own in He. rewrite Forall_forall in He. auto. }
    intros u N. destruct N as [|u v P N].
    - split; auto. intros v [l e b p E I Ib Ip|I].
      + specialize (Hx _ _ _ E I Ib). cbn in Hx. rewrite Forall_forall in Hx. apply Hx, Ip.
      + apply Hs, I.
    - destruct P as [l e v1 E I Ic|l e b p v1 E I Ic Ip|v1 I].
      + apply (Hx _ _ _ E I Ic _ N).
      + specialize (Hx _ _ _ E I Ic). cbn in Hx. rewrite Forall_forall in Hx. apply (proj1 (Hx _ Ip) _ N).
      + apply (proj1 (Hs _ I) _ N).
  Qed.

  Lemma owned :
    (forall r esc chs rev t cur x, p_token r esc chs rev t cur x -> known r -> chs_known chs -> within r t ->
       has_successful x = true -> own x /\ tr_grammar x = t) /\
    (forall r esc chs rev l cur i tl rem, p_line r esc chs rev l cur i tl rem -> known r -> chs_known chs ->
       (exists t, within r t /\ In l (t_lines t)) -> Forall element_own (l_elements tl)) /\
    (forall r esc chs rev l cur es rem, p_containers r esc chs rev l cur es rem -> known r -> chs_known chs ->
       (exists t l0, within r t /\ In l0 (t_lines t) /\ incl l l0) -> Forall element_own es) /\
    (forall r esc chs rev c cur cs rem, p_times r esc chs rev c cur cs rem -> known r -> chs_known chs ->
       used c r -> Forall content_own cs) /\
    (forall r esc chs rev c cur x rem, p_content r esc chs rev c cur x rem -> known r -> chs_known chs ->
       used c r -> content_own x) /\
    (forall chs cur ts rem, p_skip chs cur ts rem -> chs_known chs -> Forall skipped_own ts) /\
    (forall r esc chs l cur cs rem, p_until r esc chs l cur cs rem -> forall x, In x cs -> exists b, x = TValue b []).
  Proof.
    apply parse_ind; intros.
    - split; [|reflexivity]. destruct H1 as (cs0 & U). apply own_intro; cbn [tr_grammar tr_block tr_suffix].
      + eapply token_used; eauto.
      + intros l2 e2. rewrite successful_last by assumption. intros [= <-] I.
        assert (F : Forall element_own (l_elements tl)) by (apply H; eauto using nth_error_In; now exists cs0).
        rewrite Forall_forall in F. auto.
      + auto.
    - unfold has_successful in *; cbn [tr_block] in *. rewrite successful_none in * by assumption. discriminate.
    - split; [|reflexivity]. destruct H1 as (cs0 & U). apply own_intro; cbn [tr_grammar tr_block tr_suffix].
      + eapply token_used; eauto.
      + cbn [successful find line_ok l_elements forallb element_ok el_grammar andb l_reverse orb].
        intros l2 e2 [= <-]. cbn [l_elements In]. intros [<-|[]]. unfold element_own. cbn [el_contents].
        apply Forall_forall. intros x Ix. destruct (H _ Ix) as (b & ->). constructor.
      + auto.
    - cbn [l_elements]. apply H; auto. destruct H2 as (t & W & I). exists t, l. repeat split; auto. apply incl_refl.
    - constructor.
    - destruct H3 as (t & l9 & W & I & Inc).
      assert (A : Forall content_own cs) by (apply H; auto; exists t, l9, min, max; repeat split; auto; apply Inc; now left).
      assert (B : Forall element_own es) by (apply H0; auto; exists t, l9; repeat split; auto; intros y Hy; apply Inc; now right).
      destruct cs as [|x cs]; auto.
    - constructor.
    - constructor; auto.
    - cbn. auto.
    - destruct H2 as (t0 & l0 & min & max & W & I & Ic). destruct H0 as (cs0 & U).
      assert (U' : uses G (Grammar root chs')) by (eapply uses_external; eauto).
      assert (Cs : chs_known chs') by (intros c cond Ic'; now exists root, chs').
      destruct (H (ex_intro _ _ U') Cs (within_refl _) e) as (A & Eg).
      cbn. intros u N. destruct N as [|u v P N].
      + split; [exact (token_external G r cs0 t0 l0 n root chs' min max U W I Ic)|]. intros v [l1 e1 b p1 E1 I1 Ib Ip|[]].
        apply (proj2 (A t (nested_refl _))). eapply passed_before; eauto.
      + destruct P as [l1 e1 v1 E1 I1 Ic1|l1 e1 b p1 v1 E1 I1 Ic1 Ip|v1 I1]; cbn [tr_block tr_suffix] in *.
        * apply A. eapply nested_step; eauto. eapply part_content; eauto.
        * apply A. eapply nested_step; eauto. eapply part_prefix; eauto.
        * destruct I1.
    - cbn. apply H; auto.
    - cbn. apply H; auto.
    - cbn. apply H; auto. intros ? ? [].
    - constructor.
    - assert (Ne : tree_bytes true t <> []) by (intros E; rewrite E in *; cbn [length] in *; lia).
      destruct (H1 _ _ i) as (root & chs' & U & I').
      destruct H as (A & Eg); eauto using within_refl, tree_bytes_successful.
      { exists []. eapply uses_channel; eauto. }
      { intros ? ? []. }
      constructor; auto. split; auto. rewrite Eg. exists root, chs', cond. auto.
    - destruct H.
    - destruct H0 as [<-|I]; eauto.
    - rewrite in_app_iff in H2. destruct H2 as [I|I]; eauto. rewrite in_map_iff in I. destruct I as (b & <- & _). eauto.
  Qed.
End Own.

Lemma execute_own fuel g data t : execute fuel g data = Ok t -> has_successful t = true ->
  (let 'Grammar root _ := g in tr_grammar t = root) /\ own g t.
Proof.
  destruct g as [root chs]. intros E Hs. apply execute_trace in E.
  destruct (proj1 (owned (Grammar root chs)) _ _ _ _ _ _ _ E) as (A & B); auto.
  - exists chs. constructor.
  - intros c cond I. exists root, chs. split; [constructor|exact I].
  - constructor.
Qed.
