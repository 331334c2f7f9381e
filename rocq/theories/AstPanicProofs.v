(** Without escapes the parser never panics. *)
From Coq Require Import List ZArith Lia Bool.
From Coq Require Import Init.Byte Strings.Byte.
From Verif Require Import Base BaseLemmas AstModel SpecAst AstProofs AstTraceProofs AstFuelProofs.
Import ListNotations.

(** The bytes of a tree are not more than what was consumed. *)
Lemma bytes_short :
  (forall r esc chs rev t cur x, p_token r esc chs rev t cur x -> length (tree_bytes true x) + length (tr_remaining x) <= length cur) /\
  (forall r esc chs rev l cur i tl rem, p_line r esc chs rev l cur i tl rem -> length (line_bytes true tl) + length rem <= length cur) /\
  (forall r esc chs rev l cur es rem, p_containers r esc chs rev l cur es rem ->
     length (flat_map (element_bytes true) es) + length rem <= length cur) /\
  (forall r esc chs rev c cur cs rem, p_times r esc chs rev c cur cs rem ->
     length (flat_map (content_bytes true) cs) + length rem <= length cur) /\
  (forall r esc chs rev c cur x rem, p_content r esc chs rev c cur x rem -> length (content_bytes true x) + length rem <= length cur) /\
  (forall chs cur ts rem, p_skip chs cur ts rem -> length (flat_map (tree_bytes true) ts) + length rem <= length cur) /\
  (forall r esc chs l cur cs rem, p_until r esc chs l cur cs rem -> length (flat_map (content_bytes true) cs) + length rem <= length cur).
Proof.
  apply parse_ind; intros.
  - rewrite tree_bytes_eq, successful_last by assumption. cbn [tr_remaining]. rewrite app_length. lia.
  - rewrite tree_bytes_eq, successful_none by assumption. cbn [tr_remaining length]. lia.
  - rewrite tree_bytes_eq. cbn [successful find line_ok l_elements forallb element_ok el_grammar andb l_reverse orb tr_remaining].
    cbn [line_bytes flat_map element_bytes]. rewrite app_nil_r, app_length. lia.
  - exact H.
  - auto.
  - destruct cs; [cbn [flat_map length] in H; lia|]. rewrite elements_bytes_cons, app_length. lia.
  - auto.
  - cbn [flat_map]. rewrite app_length. lia.
  - cbn [content_bytes length] in *. rewrite app_length. cbn [length]. lia.
  - destruct t as [g b s rem]. cbn [content_bytes tr_block]. rewrite tree_bytes_eq in *. cbn [length flat_map].
    destruct (successful b); rewrite ?app_length in *; cbn [length] in *; lia.
  - exact H.
  - exact H.
  - exact H.
  - auto.
  - cbn [flat_map]. rewrite app_length, skipn_length in *. lia.
  - auto.
  - cbn [flat_map content_bytes length app]. lia.
  - rewrite flat_map_app, app_length. rewrite skipn_length in *.
    assert (X : forall l1 : bytes, flat_map (content_bytes true) (map (fun b => TValue b []) l1) = l1).
    { induction l1 as [|b l1 IH]; cbn [map flat_map content_bytes app]; [auto|now rewrite IH]. }
    rewrite X, firstn_length. lia.
Qed.

Definition escapeless (c : container) : Prop := match c with CElement (EEverything _ _ (Some _)) _ _ => False | _ => True end.

Section Panic.
  Variable call : call_t.
  Variable bound : nat.
  Variable r : token.
  Variable chs : list channel.
  Hypothesis Ht : traced call.
  Hypothesis He : every_container escapeless r.
  Hypothesis Hch : forall c cond, In (Channel c cond) chs -> forall prev cur, snd (call c [] None [] false prev cur) <> Panic.
  Hypothesis Hbe : forall c b a, In (Channel c (Some (Some b, a))) chs -> forall prev cur, snd (call b [] None [] false prev cur) <> Panic.
  Hypothesis Haf : forall c b a, In (Channel c (Some (b, Some a))) chs -> forall prev cur, snd (call a [] None [] false prev cur) <> Panic.
  Hypothesis Hex : forall t l n root chs' mi ma, within r t -> In l (t_lines t) -> In (CElement (EExternal n (Grammar root chs')) mi ma) l ->
    forall rev prev cur, snd (call root [] None chs' rev prev cur) <> Panic.
  Hypothesis Hca : forall t s ch rev prev cur, within r t -> scoped r s -> incl ch chs -> snd (call t s None ch rev prev cur) <> Panic.

  Lemma esc_none : esc_in r None.
  Proof. discriminate. Qed.

  Lemma channel_condition_panic c cond prev next : In (Channel c (Some cond)) chs -> channel_condition call cond prev next <> Panic.
  Proof.
    intros I. unfold channel_condition. destruct cond as [b a]. cbn [fst snd].
    destruct b as [b|].
    - assert (X := Hbe _ _ _ I [] prev). destruct (snd (call b [] None [] false [] prev)); cbn [bind]; try congruence.
      destruct a as [a|]; [|discriminate]. assert (Y := Haf _ _ _ I [] next). destruct (snd (call a [] None [] false [] next)); cbn [bind]; congruence.
    - cbn [bind]. destruct a as [a|]; [|discriminate]. assert (Y := Haf _ _ _ I [] next).
      destruct (snd (call a [] None [] false [] next)); cbn [bind]; congruence.
  Qed.
  Lemma channel_run_panic c prev cur : In c chs -> channel_run call c prev cur <> Panic.
  Proof.
    intros I. destruct c as [t cond]. unfold channel_run. assert (X := Hch _ _ I prev cur).
    destruct (snd (call t [] None [] false prev cur)) as [tr| | |]; cbn [bind] in *; try congruence.
    destruct cond as [cond|]; [|discriminate]. pose proof (channel_condition_panic _ _ prev (tr_remaining tr) I) as Y.
    destruct (channel_condition call cond prev (tr_remaining tr)); cbn [bind]; congruence.
  Qed.
  Lemma channels_round_panic : forall l, incl l chs -> forall st, channels_round call l st <> Panic.
  Proof.
    induction l as [|c l IH]; intros I [[ts prev] cur]; cbn [channels_round]; [discriminate|].
    assert (I' : incl l chs) by (intros x Hx; apply I; now right).
    assert (X := channel_run_panic c prev cur (I _ (or_introl eq_refl))).
    destruct (channel_run call c prev cur) as [t| | |] eqn:E; try congruence; [|now apply IH].
    destruct (Nat.ltb_spec (length cur) (length (tree_bytes true t))) as [L|L]; [|destruct (_ =? _); now apply IH].
    destruct (channel_run_trace call Ht _ _ _ _ E) as (u & cond & -> & P). apply (proj1 bytes_short) in P. lia.
  Qed.
  Lemma channels_loop_panic l : incl l chs -> forall f st, channels_loop call f l st <> Panic.
  Proof.
    intros I. induction f as [|f IH]; intros st; cbn [channels_loop]; [discriminate|].
    assert (X := channels_round_panic l I st). destruct (channels_round call l st); cbn [bind]; try congruence.
    destruct (_ =? _); [discriminate|auto].
  Qed.
  Lemma channels_try_panic l prev cur : incl l chs -> channels_try call bound l prev cur <> Panic.
  Proof.
    intros I. destruct l as [|c l]; [discriminate|]. unfold channels_try, channels_run.
    match goal with |- context [channels_loop ?a ?b ?x ?y] =>
      assert (X := channels_loop_panic x I b y); destruct (channels_loop a b x y) as [st| | |] end; cbn [bind]; try congruence.
    destruct (fst (fst st)); discriminate.
  Qed.
  Lemma element_value_panic n l prev cur : incl l chs -> element_value call bound n l prev cur <> Panic.
  Proof.
    intros I. unfold element_value. assert (X := channels_try_panic l prev cur I).
    destruct (channels_try call bound l prev cur) as [[ts rem]| | |]; cbn [bind fst snd] in *; try congruence.
    destruct rem as [|b rem]; [discriminate|]. destruct (Byte.eqb n b); discriminate.
  Qed.
  Lemma found_panic t rem : found t rem <> Panic.
  Proof. unfold found. destruct (has_successful t); discriminate. Qed.

  Section Line.
    Variable t : token.
    Variable l0 : list container.
    Variable ch : list channel.
    Hypothesis Wt : within r t.
    Hypothesis Il : In l0 (t_lines t).
    Hypothesis Ich : incl ch chs.

    Lemma element_run_panic c mi ma s rev prev cur : In (CElement c mi ma) l0 -> scoped r s ->
      snd (element_run call bound c s None ch rev prev cur) <> Panic.
    Proof.
      intros Ic Sc. unfold element_run. destruct cur as [|b cur1] eqn:Ecur; [discriminate|]. rewrite <- Ecur in *. clear Ecur b cur1.
      destruct c as [n b|n g|u|n u e|n].
      - cbn [snd]. assert (X := element_value_panic b ch prev cur Ich).
        destruct (element_value call bound b ch prev cur) as [[x|]| | |]; cbn [bind]; congruence.
      - cbn [snd]. destruct g as [root chs']. unfold external_run. assert (X := Hex _ _ _ _ _ _ _ Wt Il Ic rev prev cur).
        destruct (snd (call root [] None chs' rev prev cur)); cbn [bind]; try congruence. apply found_panic.
      - assert (Wu : within r u) by (apply (within_step r t u Wt); eapply child_token; eauto).
        assert (X := Hca u s ch rev prev cur Wu Sc Ich).
        destruct (call u s None ch rev prev cur) as [s' [tr| | |]]; cbn [sbind snd] in *; try congruence. apply found_panic.
      - assert (Wu : within r u) by (apply (within_step r t u Wt); eapply child_exception; eauto).
        assert (Ee := He _ _ _ Wt Il Ic). destruct e as [e|]; [contradiction|].
        assert (X := Hca u s [] (negb rev) prev cur Wu Sc (fun x H => match H with end)).
        destruct (call u s None [] (negb rev) prev cur) as [s' [tr| | |]]; cbn [sbind snd] in *; try congruence. apply found_panic.
      - destruct (s_get s n) as [[u ls]|] eqn:Eg; [|discriminate]. destruct (Sc _ _ _ Eg) as (<- & Wu).
        assert (X := Hca u s ch rev prev cur Wu Sc Ich).
        destruct (call u s None ch rev prev cur) as [s' [tr| | |]]; cbn [sbind snd] in *; try congruence. apply found_panic.
    Qed.

    Lemma repeat_run_panic c mi ma rev : In (CElement c mi ma) l0 -> forall f s cs prev cur, scoped r s ->
      snd (repeat_run call bound f c ma s None ch rev cs prev cur) <> Panic.
    Proof.
      intros Ic. induction f as [|f IH]; intros s cs prev cur Sc; cbn [repeat_run].
      - destruct cur; [discriminate|]. destruct (match ma with Some mx => _ | None => _ end); discriminate.
      - destruct cur as [|b cur1] eqn:Ecur; [discriminate|]. rewrite <- Ecur in *. clear Ecur b cur1.
        destruct (match ma with Some mx => (mx <=? zlen cs)%Z | None => false end); [discriminate|].
        assert (X := element_run_panic c mi ma s rev prev cur Ic Sc).
        destruct (element_run call bound c s None ch rev prev cur) as [s1 [[x rem]| | |]] eqn:E; cbn [stry snd] in *; try congruence.
        destruct (element_run_trace call bound Ht r t l0 c _ _ _ _ _ _ _ _ E Sc Wt Il) as (S1 & _); eauto using esc_none.
        apply IH. eapply scoped_shrinks; eauto.
    Qed.

    Lemma compose_run_panic prev : forall l cur, compose_run call bound l ch prev cur <> Panic.
    Proof.
      induction l as [|[b z] l IH]; intros cur; cbn [compose_run]; [discriminate|].
      assert (X := element_value_panic b ch prev cur Ich).
      destruct (element_value call bound b ch prev cur) as [[[x rem]|]| | |] eqn:E; cbn [bind]; try congruence.
    Qed.

    Lemma containers_run_panic rev prev0 : forall l, incl l l0 -> forall s es prev cur, scoped r s ->
      snd (containers_run call bound l s None ch rev prev0 es prev cur) <> Panic.
    Proof.
      induction l as [|[c mi ma|n vs] l IH]; intros Inc s es prev cur Sc; cbn [containers_run]; [discriminate| |].
      - assert (Ic := Inc _ (or_introl eq_refl)). assert (Inc' : incl l l0) by (intros x Hx; apply Inc; now right).
        assert (X := repeat_run_panic c mi ma rev Ic bound s [] prev cur Sc).
        destruct (repeat_run call bound bound c ma s None ch rev [] prev cur) as [s1 [[[cs prev1] cur1]| | |]] eqn:Er; cbn [sbind snd] in *; try congruence.
        destruct (repeat_run_trace call bound Ht r t l0 c mi ma None ch rev Wt Il Ic esc_none _ _ _ _ _ _ _ Er Sc) as (S1 & _); eauto.
        destruct (_ <? _)%Z; [discriminate|]. apply IH; auto. eapply scoped_shrinks; eauto.
      - cbn [snd]. assert (X := compose_run_panic prev0 vs cur).
        destruct (compose_run call bound vs ch prev0 cur); cbn [bind]; congruence.
    Qed.

    Lemma line_run_panic i s rev prev cur : scoped r s -> snd (line_run call bound l0 i s None ch rev prev cur) <> Panic.
    Proof.
      intros Sc. unfold line_run. assert (X := containers_run_panic rev prev l0 (incl_refl _) s [] prev cur Sc).
      destruct (containers_run call bound l0 s None ch rev prev [] prev cur) as [s1 [?| | |]]; cbn [sbind snd] in *; congruence.
    Qed.

    Lemma reverse_loop_panic i : forall f s cs prev cur, scoped r s -> snd (reverse_loop call bound f l0 i s None ch cs prev cur) <> Panic.
    Proof.
      induction f as [|f IH]; intros s cs prev cur Sc; cbn [reverse_loop]; destruct cur as [|b cur0]; try discriminate.
      cbn [escape_run sbind]. set (cur := b :: cur0). assert (X := line_run_panic i s true prev cur Sc).
      destruct (line_run call bound l0 i s None ch true prev cur) as [s2 [[tl rem]| | |]] eqn:El; cbn [stry snd] in *; try congruence.
      destruct (line_run_trace call bound Ht r t l0 i None ch true _ _ _ _ _ Wt Il esc_none El Sc) as (S2 & _); eauto.
      apply IH. eapply scoped_shrinks; eauto.
    Qed.
  End Line.

  Lemma block_run_panic t ch rev : within r t -> incl ch chs -> forall ls, incl ls (t_lines t) -> forall i s acc prev cur, scoped r s ->
    snd (block_run call bound t ls i s None ch rev acc prev cur) <> Panic.
  Proof.
    intros Wt Ich. induction ls as [|l ls IH]; intros Inc i s acc prev cur Sc; cbn [block_run]; [discriminate|].
    assert (Inc' : incl ls (t_lines t)) by (intros x Hx; apply Inc; now right).
    assert (Il : In l (t_lines t)) by (apply Inc; now left).
    destruct (s_visited s (t_name t) i cur); [now apply IH|].
    assert (Sc1 : scoped r (s_mark s t i cur)) by now apply scoped_mark.
    destruct rev.
    - assert (X := reverse_loop_panic t l ch Wt Il Ich i bound (s_mark s t i cur) [] prev cur Sc1).
      destruct (reverse_loop call bound bound l i (s_mark s t i cur) None ch [] prev cur) as [s2 [[cs rem]| | |]]; cbn [sbind snd fst] in *; try congruence.
      destruct cs; discriminate.
    - assert (X := line_run_panic t l ch Wt Il Ich i (s_mark s t i cur) false prev cur Sc1).
      destruct (line_run call bound l i (s_mark s t i cur) None ch false prev cur) as [s2 [[tl rem]| | |]] eqn:El; cbn [stry snd] in *; try congruence.
      + destruct (line_run_trace call bound Ht r t l i None ch false _ _ _ _ _ Wt Il esc_none El Sc1) as (S2 & _); eauto.
        destruct (line_ok tl); [discriminate|]. apply IH; eauto using scoped_shrinks.
      + destruct (line_run_trace call bound Ht r t l i None ch false _ _ _ _ _ Wt Il esc_none El Sc1) as (S2 & _); eauto.
        apply IH; eauto using scoped_shrinks.
  Qed.

  Lemma token_step_panic t s ch rev prev cur : within r t -> scoped r s -> incl ch chs ->
    snd (token_step call bound t s None ch rev prev cur) <> Panic.
  Proof.
    intros Wt Sc Ich. unfold token_step.
    assert (X := block_run_panic t ch rev Wt Ich (t_lines t) (incl_refl _) 0 (s_enter s t) [] prev cur (scoped_enter _ _ _ Sc Wt)).
    destruct (block_run call bound t (t_lines t) 0 (s_enter s t) None ch rev [] prev cur) as [s1 o] eqn:Eb.
    destruct o as [[b rem]| | |]; try discriminate; [|now cbn in X].
    destruct b as [|tl b]; [discriminate|]. cbn [snd]. assert (Y := channels_try_panic ch prev rem Ich).
    destruct (channels_try call bound ch prev rem); cbn [bind]; congruence.
  Qed.
End Panic.

Lemma escapeless_uses g root chs : no_escape g -> uses g (Grammar root chs) -> every_container escapeless root.
Proof. intros H U. exact (H _ _ U). Qed.

Lemma token_run_panic : forall f root chs, no_escape (Grammar root chs) ->
  forall t s ch rev prev cur, within root t -> scoped root s -> incl ch chs -> snd (token_run f t s None ch rev prev cur) <> Panic.
Proof.
  induction f as [|f IH]; intros root chs Ne t s ch rev prev cur W Sc Ich; cbn [token_run]; [discriminate|].
  assert (Sub : forall g', uses (Grammar root chs) g' -> no_escape g').
  { intros g' U root' chs' U'. apply (Ne root' chs'). eapply uses_trans; eauto. }
  eapply (token_step_panic (token_run f) f root chs); eauto.
  - apply token_run_trace.
  - eapply escapeless_uses; eauto using uses_refl.
  - intros c cond I prev' cur'. eapply (IH c []); eauto using within_refl, scoped_nil, incl_refl.
    apply Sub. eapply uses_channel; eauto using uses_refl.
  - intros c b a I prev' cur'. eapply (IH b []); eauto using within_refl, scoped_nil, incl_refl.
    apply Sub. eapply uses_before; eauto using uses_refl.
  - intros c b a I prev' cur'. eapply (IH a []); eauto using within_refl, scoped_nil, incl_refl.
    apply Sub. eapply uses_after; eauto using uses_refl.
  - intros t' l' n' root' chs' mi ma W' Il' Ic' rev' prev' cur'. eapply (IH root' chs'); eauto using within_refl, scoped_nil, incl_refl.
    apply Sub. eapply uses_external; eauto using uses_refl.
Qed.

Lemma execute_no_panic f g data : no_escape g -> execute f g data <> Panic.
Proof. destruct g as [root chs]. intros H. unfold execute. eapply token_run_panic; eauto using within_refl, scoped_nil, incl_refl. Qed.
