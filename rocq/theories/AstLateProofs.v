(** Lines whose reference to an enclosing token comes after another line has used it up. *)
From Coq Require Import List ZArith Lia Bool.
From Coq Require Import Init.Byte Strings.Byte.
From Verif Require Import Base BaseLemmas AstModel SpecAst AstProofs AstTraceProofs AstFuelProofs AstListProofs SpecPeg SpecRec AstPegProofs AstRecProofs.
Import ListNotations.

(** ** The map never grows *)
Definition subset (s s' : smap) : Prop := forall m x, s_get s' m = Some x -> s_get s m = Some x.
Definition beside (t : token) (s s' : smap) : Prop := forall m x, m <> t_name t -> s_get s' m = Some x -> s_get s m = Some x.
Definition keeps (call : call_t) : Prop := forall t s esc chs rev prev cur, subset s (fst (call t s esc chs rev prev cur)).

Lemma subset_refl s : subset s s.
Proof. intros m x E. exact E. Qed.
Lemma subset_trans a b c : subset a b -> subset b c -> subset a c.
Proof. intros A B m x E. auto. Qed.
Lemma beside_subset t s s' s'' : beside t s s' -> subset s' s'' -> beside t s s''.
Proof. intros A B m x N E. auto. Qed.
Lemma beside_enter t s : beside t s (s_enter s t).
Proof.
  intros m x N. unfold s_enter. destruct (s_get s (t_name t)); auto. rewrite s_get_set.
  destruct (bytes_eqb (t_name t) m) eqn:E; auto. apply bytes_eqb_true in E. congruence.
Qed.
Lemma beside_mark t s s1 i d : beside t s s1 -> beside t s (s_mark s1 t i d).
Proof.
  intros A m x N. unfold s_mark. destruct (s_get s1 (t_name t)) as [[t' ls]|]; rewrite s_get_set;
    (destruct (bytes_eqb (t_name t) m) eqn:E; [apply bytes_eqb_true in E; congruence|]); auto.
Qed.
Lemma beside_del t s s1 : beside t s s1 -> subset s (s_del s1 (t_name t)).
Proof.
  intros A m x. rewrite s_get_del. destruct (bytes_eqb (t_name t) m) eqn:E; [discriminate|]. apply A.
  intros ->. rewrite bytes_eqb_refl in E. discriminate.
Qed.
Lemma subset_bind A B (m : smap * outcome A) (k : smap -> A -> smap * outcome B) s :
  subset s (fst m) -> (forall s1 a, subset s1 (fst (k s1 a))) -> subset s (fst (sbind m k)).
Proof. intros S K. destruct m as [s1 [a| | |]]; cbn [sbind fst] in *; auto. eapply subset_trans; eauto. Qed.
Lemma subset_try A B (m : smap * outcome A) (k : smap -> option A -> smap * outcome B) s :
  subset s (fst m) -> (forall s1 a, subset s1 (fst (k s1 a))) -> subset s (fst (stry m k)).
Proof. intros S K. destruct m as [s1 [a| | |]]; cbn [stry fst] in *; auto; eapply subset_trans; eauto. Qed.

Section Keeps.
  Variable call : call_t.
  Variable bound : nat.
  Hypothesis Hk : keeps call.

  Lemma element_run_keeps c s esc chs rev prev cur : subset s (fst (element_run call bound c s esc chs rev prev cur)).
  Proof.
    unfold element_run. destruct cur as [|b cur]; [apply subset_refl|].
    destruct c as [n v|n g|u|n u e|n]; try apply subset_refl.
    - apply subset_bind; [apply Hk|intros; apply subset_refl].
    - apply subset_bind; [apply Hk|intros; apply subset_refl].
    - destruct (s_get s n) as [[u ls]|]; [|apply subset_refl]. apply subset_bind; [apply Hk|intros; apply subset_refl].
  Qed.
  Lemma repeat_run_keeps c max esc chs rev : forall f s cs prev cur, subset s (fst (repeat_run call bound f c max s esc chs rev cs prev cur)).
  Proof.
    induction f as [|f IH]; intros s cs prev cur; cbn [repeat_run]; destruct cur as [|b cur]; try apply subset_refl;
      (destruct (match max with Some m => (m <=? zlen cs)%Z | None => false end); [apply subset_refl|]); [apply subset_refl|].
    apply subset_try; [apply element_run_keeps|]. intros s1 [[x rem]|]; [apply IH|apply subset_refl].
  Qed.
  Lemma containers_run_keeps esc chs rev prev0 : forall l s es prev cur, subset s (fst (containers_run call bound l s esc chs rev prev0 es prev cur)).
  Proof.
    induction l as [|[c mi ma|n vs] l IH]; intros s es prev cur; cbn [containers_run]; try apply subset_refl.
    apply subset_bind; [apply repeat_run_keeps|]. intros s1 [[cs prev1] cur1]. destruct (zlen cs <? i64 mi)%Z; [apply subset_refl|apply IH].
  Qed.
  Lemma line_run_keeps l i s esc chs rev prev cur : subset s (fst (line_run call bound l i s esc chs rev prev cur)).
  Proof. unfold line_run. apply subset_bind; [apply containers_run_keeps|intros; apply subset_refl]. Qed.
  Lemma escape_run_keeps l i s esc chs cs prev cur : subset s (fst (escape_run call bound l i s esc chs cs prev cur)).
  Proof.
    unfold escape_run. destruct esc as [e|]; [|apply subset_refl]. apply subset_try; [apply Hk|]. intros s1 [t|]; [|apply subset_refl].
    destruct (has_successful t); [|apply subset_refl]. destruct (tr_remaining t) as [|b er]; [apply subset_refl|].
    apply subset_try; [apply line_run_keeps|]. intros s2 [[tl rem]|]; [|apply subset_refl]. destruct (line_ok tl); [|apply subset_refl].
    destruct (_ <? _); apply subset_refl.
  Qed.
  Lemma reverse_loop_keeps l i esc chs : forall f s cs prev cur, subset s (fst (reverse_loop call bound f l i s esc chs cs prev cur)).
  Proof.
    induction f as [|f IH]; intros s cs prev cur; cbn [reverse_loop]; destruct cur as [|b cur]; try apply subset_refl.
    apply subset_bind; [apply escape_run_keeps|]. intros s1 [[cs1 prev1] cur1]. apply subset_try; [apply line_run_keeps|].
    intros s2 [x|]; [apply subset_refl|]. destruct cur1; [apply subset_refl|apply IH].
  Qed.
  Lemma block_run_keeps t esc chs rev s : forall ls i s1 acc prev cur, beside t s s1 ->
    beside t s (fst (block_run call bound t ls i s1 esc chs rev acc prev cur)).
  Proof.
    induction ls as [|l ls IH]; intros i s1 acc prev cur B; cbn [block_run fst]; auto.
    destruct (s_visited s1 (t_name t) i cur); [now apply IH|]. assert (B1 := beside_mark _ _ _ i cur B). destruct rev.
    - pose proof (reverse_loop_keeps l i esc chs bound (s_mark s1 t i cur) [] prev cur) as K.
      destruct (reverse_loop call bound bound l i (s_mark s1 t i cur) esc chs [] prev cur) as [s2 [[[|c cs] rem]| | |]]; cbn [sbind fst snd] in *;
        eapply beside_subset; eauto.
    - pose proof (line_run_keeps l i (s_mark s1 t i cur) esc chs false prev cur) as K.
      destruct (line_run call bound l i (s_mark s1 t i cur) esc chs false prev cur) as [s2 [[tl rem]| | |]]; cbn [stry fst] in *;
        try (eapply beside_subset; now eauto).
      + destruct (line_ok tl); cbn [fst]; [eapply beside_subset; eauto|]. apply IH. eapply beside_subset; eauto.
      + apply IH. eapply beside_subset; eauto.
  Qed.
  Lemma token_step_keeps : keeps (token_step call bound).
  Proof.
    intros t s esc chs rev prev cur. unfold token_step.
    pose proof (block_run_keeps t esc chs rev s (t_lines t) 0 (s_enter s t) [] prev cur (beside_enter t s)) as K.
    destruct (block_run call bound t (t_lines t) 0 (s_enter s t) esc chs rev [] prev cur) as [s1 o]. cbn [fst] in K. apply beside_del in K.
    destruct o as [[[|tl b] rem]| | |]; exact K.
  Qed.
End Keeps.

Lemma token_run_keeps : forall f, keeps (token_run f).
Proof.
  induction f as [|f IH]; cbn [token_run]; [intros t s esc chs rev prev cur; apply subset_refl|]. now apply token_step_keeps.
Qed.

(** ** Values do not look at the map *)
Section Values.
  Variable call : call_t.
  Variable bound : nat.

  Lemma repeat_value n b max esc chs rev : forall f cs prev cur,
    exists o, forall s, repeat_run call bound f (EValue n b) max s esc chs rev cs prev cur = (s, o).
  Proof.
    induction f as [|f IH]; intros cs prev cur; cbn [repeat_run]; destruct cur as [|x cur]; eauto;
      (destruct (match max with Some m => (m <=? zlen cs)%Z | None => false end); eauto).
    cbn [element_run]. destruct (element_value call bound b chs prev (x :: cur)) as [[[y rem]|]| | |]; cbn [bind stry]; eauto.
  Qed.

  Lemma values_prefix esc chs rev prev0 pre : Forall value_container pre -> forall es prev cur,
    (exists o, (forall x, o <> Ok x) /\ forall s rest, containers_run call bound (pre ++ rest) s esc chs rev prev0 es prev cur = (s, o)) \/
    (exists es' prev' cur', forall s rest, containers_run call bound (pre ++ rest) s esc chs rev prev0 es prev cur =
       containers_run call bound rest s esc chs rev prev0 es' prev' cur').
  Proof.
    induction 1 as [|c pre V _ IH]; intros es prev cur; [right; exists es, prev, cur; auto|].
    destruct c as [[n b|? ?|?|? ? ?|?] mi ma|? ?]; cbn in V; try contradiction. cbn [app containers_run].
    destruct (repeat_value n b ma esc chs rev bound [] prev cur) as (o & Er). destruct o as [[[cs prev1] cur1]| | |].
    - destruct (zlen cs <? i64 mi)%Z eqn:Em.
      + left. exists Err. split; [discriminate|]. intros. rewrite Er. cbn [sbind]. now rewrite Em.
      + destruct (IH (match cs with [] => es | _ => es ++ [TElement (Some (CElement (EValue n b) mi ma)) cs] end) prev1 cur1) as [(o & No & E)|(es' & prev' & cur' & E)].
        * left. exists o. split; auto. intros. rewrite Er. cbn [sbind]. rewrite Em. apply E.
        * right. exists es', prev', cur'. intros. rewrite Er. cbn [sbind]. rewrite Em. apply E.
    - left. exists Err. split; [discriminate|]. intros. now rewrite Er.
    - left. exists Panic. split; [discriminate|]. intros. now rewrite Er.
    - left. exists Fuel. split; [discriminate|]. intros. now rewrite Er.
  Qed.

  (** A reference to a token that is not in the map is absent. *)
  Lemma absent n max esc chs rev s f prev cur : s_get s n = None ->
    repeat_run call bound f (ERecursive n) max s esc chs rev [] prev cur = (s, Ok ([], prev, cur)) \/
    repeat_run call bound f (ERecursive n) max s esc chs rev [] prev cur = (s, Fuel).
  Proof.
    intros G. destruct f as [|f]; cbn [repeat_run]; destruct cur as [|x cur]; auto;
      (destruct (match max with Some m => (m <=? zlen _)%Z | None => false end); auto).
    cbn [element_run]. rewrite G. cbn [stry]. auto.
  Qed.

  (** The line never succeeds. *)
  Definition hopeless (esc : option token) (chs : list channel) (rev : bool) (prev cur : bytes) (pre : list container) (n : bytes) : Prop :=
    forall s rest min max, (1 <= min < two63)%Z ->
      forall x, snd (containers_run call bound (pre ++ CElement (ERecursive n) min max :: rest) s esc chs rev prev [] prev cur) <> Ok x.

  Lemma absent_line esc chs rev prev cur pre n s rest min max : Forall value_container pre -> s_get s n = None -> (1 <= min < two63)%Z ->
    forall x, snd (containers_run call bound (pre ++ CElement (ERecursive n) min max :: rest) s esc chs rev prev [] prev cur) <> Ok x.
  Proof.
    intros V G M x. destruct (values_prefix esc chs rev prev pre V [] prev cur) as [(o & No & ->)|(es' & prev' & cur' & ->)]; [apply No|].
    cbn [containers_run]. destruct (absent n max esc chs rev s bound prev' cur' G) as [->| ->]; cbn [sbind]; [|discriminate].
    rewrite i64_small by (rewrite two63_val in *; lia). replace (zlen [] <? min)%Z with true; [discriminate|].
    symmetry. apply Z.ltb_lt. unfold zlen. cbn. lia.
  Qed.

  Hypothesis Hk : keeps call.
  Hypothesis Ht : traced call.

  (** After a line that refers to a token, the token is not in the map any more, unless the line ended before. *)
  Lemma used_up r esc chs rev prev cur pre n s rest min max s' o : esc_in r esc -> scoped r s -> Forall value_container pre ->
    (forall m, max = Some m -> (1 <= m)%Z) ->
    containers_run call bound (pre ++ CElement (ERecursive n) min max :: rest) s esc chs rev prev [] prev cur = (s', o) ->
    (o = Err \/ exists x, o = Ok x) ->
    s_get s' n = None \/ hopeless esc chs rev prev cur pre n.
  Proof.
    intros Ie Sc V M E Ho. unfold hopeless. destruct (values_prefix esc chs rev prev pre V [] prev cur) as [(o1 & No & E1)|(es' & prev' & cur' & E1)].
    { right. intros s1 rest1 mi ma _ x. rewrite E1. apply No. }
    rewrite E1 in E. destruct cur' as [|b cur'].
    { right. intros s1 rest1 mi ma Mi x. rewrite E1. cbn [containers_run]. destruct bound; cbn [repeat_run sbind];
        rewrite i64_small by (rewrite two63_val in *; lia); (replace (zlen [] <? mi)%Z with true; [discriminate|]);
        symmetry; apply Z.ltb_lt; unfold zlen; cbn; lia. }
    left. cbn [containers_run] in E.
    assert (G : forall s1 o1, repeat_run call bound bound (ERecursive n) max s esc chs rev [] prev' (b :: cur') = (s1, o1) -> o1 = Err \/ (exists x, o1 = Ok x) ->
      s_get s1 n = None).
    { clear E E1 V. intros s1 o1 E H1. destruct (s_get s n) as [[u ls]|] eqn:G.
      2:{ destruct (absent n max esc chs rev s bound prev' (b :: cur') G) as [E2|E2]; rewrite E2 in E; injection E as <- <-; auto. }
      destruct (Sc _ _ _ G) as (Nu & Wu). destruct bound as [|f]; cbn [repeat_run] in E.
      - destruct (match max with Some m => (m <=? zlen _)%Z | None => false end) eqn:Em; [|injection E as <- <-; destruct H1 as [|[? ?]]; discriminate].
        destruct max as [m|]; [|discriminate]. specialize (M m eq_refl). apply Z.leb_le in Em. unfold zlen in Em. cbn in Em. lia.
      - destruct (match max with Some m => (m <=? zlen _)%Z | None => false end) eqn:Em.
        { destruct max as [m|]; [|discriminate]. specialize (M m eq_refl). apply Z.leb_le in Em. unfold zlen in Em. cbn in Em. lia. }
        cbn [element_run] in E. rewrite G in E. destruct (call u s esc chs rev prev' (b :: cur')) as [s2 o2] eqn:Ec.
        assert (H2 : o2 = Err \/ (exists x, o2 = Ok x) -> s_get s2 n = None).
        { intros H2. destruct (Ht r u _ _ _ _ _ _ _ _ Ec Sc Wu Ie H2) as ((_ & L) & _). now rewrite Nu in L. }
        destruct o2 as [tr| | |]; cbn [sbind] in E.
        + specialize (H2 (or_intror (ex_intro _ _ eq_refl))).
          destruct (found tr (tr_remaining tr)) as [[x rem]| | |]; cbn [stry] in E.
          * pose proof (repeat_run_keeps call (S f) Hk (ERecursive n) max esc chs rev f s2 ([] ++ [x]) (b :: cur') rem) as K. rewrite E in K. cbn [fst] in K.
            destruct (s_get s1 n) eqn:G1; auto. apply K in G1. congruence.
          * injection E as <- <-. exact H2.
          * injection E as <- <-. destruct H1 as [|[? ?]]; discriminate.
          * injection E as <- <-. destruct H1 as [|[? ?]]; discriminate.
        + cbn [stry] in E. injection E as <- <-. apply H2. auto.
        + cbn [stry] in E. injection E as <- <-. destruct H1 as [|[? ?]]; discriminate.
        + cbn [stry] in E. injection E as <- <-. destruct H1 as [|[? ?]]; discriminate. }
    destruct (repeat_run call bound bound (ERecursive n) max s esc chs rev [] prev' (b :: cur')) as [s1 [[[cs prev1] cur1]| | |]] eqn:Er; cbn [sbind] in E.
    - specialize (G _ _ eq_refl (or_intror (ex_intro _ _ eq_refl))). destruct (zlen cs <? i64 min)%Z; [injection E as <- <-; auto|].
      match type of E with ?m = _ => pose proof (f_equal fst E) as K end. cbn [fst] in K.
      match type of E with containers_run _ _ _ _ _ _ _ _ ?es _ _ = _ =>
        pose proof (containers_run_keeps call bound Hk esc chs rev prev rest s1 es prev1 cur1) as S end.
      rewrite E in S. cbn [fst] in S. destruct (s_get s' n) eqn:G1; auto. apply S in G1. congruence.
    - injection E as <- <-. apply (G _ _ eq_refl). auto.
    - injection E as <- <-. destruct Ho as [|[? ?]]; discriminate.
    - injection E as <- <-. destruct Ho as [|[? ?]]; discriminate.
  Qed.
End Values.

(** ** Trees without late lines *)
Definition timely (t : tree) : Prop := forall l, successful (tr_block t) = Some l -> ~ too_late (tr_grammar t) (l_index l).
Definition fine (t : tree) : Prop := forall u, nested t u -> timely u.
Definition content_fine (x : tcontent) : Prop := match x with TValue _ p => Forall fine p | TTree t => fine t end.
Definition line_fine (l : tline) : Prop := forall e x, In e (l_elements l) -> In x (el_contents e) -> content_fine x.

Lemma fine_intro t : timely t -> (forall l, successful (tr_block t) = Some l -> line_fine l) -> Forall fine (tr_suffix t) -> fine t.
Proof.
  intros Hs Hc Hf u N. destruct N as [|u v P N]; auto. destruct P as [l e v1 E I Ic|l e b p v1 E I Ic Ip|v1 I].
  - apply (Hc _ E _ _ I Ic _ N).
  - specialize (Hc _ E _ _ I Ic). cbn in Hc. rewrite Forall_forall in Hc. apply (Hc _ Ip _ N).
  - rewrite Forall_forall in Hf. apply (Hf _ I _ N).
Qed.

(** What the map records is at least as long as the input, longer for the tokens in [t]. *)
Definition weak (s : smap) (cur : bytes) : Prop :=
  forall m t' ls j d, s_get s m = Some (t', ls) -> line_get ls j = Some d -> length cur <= length d.
Definition strict (t : token) (s : smap) (cur : bytes) : Prop :=
  forall v t' ls j d, within t v -> s_get s (t_name v) = Some (t', ls) -> line_get ls j = Some d -> length cur < length d.

Lemma weak_subset s s' cur cur' : weak s cur -> subset s s' -> length cur' <= length cur -> weak s' cur'.
Proof. intros W S L m t' ls j d E El. apply S in E. specialize (W _ _ _ _ _ E El). lia. Qed.
Lemma strict_subset t s s' cur cur' : strict t s cur -> subset s s' -> length cur' <= length cur -> strict t s' cur'.
Proof. intros W S L v t' ls j d Wi E El. apply S in E. specialize (W _ _ _ _ _ Wi E El). lia. Qed.

Definition timely_call (call : call_t) : Prop := forall r chs,
  guarded (Grammar r chs) -> distinct_names (Grammar r chs) -> no_external (Grammar r chs) ->
  forall t s esc ch rev prev cur s' x, within r t -> esc_in r esc -> incl ch chs -> scoped r s -> weak s cur -> strict t s cur ->
  call t s esc ch rev prev cur = (s', Ok x) -> fine x.

Lemma eats_shorter a b n : eats a b n -> length b + n <= length a.
Proof. intros (w & -> & L). rewrite app_length. lia. Qed.

Section Step.
  Variable call : call_t.
  Variable bound : nat.
  Hypothesis Hk : keeps call.
  Hypothesis Ht : traced call.
  Hypothesis Hc : timely_call call.
  Variable r : token.
  Variable chs : list channel.
  Hypothesis Hg : guarded (Grammar r chs).
  Hypothesis Hd : distinct_names (Grammar r chs).
  Hypothesis Hx : no_external (Grammar r chs).

  Lemma channel_run_fine c prev cur x : In c chs -> channel_run call c prev cur = Ok x -> fine x.
  Proof.
    destruct c as [t cond]. intros I E. unfold channel_run in E.
    destruct (call t [] None [] false prev cur) as [s' o] eqn:Ec. cbn [snd] in E. destruct o as [tr| | |]; try discriminate. cbn [bind] in E.
    assert (U : uses (Grammar r chs) (Grammar t [])) by (eapply uses_channel; eauto using uses_refl).
    assert (F : fine tr).
    { refine (Hc t [] _ _ _ t [] None [] false prev cur s' tr (within_refl t) _ (incl_refl _) (scoped_nil t) _ _ Ec); try discriminate.
      - intros root chs' t0 l U' W Il. exact (Hg root chs' t0 l (uses_trans _ _ _ U U') W Il).
      - intros root chs' t0 u v U'. exact (Hd root chs' t0 u v (uses_trans _ _ _ U U')).
      - intros root chs' U'. exact (Hx root chs' (uses_trans _ _ _ U U')). }
    destruct cond as [c|]; [|injection E as <-; exact F].
    destruct (channel_condition call c prev (tr_remaining tr)); try discriminate. injection E as <-. exact F.
  Qed.
  Lemma channels_round_fine : forall l, incl l chs -> forall ts prev rem ts' prev' rem', Forall fine ts ->
    channels_round call l (ts, prev, rem) = Ok (ts', prev', rem') -> Forall fine ts'.
  Proof.
    induction l as [|c l IH]; intros Inc ts prev rem ts' prev' rem' F E; cbn [channels_round] in E; [injection E as <- <- <-; exact F|].
    assert (Inc' : incl l chs) by (intros x Hx'; apply Inc; now right).
    destruct (channel_run call c prev rem) as [t| | |] eqn:Ec; try discriminate; [|eapply IH; eauto].
    destruct (_ <? _); [discriminate|]. destruct (_ =? _); [eapply IH; eauto|]. eapply IH; [exact Inc'| |exact E].
    apply Forall_app. split; auto. constructor; auto. eapply channel_run_fine; eauto. apply Inc. now left.
  Qed.
  Lemma channels_loop_fine l : incl l chs -> forall f ts prev rem ts' prev' rem', Forall fine ts ->
    channels_loop call f l (ts, prev, rem) = Ok (ts', prev', rem') -> Forall fine ts'.
  Proof.
    intros Inc. induction f as [|f IH]; intros ts prev rem ts' prev' rem' F E; cbn [channels_loop] in E; [discriminate|].
    destruct (channels_round call l (ts, prev, rem)) as [[[ts1 prev1] rem1]| | |] eqn:Er; try discriminate. cbn [bind fst] in E.
    assert (F1 := channels_round_fine _ Inc _ _ _ _ _ _ F Er). destruct (_ =? _); [injection E as <- <- <-; exact F1|eapply IH; eauto].
  Qed.
  Lemma channels_try_fine l prev cur ts rem : incl l chs -> channels_try call bound l prev cur = Ok (ts, rem) -> Forall fine ts.
  Proof.
    intros Inc E. unfold channels_try in E. destruct l as [|c l]; [injection E as <- <-; constructor|].
    unfold channels_run in E. destruct (channels_loop call bound (c :: l) ([], prev, cur)) as [[[ts1 prev1] rem1]| | |] eqn:El; cbn [bind fst snd] in E; try discriminate.
    - assert (F := channels_loop_fine _ Inc _ _ _ _ _ _ _ (Forall_nil _) El). destruct ts1; injection E as <- <-; auto.
    - injection E as <- <-. constructor.
  Qed.

  Section Line.
    Variable t : token.
    Variable l0 : list container.
    Variable esc : option token.
    Variable ch : list channel.
    Variable cur0 : bytes.
    Hypothesis Wt : within r t.
    Hypothesis Il : In l0 (t_lines t).
    Hypothesis Ie : esc_in r esc.
    Hypothesis Ich : incl ch chs.

    Definition open (s : smap) : Prop := scoped r s /\ weak s cur0 /\ forall u, child t u -> strict u s cur0.
    Lemma open_subset s s' : open s -> subset s s' -> scoped r s' -> open s'.
    Proof. intros (A & B & C) S Sc. split; auto. split; [eapply weak_subset; eauto|]. intros u Cu. eapply strict_subset; eauto. Qed.

    Lemma element_run_fine c mi ma s rev prev cur s' x rem : In (CElement c mi ma) l0 -> open s -> length cur <= length cur0 ->
      (forall n, c = ERecursive n -> length cur < length cur0) ->
      element_run call bound c s esc ch rev prev cur = (s', Ok (x, rem)) -> content_fine x.
    Proof.
      intros Ic (Sc & Wk & St) L0 Lr E. unfold element_run in E. destruct cur as [|b cur1] eqn:Ecur; [discriminate|]. rewrite <- Ecur in *. clear Ecur b cur1.
      destruct c as [n b|n g|u|n u e|n].
      - injection E as <- E. unfold element_value in E.
        destruct (channels_try call bound ch prev cur) as [[ts rem1]| | |] eqn:Ec; cbn [bind fst snd] in E; try discriminate.
        destruct rem1 as [|b1 rem1]; [discriminate|]. destruct (Byte.eqb b b1); [|discriminate]. injection E as <- <-.
        cbn. eapply channels_try_fine; eauto.
      - destruct (Hx r chs (uses_refl _) t l0 _ Wt Il Ic).
      - assert (Cu : child t u) by (eapply child_token; eauto).
        destruct (call u s esc ch rev prev cur) as [s2 [tr| | |]] eqn:Ec; cbn [sbind] in E; try discriminate. injection E as <- E.
        unfold found in E. destruct (has_successful tr); [|discriminate]. injection E as <- <-. cbn.
        refine (Hc r chs Hg Hd Hx u s esc ch rev prev cur s2 tr _ Ie Ich Sc _ _ Ec).
        + exact (within_step r t u Wt Cu).
        + eapply weak_subset; eauto using subset_refl.
        + eapply strict_subset; eauto using subset_refl.
      - assert (Cu : child t u) by (eapply child_exception; eauto).
        destruct (call u s e [] (negb rev) prev cur) as [s2 [tr| | |]] eqn:Ec; cbn [sbind] in E; try discriminate. injection E as <- E.
        unfold found in E. destruct (has_successful tr); [|discriminate]. injection E as <- <-. cbn.
        refine (Hc r chs Hg Hd Hx u s e [] (negb rev) prev cur s2 tr _ _ (incl_nil_l _) Sc _ _ Ec).
        + exact (within_step r t u Wt Cu).
        + intros e' ->. apply (within_step r t e' Wt). eapply child_escape; eauto.
        + eapply weak_subset; eauto using subset_refl.
        + eapply strict_subset; eauto using subset_refl.
      - destruct (s_get s n) as [[u ls]|] eqn:Eg; [|discriminate]. destruct (Sc _ _ _ Eg) as (<- & Wu). specialize (Lr _ eq_refl).
        destruct (call u s esc ch rev prev cur) as [s2 [tr| | |]] eqn:Ec; cbn [sbind] in E; try discriminate. injection E as <- E.
        unfold found in E. destruct (has_successful tr); [|discriminate]. injection E as <- <-. cbn.
        refine (Hc r chs Hg Hd Hx u s esc ch rev prev cur s2 tr Wu Ie Ich Sc _ _ Ec).
        + eapply weak_subset; eauto using subset_refl.
        + intros v t' ls' j d _ E1 E2. specialize (Wk _ _ _ _ _ E1 E2). lia.
    Qed.

    Lemma repeat_run_fine c mi ma rev : In (CElement c mi ma) l0 -> forall f s cs prev cur s' cs' prev' cur', open s ->
      length cur <= length cur0 -> (forall n, c = ERecursive n -> length cur < length cur0) -> Forall content_fine cs ->
      repeat_run call bound f c ma s esc ch rev cs prev cur = (s', Ok (cs', prev', cur')) -> Forall content_fine cs'.
    Proof.
      intros Ic. induction f as [|f IH]; intros s cs prev cur s' cs' prev' cur' Op L0 Lr F E; cbn [repeat_run] in E; destruct cur as [|b cur1];
        try (injection E as <- <- <- <-; exact F);
        (destruct (match ma with Some m => (m <=? zlen cs)%Z | None => false end); [injection E as <- <- <- <-; exact F|]); [discriminate|].
      set (cur := b :: cur1) in *. destruct (element_run call bound c s esc ch rev prev cur) as [s1 [[x rem]| | |]] eqn:Ee; cbn [stry] in E; try discriminate;
        [|injection E as <- <- <- <-; exact F].
      pose proof (element_run_fine c mi ma s rev prev cur s1 x rem Ic Op L0 Lr Ee) as Fx.
      destruct (element_run_trace call bound Ht r t l0 c _ _ _ _ _ _ _ _ Ee (proj1 Op) Wt Il) as (S1 & P & _); eauto.
      destruct (P _ _ eq_refl) as (P1 & _). apply content_eats, eats_shorter in P1.
      pose proof (element_run_keeps call bound Hk c s esc ch rev prev cur) as K. rewrite Ee in K. cbn [fst] in K.
      eapply IH; [| | | |exact E].
      - eapply open_subset; eauto; eapply scoped_shrinks; eauto; apply Op.
      - lia.
      - intros n En. specialize (Lr n En). lia.
      - apply Forall_app. auto.
    Qed.

    Lemma containers_run_fine rev prev0 : guarded_line l0 -> forall l done, l0 = done ++ l ->
      forall s es prev cur s' es' cur', open s -> length cur <= length cur0 ->
      ((exists c mi ma, In (CElement c mi ma) done /\ (1 <= mi < two63)%Z) -> length cur < length cur0) ->
      (forall e x, In e es -> In x (el_contents e) -> content_fine x) ->
      containers_run call bound l s esc ch rev prev0 es prev cur = (s', Ok (es', cur')) ->
      forall e x, In e es' -> In x (el_contents e) -> content_fine x.
    Proof.
      intros G. induction l as [|[c mi ma|n vs] l IH]; intros done E s es prev cur s' es' cur' Op L0 Gd F Ec; cbn [containers_run] in Ec.
      - injection Ec as <- <- <-. exact F.
      - assert (Ic : In (CElement c mi ma) l0) by (rewrite E; apply in_elt).
        assert (Lr : forall n, c = ERecursive n -> length cur < length cur0).
        { intros n ->. apply Gd. eapply G. exact E. }
        destruct (repeat_run call bound bound c ma s esc ch rev [] prev cur) as [s1 [[[cs prev1] cur1]| | |]] eqn:Er; cbn [sbind] in Ec; try discriminate.
        pose proof (repeat_run_fine c mi ma rev Ic _ _ _ _ _ _ _ _ _ Op L0 Lr (Forall_nil _) Er) as Fc.
        destruct (repeat_run_trace call bound Ht r t l0 c mi ma esc ch rev Wt Il Ic Ie _ _ _ _ _ _ _ Er (proj1 Op)) as (S1 & Q); eauto.
        destruct (Q _ _ _ eq_refl) as (cs1 & -> & T & _). cbn [app] in *.
        apply times_eats, eats_shorter in T. destruct (Z.ltb_spec (zlen cs1) (i64 mi)) as [|Lmi]; [discriminate|].
        pose proof (repeat_run_keeps call bound Hk c ma esc ch rev bound s [] prev cur) as K. rewrite Er in K. cbn [fst] in K.
        eapply (IH (done ++ [CElement c mi ma])); [now rewrite <- app_assoc| | | | |exact Ec].
        + eapply open_subset; eauto. eapply scoped_shrinks; eauto. apply Op.
        + lia.
        + intros (c' & mi' & ma' & I & B). apply in_app_or in I. destruct I as [I|[[= <- <- <-]|[]]].
          * assert (length cur < length cur0) by (apply Gd; eauto). lia.
          * rewrite i64_small in Lmi by (rewrite two63_val in *; lia). unfold zlen in Lmi. lia.
        + destruct cs1 as [|y cs1]; [exact F|]. intros e x I Ix. apply in_app_or in I as [I|[<-|[]]]; [eapply F; eauto|].
          rewrite Forall_forall in Fc. apply Fc, Ix.
      - injection Ec as _ Ec. destruct (compose_run call bound vs ch prev0 cur); discriminate.
    Qed.

    Lemma line_run_fine i s rev prev s' tl rem : open s -> line_run call bound l0 i s esc ch rev prev cur0 = (s', Ok (tl, rem)) ->
      line_fine tl /\ l_index tl = i.
    Proof.
      intros Op E. unfold line_run in E.
      destruct (containers_run call bound l0 s esc ch rev prev [] prev cur0) as [s1 [[es rem1]| | |]] eqn:Ec; cbn [sbind] in E; try discriminate.
      injection E as <- <- <-. split; auto. cbn [fst]. unfold line_fine. cbn [l_elements].
      eapply (containers_run_fine rev prev (Hg r chs t l0 (uses_refl _) Wt Il) l0 []); eauto; [intros (c & mi & ma & [] & _)|intros e x []].
    Qed.
  End Line.

  Lemma reverse_loop_values l i esc ch : forall f s cs prev cur s' cs' cur', (forall x, In x cs -> exists b, x = TValue b []) ->
    reverse_loop call bound f l i s esc ch cs prev cur = (s', Ok (cs', cur')) -> forall x, In x cs' -> exists b, x = TValue b [].
  Proof.
    induction f as [|f IH]; intros s cs prev cur s' cs' cur' F E; cbn [reverse_loop] in E; destruct cur as [|b cur0]; try discriminate;
      try (injection E as <- <- <-; exact F).
    set (cur := b :: cur0) in *.
    destruct (escape_run call bound l i s esc ch cs prev cur) as [s1 [[[cs1 prev1] cur1]| | |]] eqn:Ee; cbn [sbind] in E; try discriminate.
    assert (F1 : forall x, In x cs1 -> exists b, x = TValue b []).
    { clear E. unfold escape_run in Ee. destruct esc as [e|]; [|injection Ee as <- <- <- <-; exact F].
      destruct (call e s None ch false prev cur) as [s3 [tr| | |]]; cbn [stry] in Ee; try discriminate; [|injection Ee as <- <- <- <-; exact F].
      destruct (has_successful tr); [|injection Ee as <- <- <- <-; exact F].
      destruct (tr_remaining tr) as [|b0 er]; [injection Ee as <- <- <- <-; exact F|].
      destruct (line_run call bound l i s3 (Some e) ch true cur (b0 :: er)) as [s4 [[tl rem]| | |]]; cbn [stry] in Ee; try discriminate;
        [|injection Ee as <- <- <- <-; exact F].
      destruct (line_ok tl); [|injection Ee as <- <- <- <-; exact F]. destruct (_ <? _); [discriminate|]. injection Ee as _ <- _ _.
      intros x I. apply in_app_or in I as [I|I]; [auto|]. apply in_map_iff in I as (y & <- & _). eauto. }
    destruct (line_run call bound l i s1 esc ch true prev1 cur1) as [s2 [x| | |]]; cbn [stry] in E; try discriminate.
    - injection E as <- <- <-. exact F1.
    - destruct cur1 as [|y cur1]; [discriminate|]. eapply IH; [|exact E]. intros x I. apply in_app_or in I as [I|[<-|[]]]; eauto.
  Qed.

  (** The map while a token is parsed, before line [i]. *)
  Definition at_line (t : token) (i : nat) (cur : bytes) (s s1 : smap) : Prop :=
    scoped r s1 /\ beside t s s1 /\
    forall t' ls j d, s_get s1 (t_name t) = Some (t', ls) -> line_get ls j = Some d -> length cur <= length d /\ (i <= j -> length cur < length d).

  Lemma at_line_visited t i cur s s1 : at_line t i cur s s1 -> s_visited s1 (t_name t) i cur = false.
  Proof.
    intros (_ & _ & A). unfold s_visited. destruct (s_get s1 (t_name t)) as [[t' ls]|] eqn:G; auto.
    destruct (line_get ls i) as [d|] eqn:Ed; auto. destruct (bytes_eqb cur d) eqn:Eb; auto. apply bytes_eqb_true in Eb as ->.
    destruct (A _ _ _ _ eq_refl Ed) as (_ & X). specialize (X (le_n _)). lia.
  Qed.
  Lemma at_line_mark t i cur s s1 : within r t -> at_line t i cur s s1 -> at_line t (S i) cur s (s_mark s1 t i cur).
  Proof.
    intros W (A & B & C). split; [now apply scoped_mark|]. split; [now apply beside_mark|]. unfold s_mark.
    destruct (s_get s1 (t_name t)) as [[t' ls]|] eqn:G; intros t2 ls2 j d; rewrite s_get_set, bytes_eqb_refl; intros [= <- <-]; cbn [line_get].
    - destruct (Nat.eqb_spec i j) as [->|]; [intros [= <-]; lia|]. intros Ed. destruct (C _ _ _ _ eq_refl Ed) as (X & Y). split; auto. intros. apply Y. lia.
    - destruct (Nat.eqb_spec i j) as [->|]; [intros [= <-]; lia|discriminate].
  Qed.
  Lemma at_line_subset t i cur s s1 s2 : at_line t i cur s s1 -> subset s1 s2 -> scoped r s2 -> at_line t i cur s s2.
  Proof. intros (A & B & C) S Sc. split; auto. split; [eapply beside_subset; eauto|]. intros t' ls j d E. apply S in E. eauto. Qed.
  Lemma at_line_open t i cur s s1 : within r t -> weak s cur -> strict t s cur -> at_line t i cur s s1 -> open t cur s1.
  Proof.
    intros W Wk St (A & B & C). split; auto. split.
    - intros m t' ls j d E Ed. destruct (bytes_eqb m (t_name t)) eqn:Em.
      + apply bytes_eqb_true in Em as ->. now apply (C _ _ _ _ E Ed).
      + assert (N : m <> t_name t) by (intros ->; rewrite bytes_eqb_refl in Em; discriminate). apply (B _ _ N) in E. eauto.
    - intros u Cu v t' ls j d Wv E Ed. assert (N := Hd r chs t u v (uses_refl _) W Cu Wv). apply (B _ _ N) in E.
      eapply (St v); eauto. eapply within_child; eauto.
  Qed.

  (** Before line [i]: the earlier lines have used up what they refer to. *)
  Definition spent (t : token) (i : nat) (esc : option token) (ch : list channel) (prev cur : bytes) (s1 : smap) : Prop :=
    forall i' l pre n min max, i' < i -> nth_error (t_lines t) i' = Some l -> n <> t_name t -> refers_after pre n min max l ->
      (forall m, max = Some m -> (1 <= m)%Z) -> s_get s1 n = None \/ hopeless call bound esc ch false prev cur pre n.

  Lemma spent_subset t i esc ch prev cur s1 s2 : spent t i esc ch prev cur s1 -> subset s1 s2 -> spent t i esc ch prev cur s2.
  Proof.
    intros A S i' l pre n mi ma Li Nt Nn Rf M. destruct (A _ _ _ _ _ _ Li Nt Nn Rf M) as [G|H]; auto. left.
    destruct (s_get s2 n) eqn:G2; auto. apply S in G2. congruence.
  Qed.
  Lemma spent_mark t i esc ch prev cur s1 j d : spent t i esc ch prev cur s1 -> spent t i esc ch prev cur (s_mark s1 t j d).
  Proof.
    intros A i' l pre n mi ma Li Nt Nn Rf M. destruct (A _ _ _ _ _ _ Li Nt Nn Rf M) as [G|H]; auto. left.
    destruct (s_get (s_mark s1 t j d) n) as [x|] eqn:G2; auto. exfalso.
    apply (beside_mark t s1 s1 j d (fun m y _ E => E) n x Nn) in G2. congruence.
  Qed.

  Lemma block_run_fine t s cur esc ch rev : within r t -> esc_in r esc -> incl ch chs -> weak s cur -> strict t s cur ->
    forall ls done, t_lines t = done ++ ls -> forall s1 acc prev s' b rem, at_line t (length done) cur s s1 ->
    (rev = false -> spent t (length done) esc ch prev cur s1) -> (rev = true -> done = [] /\ acc = []) ->
    Forall (fun x => line_ok x = false) acc ->
    block_run call bound t ls (length done) s1 esc ch rev acc prev cur = (s', Ok (b, rem)) ->
    forall l, successful b = Some l -> line_fine l /\ ~ too_late t (l_index l).
  Proof.
    intros W Ie Ich Wk St. induction ls as [|l ls IH]; intros done El s1 acc prev s' b rem At Sp Rv Fa E; cbn [block_run] in E.
    - injection E as <- <- <-. rewrite successful_none by auto. discriminate.
    - assert (Il : In l (t_lines t)) by (rewrite El; apply in_elt).
      assert (Nt : nth_error (t_lines t) (length done) = Some l).
      { rewrite El, nth_error_app2 by lia. now rewrite Nat.sub_diag. }
      assert (El' : t_lines t = (done ++ [l]) ++ ls) by now rewrite <- app_assoc.
      assert (Ld : S (length done) = length (done ++ [l])) by (rewrite app_length; cbn; lia).
      rewrite (at_line_visited _ _ _ _ _ At) in E. assert (At1 := at_line_mark _ _ _ _ _ W At).
      set (s2 := s_mark s1 t (length done) cur) in *. destruct rev.
      + destruct (Rv eq_refl) as (-> & ->). cbn [length app] in *.
        destruct (reverse_loop call bound bound l 0 s2 esc ch [] prev cur) as [s3 [[cs rem1]| | |]] eqn:Er; cbn [sbind fst snd] in E; try discriminate.
        assert (V := reverse_loop_values l 0 esc ch _ _ _ _ _ _ _ _ (fun x (I : In x []) => match I with end) Er).
        destruct cs as [|c cs]; [discriminate|]. injection E as <- <- <-. intros l1 Es. cbn [successful find] in Es.
        destruct (line_ok _); [|discriminate]. injection Es as <-. split.
        * intros e x I Ix. cbn [l_elements] in I. destruct I as [<-|[]]. destruct (V _ Ix) as (y & ->). constructor.
        * cbn [l_index]. intros (i & ? & ? & ? & ? & ? & ? & ? & ? & Li & _). lia.
      + specialize (Sp eq_refl). assert (Sp1 := spent_mark _ _ _ _ _ _ _ (length done) cur Sp). fold s2 in Sp1.
        assert (Op := at_line_open _ _ _ _ _ W Wk St At1).
        assert (Next : forall s3 o, line_run call bound l (length done) s2 esc ch false prev cur = (s3, o) -> o = Err \/ (exists x, o = Ok x) ->
          at_line t (length (done ++ [l])) cur s s3 /\ spent t (length (done ++ [l])) esc ch prev cur s3).
        { intros s3 o Er Ho. pose proof (line_run_keeps call bound Hk l (length done) s2 esc ch false prev cur) as K. rewrite Er in K. cbn [fst] in K.
          destruct (line_run_trace call bound Ht r t l (length done) esc ch false _ _ _ _ _ W Il Ie Er (proj1 Op) Ho) as (S3 & _).
          rewrite <- Ld. split; [eapply at_line_subset; eauto; eapply scoped_shrinks; eauto; apply Op|].
          intros i' l' pre n mi ma Li Nt' Nn (V & rest & ->) M. destruct (Nat.eq_dec i' (length done)) as [->|Ni].
          - rewrite Nt in Nt'. injection Nt' as ->. unfold line_run in Er.
            destruct (containers_run call bound (pre ++ CElement (ERecursive n) mi ma :: rest) s2 esc ch false prev [] prev cur) as [s4 o4] eqn:Ec.
            assert (H4 : s4 = s3 /\ (o4 = Err \/ exists x, o4 = Ok x)).
            { destruct o4 as [x| | |]; cbn [sbind] in Er; injection Er as <- <-; eauto; destruct Ho as [|[? ?]]; discriminate. }
            destruct H4 as (<- & H4). eapply used_up; eauto. apply Op.
          - eapply (spent_subset _ _ _ _ _ _ _ _ Sp1 K) with (i' := i'); eauto; [lia|]. split; eauto. }
        destruct (line_run call bound l (length done) s2 esc ch false prev cur) as [s3 [[tl rem1]| | |]] eqn:Er; cbn [stry] in E; try discriminate.
        * destruct (line_run_fine t l esc ch cur W Il Ie Ich _ _ _ _ _ _ _ Op Er) as (Fl & Ei).
          destruct (line_ok tl) eqn:Eo.
          -- injection E as <- <- <-. intros l1 Es. rewrite successful_last in Es by auto. injection Es as <-. split; auto. rewrite Ei.
             intros (i & l1 & l2 & pre & n & mi & ma & mi' & ma' & Li & N1 & N2 & Nn & R1 & M1 & (V & rest & E2) & M2).
             rewrite Nt in N2. injection N2 as <-. unfold line_run in Er. rewrite E2 in Er.
             assert (Bad : forall x, snd (containers_run call bound (pre ++ CElement (ERecursive n) mi' ma' :: rest) s2 esc ch false prev [] prev cur) <> Ok x).
             { destruct (Sp1 _ _ _ _ _ _ Li N1 Nn R1 M1) as [G|H]; [apply absent_line; auto|now apply H]. }
             destruct (containers_run call bound (pre ++ CElement (ERecursive n) mi' ma' :: rest) s2 esc ch false prev [] prev cur) as [s4 [x| | |]]; cbn [sbind] in Er; try discriminate.
             now apply (Bad x).
          -- destruct (Next _ _ eq_refl (or_intror (ex_intro _ _ eq_refl))) as (At3 & Sp3). rewrite Ld in E.
             eapply (IH (done ++ [l]) El' s3 (acc ++ [tl])); [exact At3|intros _; exact Sp3|discriminate|apply Forall_app; auto|exact E].
        * destruct (Next _ _ eq_refl (or_introl eq_refl)) as (At3 & Sp3). rewrite Ld in E.
          eapply (IH (done ++ [l]) El' s3 acc); [exact At3|intros _; exact Sp3|discriminate|exact Fa|exact E].
  Qed.

  Lemma token_step_fine t s esc ch rev prev cur s' x : within r t -> esc_in r esc -> incl ch chs -> scoped r s -> weak s cur -> strict t s cur ->
    token_step call bound t s esc ch rev prev cur = (s', Ok x) -> fine x.
  Proof.
    intros W Ie Ich Sc Wk St E. unfold token_step in E.
    destruct (block_run call bound t (t_lines t) 0 (s_enter s t) esc ch rev [] prev cur) as [s1 o] eqn:Eb.
    destruct o as [[b rem]| | |]; try discriminate.
    assert (At : at_line t 0 cur s (s_enter s t)).
    { split; [now apply scoped_enter|]. split; [apply beside_enter|]. unfold s_enter. destruct (s_get s (t_name t)) as [[t' ls]|] eqn:G.
      - intros t2 ls2 j d E2 Ed. rewrite G in E2. injection E2 as <- <-. specialize (St t _ _ _ _ (within_refl t) G Ed). lia.
      - intros t2 ls2 j d. rewrite s_get_set, bytes_eqb_refl. intros [= <- <-]. discriminate. }
    assert (F := block_run_fine t s cur esc ch rev W Ie Ich Wk St (t_lines t) [] eq_refl (s_enter s t) [] prev s1 b rem At).
    assert (Fb : forall l, successful b = Some l -> line_fine l /\ ~ too_late t (l_index l)).
    { apply F; auto. intros _ i' l pre n mi ma Li. cbn in Li. lia. }
    destruct b as [|tl b]; [discriminate|]. injection E as <- E.
    destruct (channels_try call bound ch prev rem) as [[sf rem']| | |] eqn:Ec; cbn [bind fst snd] in E; try discriminate. injection E as <-.
    apply fine_intro; cbn [tr_suffix]; [|intros l Es; now apply Fb|eapply channels_try_fine; eauto].
    intros l Es. cbn [tr_grammar tr_block] in *. now apply Fb.
  Qed.
End Step.

Lemma token_run_fine : forall f, timely_call (token_run f).
Proof.
  induction f as [|f IH]; intros r chs Hg Hd Hx t s esc ch rev prev cur s' x W Ie Ich Sc Wk St E; cbn [token_run] in E; [discriminate|].
  eapply (token_step_fine (token_run f) f (token_run_keeps f) (token_run_trace f) IH r chs Hg Hd Hx); eauto.
Qed.

Lemma execute_fine f g data x : guarded g -> distinct_names g -> no_external g -> execute f g data = Ok x -> fine x.
Proof.
  destruct g as [root chs]. intros Hg Hd Hx E. unfold execute in E.
  destruct (token_run f root [] None chs false [] data) as [s' o] eqn:Er. cbn [snd] in E. subst o.
  refine (token_run_fine f root chs Hg Hd Hx root [] None chs false [] data s' x (within_refl _) _ (incl_refl _) (scoped_nil _) _ _ Er); try discriminate.
Qed.

(** ** Checking the hypotheses *)
Lemma check_distinct g : forallb (fun g' => let 'Grammar root _ := g' in check_names root) (gram_grammars g) = true -> distinct_names g.
Proof.
  rewrite forallb_forall. intros C root chs t u v U. specialize (C _ (uses_grammars _ _ U)). cbn beta iota in C. now apply check_names_ok.
Qed.
Definition externalb (c : container) : bool := match c with CElement (EExternal _ _) _ _ => false | _ => true end.
Lemma check_external g : check_containers externalb g = true -> no_external g.
Proof. intros C root chs. apply (check_containers_ok externalb); auto. intros [[| | | |] ? ?|]; cbn; auto; discriminate. Qed.
