(** The bound on the parser's calls and loops: more of it changes nothing, and guarded grammars need a finite one. *)
From Coq Require Import List ZArith Lia Bool.
From Coq Require Import Init.Byte Strings.Byte.
From Verif Require Import Base BaseLemmas AstModel SpecAst AstProofs AstTraceProofs.
Import ListNotations.

(** ** More fuel changes nothing *)
Definition ref {A} (o1 o2 : outcome A) : Prop := o1 <> Fuel -> o2 = o1.
Definition sref {A} (m1 m2 : smap * outcome A) : Prop := snd m1 <> Fuel -> m2 = m1.

Lemma ref_refl A (o : outcome A) : ref o o.
Proof. intros _. reflexivity. Qed.
Lemma sref_refl A (m : smap * outcome A) : sref m m.
Proof. intros _. reflexivity. Qed.
Lemma ref_snd A (m1 m2 : smap * outcome A) : sref m1 m2 -> ref (snd m1) (snd m2).
Proof. intros H N. now rewrite H. Qed.
Lemma ref_bind A B (o1 o2 : outcome A) (k1 k2 : A -> outcome B) :
  ref o1 o2 -> (forall a, ref (k1 a) (k2 a)) -> ref (bind o1 k1) (bind o2 k2).
Proof. intros R K N. destruct o1; cbn [bind] in *; try congruence; rewrite R by discriminate; cbn [bind]; auto. now apply K. Qed.
Lemma sref_pair A s (o1 o2 : outcome A) : ref o1 o2 -> sref (s, o1) (s, o2).
Proof. intros R N. cbn in N. now rewrite R. Qed.
Lemma sref_bind A B (m1 m2 : smap * outcome A) (k1 k2 : smap -> A -> smap * outcome B) :
  sref m1 m2 -> (forall s a, sref (k1 s a) (k2 s a)) -> sref (sbind m1 k1) (sbind m2 k2).
Proof.
  intros R K N. destruct m1 as [s [a| | |]]; cbn [sbind] in *; try (now cbn in N); rewrite R by (cbn; discriminate); cbn [sbind]; auto.
  now apply K.
Qed.
Lemma sref_try A B (m1 m2 : smap * outcome A) (k1 k2 : smap -> option A -> smap * outcome B) :
  sref m1 m2 -> (forall s a, sref (k1 s a) (k2 s a)) -> sref (stry m1 k1) (stry m2 k2).
Proof.
  intros R K N. destruct m1 as [s [a| | |]]; cbn [stry] in *; try (now cbn in N); rewrite R by (cbn; discriminate); cbn [stry]; auto;
  now apply K.
Qed.

Definition cref (c1 c2 : call_t) : Prop := forall t s esc chs rev prev cur, sref (c1 t s esc chs rev prev cur) (c2 t s esc chs rev prev cur).

Section Mono.
  Variables c1 c2 : call_t.
  Variables b1 b2 : nat.
  Hypothesis Hc : cref c1 c2.
  Hypothesis Hb : b1 <= b2.

  Lemma channel_condition_mono c prev next : ref (channel_condition c1 c prev next) (channel_condition c2 c prev next).
  Proof.
    unfold channel_condition. apply ref_bind.
    - destruct (fst c); [|apply ref_refl]. apply ref_bind; [apply ref_snd, Hc|intros; apply ref_refl].
    - intros _. destruct (snd c); [|apply ref_refl]. apply ref_bind; [apply ref_snd, Hc|intros; apply ref_refl].
  Qed.
  Lemma channel_run_mono c prev cur : ref (channel_run c1 c prev cur) (channel_run c2 c prev cur).
  Proof.
    destruct c as [t cond]. unfold channel_run. apply ref_bind; [apply ref_snd, Hc|]. intros tr.
    destruct cond; [|apply ref_refl]. apply ref_bind; [apply channel_condition_mono|intros; apply ref_refl].
  Qed.
  Lemma channels_round_mono l : forall st, ref (channels_round c1 l st) (channels_round c2 l st).
  Proof.
    induction l as [|c l IH]; intros [[ts prev] rem]; cbn [channels_round]; [apply ref_refl|].
    intros N. pose proof (channel_run_mono c prev rem) as R. destruct (channel_run c1 c prev rem) as [t| | |]; try congruence;
      rewrite R by discriminate; auto.
    - destruct (_ <? _); auto. destruct (_ =? _); now apply IH.
    - now apply IH.
  Qed.
  Lemma channels_loop_mono l : forall f1 f2, f1 <= f2 -> forall st, ref (channels_loop c1 f1 l st) (channels_loop c2 f2 l st).
  Proof.
    induction f1 as [|f1 IH]; intros f2 L st; [intros N; now cbn in N|].
    destruct f2 as [|f2]; [lia|]. cbn [channels_loop]. apply ref_bind; [apply channels_round_mono|]. intros st'.
    destruct (_ =? _); [apply ref_refl|]. apply IH. lia.
  Qed.
  Lemma channels_run_mono l prev cur : ref (channels_run c1 b1 l prev cur) (channels_run c2 b2 l prev cur).
  Proof. unfold channels_run. apply ref_bind; [now apply channels_loop_mono|intros; apply ref_refl]. Qed.
  Lemma channels_try_mono l prev cur : ref (channels_try c1 b1 l prev cur) (channels_try c2 b2 l prev cur).
  Proof.
    destruct l as [|c l]; [apply ref_refl|]. unfold channels_try. intros N. pose proof (channels_run_mono (c :: l) prev cur) as R.
    destruct (channels_run c1 b1 (c :: l) prev cur); try congruence; now rewrite R by discriminate.
  Qed.
  Lemma element_value_mono n chs prev cur : ref (element_value c1 b1 n chs prev cur) (element_value c2 b2 n chs prev cur).
  Proof. unfold element_value. apply ref_bind; [apply channels_try_mono|intros; apply ref_refl]. Qed.
  Lemma external_run_mono n g rev prev cur : ref (external_run c1 n g rev prev cur) (external_run c2 n g rev prev cur).
  Proof. destruct g. unfold external_run. apply ref_bind; [apply ref_snd, Hc|intros; apply ref_refl]. Qed.
  Lemma element_run_mono c s esc chs rev prev cur : sref (element_run c1 b1 c s esc chs rev prev cur) (element_run c2 b2 c s esc chs rev prev cur).
  Proof.
    unfold element_run. destruct cur as [|x cur]; [apply sref_refl|]. destruct c.
    - apply sref_pair. apply ref_bind; [apply element_value_mono|intros; apply ref_refl].
    - apply sref_pair. apply ref_bind; [apply external_run_mono|intros; apply ref_refl].
    - apply sref_bind; [apply Hc|intros; apply sref_refl].
    - apply sref_bind; [apply Hc|intros; apply sref_refl].
    - destruct (s_get s name) as [[t ls]|]; [|apply sref_refl]. apply sref_bind; [apply Hc|intros; apply sref_refl].
  Qed.
  Lemma repeat_run_mono c max esc chs rev : forall f1 f2, f1 <= f2 -> forall s cs prev cur,
    sref (repeat_run c1 b1 f1 c max s esc chs rev cs prev cur) (repeat_run c2 b2 f2 c max s esc chs rev cs prev cur).
  Proof.
    induction f1 as [|f1 IH]; intros f2 L s cs prev cur; destruct f2 as [|f2]; try lia; cbn [repeat_run];
      destruct cur as [|x cur]; try apply sref_refl; destruct (match max with Some m => _ | None => _ end); try apply sref_refl.
    - intros N. now cbn in N.
    - apply sref_try; [apply element_run_mono|]. intros s' [[y rem]|]; [|apply sref_refl]. apply IH. lia.
  Qed.
  Lemma compose_run_mono chs prev : forall l cur, ref (compose_run c1 b1 l chs prev cur) (compose_run c2 b2 l chs prev cur).
  Proof.
    induction l as [|[b z] l IH]; intros cur; cbn [compose_run]; [apply ref_refl|]. apply ref_bind; [apply element_value_mono|].
    intros [[x rem]|]; [apply IH|apply ref_refl].
  Qed.
  Lemma containers_run_mono esc chs rev prev0 : forall l s es prev cur,
    sref (containers_run c1 b1 l s esc chs rev prev0 es prev cur) (containers_run c2 b2 l s esc chs rev prev0 es prev cur).
  Proof.
    induction l as [|[c min max|n vs] l IH]; intros s es prev cur; cbn [containers_run]; [apply sref_refl| |].
    - apply sref_bind; [now apply repeat_run_mono|]. intros s' [[cs prev'] cur']. destruct (_ <? _)%Z; [apply sref_refl|]. apply IH.
    - apply sref_pair. apply ref_bind; [apply compose_run_mono|intros; apply ref_refl].
  Qed.
  Lemma line_run_mono l i s esc chs rev prev cur :
    sref (line_run c1 b1 l i s esc chs rev prev cur) (line_run c2 b2 l i s esc chs rev prev cur).
  Proof. unfold line_run. apply sref_bind; [apply containers_run_mono|intros; apply sref_refl]. Qed.
  Lemma escape_run_mono l i s esc chs cs prev cur :
    sref (escape_run c1 b1 l i s esc chs cs prev cur) (escape_run c2 b2 l i s esc chs cs prev cur).
  Proof.
    unfold escape_run. destruct esc as [e|]; [|apply sref_refl]. apply sref_try; [apply Hc|].
    intros s1 [t|]; [|apply sref_refl]. destruct (has_successful t); [|apply sref_refl].
    destruct (tr_remaining t) as [|x er]; [apply sref_refl|]. apply sref_try; [apply line_run_mono|].
    intros s2 [[tl rem]|]; apply sref_refl.
  Qed.
  Lemma reverse_loop_mono l i esc chs : forall f1 f2, f1 <= f2 -> forall s cs prev cur,
    sref (reverse_loop c1 b1 f1 l i s esc chs cs prev cur) (reverse_loop c2 b2 f2 l i s esc chs cs prev cur).
  Proof.
    induction f1 as [|f1 IH]; intros f2 L s cs prev cur; destruct f2 as [|f2]; try lia; cbn [reverse_loop];
      destruct cur as [|x cur]; try apply sref_refl.
    - intros N. now cbn in N.
    - apply sref_bind; [apply escape_run_mono|]. intros s1 [[cs1 prev1] cur1].
      apply sref_try; [apply line_run_mono|]. intros s2 [?|]; [apply sref_refl|]. destruct cur1; [apply sref_refl|]. apply IH. lia.
  Qed.
  Lemma block_run_mono t esc chs rev : forall ls i s acc prev cur,
    sref (block_run c1 b1 t ls i s esc chs rev acc prev cur) (block_run c2 b2 t ls i s esc chs rev acc prev cur).
  Proof.
    induction ls as [|l ls IH]; intros i s acc prev cur; cbn [block_run]; [apply sref_refl|].
    destruct (s_visited s (t_name t) i cur); [apply IH|]. destruct rev.
    - apply sref_bind; [now apply reverse_loop_mono|intros; apply sref_refl].
    - apply sref_try; [apply line_run_mono|]. intros s2 [[tl rem]|]; [|apply IH]. destruct (line_ok tl); [apply sref_refl|apply IH].
  Qed.
  Lemma token_step_mono : cref (token_step c1 b1) (token_step c2 b2).
  Proof.
    intros t s esc chs rev prev cur. unfold token_step.
    pose proof (block_run_mono t esc chs rev (t_lines t) 0 (s_enter s t) [] prev cur) as R.
    destruct (block_run c1 b1 t (t_lines t) 0 (s_enter s t) esc chs rev [] prev cur) as [s1 o].
    intros N. destruct o as [[b rem]| | |]; try (rewrite R by (cbn; discriminate); reflexivity); [|now cbn in N].
    rewrite R by (cbn; discriminate). destruct b as [|tl b]; auto.
    revert N. apply sref_pair. apply ref_bind; [apply channels_try_mono|intros; apply ref_refl].
  Qed.
End Mono.

Lemma token_run_mono : forall f1 f2, f1 <= f2 -> cref (token_run f1) (token_run f2).
Proof.
  induction f1 as [|f1 IH]; intros f2 L.
  - intros t s esc chs rev prev cur N. now cbn in N.
  - destruct f2 as [|f2]; [lia|]. cbn [token_run]. apply token_step_mono; [apply IH; lia|lia].
Qed.

Lemma execute_mono f1 f2 g data : f1 <= f2 -> execute f1 g data <> Fuel -> execute f2 g data = execute f1 g data.
Proof. destruct g as [root chs]. unfold execute. intros L N. f_equal. now apply token_run_mono. Qed.

(** ** Sizes *)
Fixpoint tok_size (t : token) : nat :=
  let 'Token _ ls _ := t in S (list_sum (map (fun l => list_sum (map cont_size l)) ls))
with cont_size (c : container) : nat :=
  match c with CElement e _ _ => econ_size e | CCompose _ _ => 0 end
with econ_size (e : econtent) : nat :=
  match e with
  | EExternal _ g => gram_size g
  | EToken t => tok_size t
  | EEverything _ t o => tok_size t + match o with Some e => tok_size e | None => 0 end
  | _ => 0
  end
with gram_size (g : grammar) : nat :=
  let 'Grammar root chs := g in S (tok_size root + list_sum (map chan_size chs))
with chan_size (c : channel) : nat :=
  let 'Channel t cond := c in
  S (tok_size t + match cond with
                  | Some (b, a) => match b with Some b => S (tok_size b) | None => 0 end +
                                   match a with Some a => S (tok_size a) | None => 0 end
                  | None => 0
                  end).

Definition esc_size (e : option token) : nat := match e with Some e => tok_size e | None => 0 end.

Lemma list_sum_in l n : In n l -> n <= list_sum l.
Proof. induction l as [|x l IH]; cbn; [tauto|]. intros [->|I]; [lia|]. specialize (IH I). unfold list_sum in IH. lia. Qed.

Lemma tok_size_container t l c : In l (t_lines t) -> In c l -> cont_size c < tok_size t.
Proof.
  destruct t as [n ls ss]. cbn [t_lines]. intros I Ic.
  pose proof (list_sum_in _ _ (in_map (fun l => list_sum (map cont_size l)) _ _ I)) as A. cbn beta in A.
  pose proof (list_sum_in _ _ (in_map cont_size _ _ Ic)) as B. cbn [tok_size]. lia.
Qed.
Lemma tok_size_pos t : 0 < tok_size t.
Proof. destruct t. cbn. lia. Qed.
Lemma child_size t u : child t u -> tok_size u < tok_size t.
Proof. destruct 1 as [l u mi ma I Ic|l n u e mi ma I Ic|l n u e mi ma I Ic]; pose proof (tok_size_container _ _ _ I Ic) as L; cbn in L; lia. Qed.
Lemma within_size r t : within r t -> tok_size t <= tok_size r.
Proof. induction 1 as [|t u W IH C]; auto. apply child_size in C. lia. Qed.
Lemma esc_in_size r e : esc_in r e -> esc_size e <= tok_size r.
Proof. destruct e as [e|]; cbn; [|lia]. intros H. now apply within_size, H. Qed.

(** ** Finite fuel *)
Section Term.
  Variable call : call_t.
  Variables bound N : nat.
  Variable r : token.
  Variable chs : list channel.
  Variable m : nat.
  Definition kk := S (2 * tok_size r).
  Definition mu (t : token) (esc : option token) (cur : bytes) : nat := length cur * kk + tok_size t + esc_size esc.

  Hypothesis Ht : traced call.
  Hypothesis Hb : N < bound.
  Hypothesis Hg : forall t l, within r t -> In l (t_lines t) -> guarded_line l.
  Hypothesis Hch : forall c cond, In (Channel c cond) chs -> forall prev cur, length prev <= N -> length cur <= N ->
    snd (call c [] None [] false prev cur) <> Fuel.
  Hypothesis Hbe : forall c b a, In (Channel c (Some (Some b, a))) chs -> forall prev cur, length prev <= N -> length cur <= N ->
    snd (call b [] None [] false prev cur) <> Fuel.
  Hypothesis Haf : forall c b a, In (Channel c (Some (b, Some a))) chs -> forall prev cur, length prev <= N -> length cur <= N ->
    snd (call a [] None [] false prev cur) <> Fuel.
  Hypothesis Hex : forall t l n root chs' mi ma, within r t -> In l (t_lines t) -> In (CElement (EExternal n (Grammar root chs')) mi ma) l ->
    forall rev prev cur, length prev <= N -> length cur <= N -> snd (call root [] None chs' rev prev cur) <> Fuel.
  Hypothesis Hca : forall t s esc ch rev prev cur, within r t -> esc_in r esc -> scoped r s -> incl ch chs ->
    length prev <= N -> length cur <= N -> mu t esc cur < m -> snd (call t s esc ch rev prev cur) <> Fuel.

  Lemma eats_length a b n : eats a b n -> length b + n <= length a.
  Proof. intros (w & -> & L). rewrite app_length. lia. Qed.

  Lemma channel_condition_fuel c cond prev next : In (Channel c (Some cond)) chs -> length prev <= N -> length next <= N ->
    channel_condition call cond prev next <> Fuel.
  Proof.
    intros I Lp Ln. unfold channel_condition. destruct cond as [b a]. cbn [fst snd].
    assert (A : (match b with None => Ok tt | Some t => do _ <- snd (call t [] None [] false [] prev); Ok tt end) <> Fuel).
    { destruct b as [b|]; [|discriminate]. assert (X := Hbe _ _ _ I [] prev (Nat.le_0_l _) Lp).
      destruct (snd (call b [] None [] false [] prev)); cbn [bind]; congruence. }
    destruct b as [b|]; [destruct (snd (call b [] None [] false [] prev)) as [x| | |]; cbn [bind] in *; try congruence|cbn [bind]];
      (destruct a as [a|]; [|discriminate]; assert (X := Haf _ _ _ I [] next (Nat.le_0_l _) Ln);
       destruct (snd (call a [] None [] false [] next)); cbn [bind]; congruence).
  Qed.

  Lemma channel_run_fuel c prev cur : In c chs -> length prev <= N -> length cur <= N -> channel_run call c prev cur <> Fuel.
  Proof.
    intros I Lp Lc. destruct c as [t cond]. unfold channel_run. assert (X := Hch _ _ I prev cur Lp Lc).
    destruct (call t [] None [] false prev cur) as [s' [tr| | |]] eqn:E; cbn [snd bind] in *; try congruence.
    destruct cond as [cond|]; [|discriminate].
    assert (L : length (tr_remaining tr) <= N).
    { edestruct (Ht t) as (_ & P); eauto using scoped_nil, within_refl; [discriminate|].
      specialize (P _ eq_refl). apply token_eats, eats_length in P. lia. }
    pose proof (channel_condition_fuel _ _ prev (tr_remaining tr) I Lp L) as Y.
    destruct (channel_condition call cond prev (tr_remaining tr)); cbn [bind]; congruence.
  Qed.

  Lemma channels_round_fuel : forall l, incl l chs -> forall ts prev cur, length prev <= N -> length cur <= N ->
    channels_round call l (ts, prev, cur) <> Fuel /\
    forall ts' prev' cur', channels_round call l (ts, prev, cur) = Ok (ts', prev', cur') -> length prev' <= N /\ length cur' <= N.
  Proof.
    induction l as [|c l IH]; intros I ts prev cur Lp Lc; cbn [channels_round].
    - split; [discriminate|]. intros ? ? ? [= <- <- <-]. auto.
    - assert (I' : incl l chs) by (intros x Hx; apply I; now right).
      assert (X := channel_run_fuel c prev cur (I _ (or_introl eq_refl)) Lp Lc).
      destruct (channel_run call c prev cur) as [t| | |]; try congruence.
      + destruct (_ <? _); [split; discriminate|]. destruct (_ =? _); [now apply IH|]. apply IH; auto. rewrite skipn_length. lia.
      + now apply IH.
      + split; discriminate.
  Qed.

  Lemma channels_loop_fuel l : incl l chs -> forall f ts prev cur, length prev <= N -> length cur <= N -> length cur < f ->
    channels_loop call f l (ts, prev, cur) <> Fuel.
  Proof.
    intros I. induction f as [|f IH]; intros ts prev cur Lp Lc Lf; [lia|]. cbn [channels_loop].
    destruct (channels_round_fuel l I ts prev cur Lp Lc) as (A & B).
    destruct (channels_round call l (ts, prev, cur)) as [[[ts' prev'] cur']| | |] eqn:E; cbn [bind] in *; try congruence.
    cbn [fst]. destruct (Nat.eqb_spec (length ts) (length ts')) as [|Nq]; [discriminate|].
    destruct (B _ _ _ eq_refl) as (Lp' & Lc'). apply IH; auto.
    destruct (channels_round_trace call Ht l l (incl_refl _) _ _ _ _ _ _ E) as (ts1 & -> & S).
    assert (W := skip_eats _ _ _ _ S).
    apply eats_length in W. rewrite app_length in Nq. lia.
  Qed.

  Lemma channels_try_fuel l prev cur : incl l chs -> length prev <= N -> length cur <= N -> channels_try call bound l prev cur <> Fuel.
  Proof.
    intros I Lp Lc. destruct l as [|c l]; [discriminate|]. unfold channels_try, channels_run.
    match goal with |- context [channels_loop ?a ?b ?x ?y] =>
      assert (X : channels_loop a b x y <> Fuel) by (apply channels_loop_fuel; auto; lia); destruct (channels_loop a b x y) as [st| | |] end;
      cbn [bind]; try congruence.
    destruct (fst (fst st)); discriminate.
  Qed.

  Lemma element_value_fuel n l prev cur : incl l chs -> length prev <= N -> length cur <= N -> element_value call bound n l prev cur <> Fuel.
  Proof.
    intros I Lp Lc. unfold element_value. assert (X := channels_try_fuel l prev cur I Lp Lc).
    destruct (channels_try call bound l prev cur) as [[ts rem]| | |]; cbn [bind fst snd] in *; try congruence.
    destruct rem as [|b rem]; [discriminate|]. destruct (Byte.eqb n b); discriminate.
  Qed.

  Lemma found_fuel t rem : found t rem <> Fuel.
  Proof. unfold found. destruct (has_successful t); discriminate. Qed.

  Lemma kk_bound t esc : within r t -> esc_in r esc -> tok_size t + esc_size esc < kk.
  Proof. intros W E. apply within_size in W. apply esc_in_size in E. unfold kk. lia. Qed.

  Section Line.
    Variable t : token.
    Variable l0 : list container.
    Variable esc : option token.
    Variable ch : list channel.
    Variable cur0 : bytes.
    Hypothesis Wt : within r t.
    Hypothesis Il : In l0 (t_lines t).
    Hypothesis Ie : esc_in r esc.
    Hypothesis Ich : incl ch chs.
    Hypothesis Lm : mu t esc cur0 <= m.

    Lemma mu_le a b k : a <= b -> a * k <= b * k.
    Proof. intros. now apply Nat.mul_le_mono_r. Qed.

    Lemma element_run_fuel c mi ma s rev prev cur : In (CElement c mi ma) l0 -> scoped r s -> length prev <= N -> length cur <= N ->
      length cur <= length cur0 -> (forall n, c = ERecursive n -> length cur < length cur0) ->
      snd (element_run call bound c s esc ch rev prev cur) <> Fuel.
    Proof.
      intros Ic Sc Lp Lc L0 Lr. unfold element_run. destruct cur as [|b cur1] eqn:Ecur; [discriminate|]. rewrite <- Ecur in *. clear Ecur b cur1.
      pose proof (tok_size_container _ _ _ Il Ic) as Sz. pose proof (mu_le _ _ kk L0) as Mu. unfold mu in Lm.
      destruct c as [n b|n g|u|n u e|n]; cbn [cont_size econ_size] in Sz.
      - cbn [snd]. assert (X := element_value_fuel b ch prev cur Ich Lp Lc).
        destruct (element_value call bound b ch prev cur) as [[x|]| | |]; cbn [bind]; congruence.
      - cbn [snd]. destruct g as [root chs']. unfold external_run. assert (X := Hex _ _ _ _ _ _ _ Wt Il Ic rev prev cur Lp Lc).
        destruct (snd (call root [] None chs' rev prev cur)); cbn [bind]; try congruence. apply found_fuel.
      - assert (Wu : within r u) by (apply (within_step r t u Wt); eapply child_token; eauto).
        assert (X : snd (call u s esc ch rev prev cur) <> Fuel) by (apply Hca; auto; unfold mu; lia).
        destruct (call u s esc ch rev prev cur) as [s' [tr| | |]]; cbn [sbind snd] in *; try congruence. apply found_fuel.
      - assert (Wu : within r u) by (apply (within_step r t u Wt); eapply child_exception; eauto).
        assert (We : esc_in r e). { intros e' ->. apply (within_step r t e' Wt). eapply child_escape; eauto. }
        assert (X : snd (call u s e [] (negb rev) prev cur) <> Fuel).
        { apply Hca; auto; [intros ? []|]. unfold mu. unfold esc_size at 1. lia. }
        destruct (call u s e [] (negb rev) prev cur) as [s' [tr| | |]]; cbn [sbind snd] in *; try congruence. apply found_fuel.
      - destruct (s_get s n) as [[u ls]|] eqn:Eg; [|discriminate]. destruct (Sc _ _ _ Eg) as (<- & Wu).
        specialize (Lr _ eq_refl). pose proof (kk_bound u esc Wu Ie) as Kb.
        assert (M1 : length cur * kk + kk <= length cur0 * kk).
        { replace (length cur * kk + kk) with (S (length cur) * kk) by lia. now apply Nat.mul_le_mono_r. }
        assert (X : snd (call u s esc ch rev prev cur) <> Fuel) by (apply Hca; auto; unfold mu; lia).
        destruct (call u s esc ch rev prev cur) as [s' [tr| | |]]; cbn [sbind snd] in *; try congruence. apply found_fuel.
    Qed.

    Lemma repeat_run_fuel c mi ma rev : In (CElement c mi ma) l0 -> forall f s cs prev cur, scoped r s ->
      length prev <= N -> length cur <= N -> length cur <= length cur0 -> (forall n, c = ERecursive n -> length cur < length cur0) ->
      length cur <= f ->
      snd (repeat_run call bound f c ma s esc ch rev cs prev cur) <> Fuel /\
      forall s' cs' prev' cur', repeat_run call bound f c ma s esc ch rev cs prev cur = (s', Ok (cs', prev', cur')) -> length prev' <= N.
    Proof.
      intros Ic. induction f as [|f IH]; intros s cs prev cur Sc Lp Lc L0 Lr Lf.
      - destruct cur; [|cbn in Lf; lia]. cbn [repeat_run]. split; [discriminate|]. intros ? ? ? ? [= <- <- <- <-]. auto.
      - cbn [repeat_run]. destruct cur as [|b cur1] eqn:Ecur.
        { split; [discriminate|]. intros ? ? ? ? [= <- <- <- <-]. auto. }
        rewrite <- Ecur in *. assert (Lpos : 0 < length cur) by (subst; cbn; lia). clear Ecur b cur1.
        destruct (match ma with Some mx => (mx <=? zlen cs)%Z | None => false end).
        { split; [discriminate|]. intros ? ? ? ? [= <- <- <- <-]. auto. }
        assert (X := element_run_fuel c mi ma s rev prev cur Ic Sc Lp Lc L0 Lr).
        destruct (element_run call bound c s esc ch rev prev cur) as [s1 [[x rem]| | |]] eqn:E; cbn [stry snd] in *; try congruence.
        + destruct (element_run_trace call bound Ht r t l0 c _ _ _ _ _ _ _ _ E Sc Wt Il) as (S1 & P & _); eauto.
          destruct (P _ _ eq_refl) as (P1 & _).
          assert (W := content_eats _ _ _ _ _ _ _ _ P1). apply eats_length in W.
          assert (Sc1 := scoped_shrinks _ _ _ Sc S1).
          apply IH; auto; try lia; intros n En; specialize (Lr n En); lia.
        + split; [discriminate|]. intros ? ? ? ? [= <- <- <- <-]. auto.
        + split; discriminate.
    Qed.

    Lemma compose_run_fuel prev : length prev <= N -> forall l cur, length cur <= N -> compose_run call bound l ch prev cur <> Fuel.
    Proof.
      intros Lp. induction l as [|[b z] l IH]; intros cur Lc; cbn [compose_run]; [discriminate|].
      assert (X := element_value_fuel b ch prev cur Ich Lp Lc).
      destruct (element_value call bound b ch prev cur) as [[[x rem]|]| | |] eqn:E; cbn [bind]; try congruence.
      apply IH. destruct (element_value_trace call bound Ht _ _ _ _ _ _ E) as (ts & _ & S).
      assert (W := skip_eats _ _ _ _ S). apply eats_length in W. cbn in W. lia.
    Qed.

    Lemma containers_run_fuel rev prev0 : length prev0 <= N -> guarded_line l0 -> forall l done, l0 = done ++ l ->
      forall s es prev cur, scoped r s -> length prev <= N -> length cur <= N -> length cur <= length cur0 ->
      ((exists c mi ma, In (CElement c mi ma) done /\ (1 <= mi < two63)%Z) -> length cur < length cur0) ->
      snd (containers_run call bound l s esc ch rev prev0 es prev cur) <> Fuel.
    Proof.
      intros Lp0 G. induction l as [|[c mi ma|n vs] l IH]; intros done E s es prev cur Sc Lp Lc L0 Gd; cbn [containers_run]; [discriminate| |].
      - assert (Ic : In (CElement c mi ma) l0) by (rewrite E; apply in_elt).
        assert (Lr : forall n, c = ERecursive n -> length cur < length cur0).
        { intros n ->. apply Gd. eapply G. exact E. }
        destruct (repeat_run_fuel c mi ma rev Ic bound s [] prev cur Sc Lp Lc L0 Lr ltac:(lia)) as (X & Y).
        destruct (repeat_run call bound bound c ma s esc ch rev [] prev cur) as [s1 [[[cs prev1] cur1]| | |]] eqn:Er; cbn [sbind snd] in *; try congruence.
        destruct (repeat_run_trace call bound Ht r t l0 c mi ma esc ch rev Wt Il Ic Ie _ _ _ _ _ _ _ Er Sc) as (S1 & Q); eauto.
        destruct (Q _ _ _ eq_refl) as (cs1 & -> & T & _). cbn [app] in *.
        assert (W := times_eats _ _ _ _ _ _ _ _ T). apply eats_length in W.
        destruct (Z.ltb_spec (zlen cs1) (i64 mi)) as [|Lmi]; [discriminate|].
        specialize (Y _ _ _ _ eq_refl).
        apply (IH (done ++ [CElement c mi ma])); [now rewrite <- app_assoc|eapply scoped_shrinks; eauto|auto|lia|lia|].
        intros (c' & mi' & ma' & I & B). apply in_app_or in I. destruct I as [I|[[= <- <- <-]|[]]].
        + assert (length cur < length cur0) by (apply Gd; eauto). lia.
        + rewrite i64_small in Lmi by (rewrite two63_val in *; lia). unfold zlen in Lmi. lia.
      - cbn [snd]. assert (X := compose_run_fuel prev0 Lp0 vs cur Lc).
        destruct (compose_run call bound vs ch prev0 cur); cbn [bind]; congruence.
    Qed.
  End Line.

  Lemma line_run_fuel t l i s esc ch rev prev cur : within r t -> In l (t_lines t) -> esc_in r esc -> incl ch chs -> mu t esc cur <= m ->
    scoped r s -> length prev <= N -> length cur <= N -> snd (line_run call bound l i s esc ch rev prev cur) <> Fuel.
  Proof.
    intros Wt Il Ie Ich Lm Sc Lp Lc. unfold line_run.
    assert (X : snd (containers_run call bound l s esc ch rev prev [] prev cur) <> Fuel).
    { eapply (containers_run_fuel t l esc ch cur) with (done := []); eauto.
      intros (c & mi & ma & [] & _). }
    destruct (containers_run call bound l s esc ch rev prev [] prev cur) as [s1 [?| | |]]; cbn [sbind snd] in *; congruence.
  Qed.

  Lemma mu_shorter t esc a b : length a <= length b -> mu t esc a <= mu t esc b.
  Proof. intros L. unfold mu. pose proof (mu_le _ _ kk L). lia. Qed.

  Lemma escape_run_fuel t l i s esc ch cs prev cur : within r t -> In l (t_lines t) -> esc_in r esc -> incl ch chs -> mu t esc cur <= m ->
    scoped r s -> length prev <= N -> length cur <= N ->
    snd (escape_run call bound l i s esc ch cs prev cur) <> Fuel /\
    forall s' cs' prev' cur', escape_run call bound l i s esc ch cs prev cur = (s', Ok (cs', prev', cur')) ->
      length prev' <= N /\ length cur' <= length cur.
  Proof.
    intros Wt Il Ie Ich Lm Sc Lp Lc. unfold escape_run.
    assert (Same : forall s1 : smap, snd (s1, Ok (cs, prev, cur)) <> Fuel /\ forall s' cs' prev' cur', (s1, Ok (cs, prev, cur)) = (s', Ok (cs', prev', cur')) ->
      length prev' <= N /\ length cur' <= length cur).
    { intros s1. split; [discriminate|]. intros ? ? ? ? [= <- <- <- <-]. auto. }
    destruct esc as [e|]; [|apply Same].
    assert (X : snd (call e s None ch false prev cur) <> Fuel).
    { apply Hca; auto; [discriminate|]. unfold mu in *. cbn [esc_size] in *. pose proof (tok_size_pos t). lia. }
    destruct (call e s None ch false prev cur) as [s1 [tr| | |]] eqn:Ec; cbn [stry snd] in *; try congruence.
    2: apply Same. 2: split; discriminate.
    destruct (has_successful tr) eqn:Eh; [|apply Same].
    destruct (Ht r e _ _ _ _ _ _ _ _ Ec Sc (Ie _ eq_refl)) as ((L & _) & P); eauto; [discriminate|].
    specialize (P _ eq_refl). apply token_eats, eats_length in P.
    destruct (tr_remaining tr) as [|b0 er0] eqn:Er; [apply Same|]. rewrite <- Er in *. set (er := tr_remaining tr) in *. clear b0 er0 Er.
    assert (Y : snd (line_run call bound l i s1 (Some e) ch true cur er) <> Fuel).
    { eapply line_run_fuel; eauto using scoped_shrinks; [|lia]. eapply Nat.le_trans; [|exact Lm]. apply mu_shorter. lia. }
    destruct (line_run call bound l i s1 (Some e) ch true cur er) as [s2 [[tl rem]| | |]] eqn:El; cbn [stry snd] in *; try congruence.
    2: apply Same. 2: split; discriminate.
    destruct (line_ok tl); [|apply Same]. destruct (_ <? _); [split; discriminate|].
    split; [discriminate|]. intros ? ? ? ? [= <- <- <- <-]. rewrite skipn_length. lia.
  Qed.

  Lemma reverse_loop_fuel t l i esc ch : within r t -> In l (t_lines t) -> esc_in r esc -> incl ch chs ->
    forall f s cs prev cur, mu t esc cur <= m -> scoped r s -> length prev <= N -> length cur <= N -> length cur <= f ->
    snd (reverse_loop call bound f l i s esc ch cs prev cur) <> Fuel.
  Proof.
    intros Wt Il Ie Ich. induction f as [|f IH]; intros s cs prev cur Lm Sc Lp Lc Lf.
    - destruct cur; [|cbn in Lf; lia]. cbn. discriminate.
    - cbn [reverse_loop]. destruct cur as [|b cur0] eqn:Ecur; [discriminate|]. rewrite <- Ecur in *. clear Ecur b cur0.
      destruct (escape_run_fuel t l i s esc ch cs prev cur Wt Il Ie Ich Lm Sc Lp Lc) as (X & Y).
      destruct (escape_run call bound l i s esc ch cs prev cur) as [s1 [[[cs1 prev1] cur1]| | |]] eqn:Ee; cbn [sbind snd] in *; try congruence.
      destruct (Y _ _ _ _ eq_refl) as (Lp1 & Lc1).
      destruct (escape_run_trace call bound Ht r t l i esc ch _ _ _ _ _ _ Wt Il Ie Ee Sc) as (S1 & _); eauto.
      assert (Sc1 := scoped_shrinks _ _ _ Sc S1). assert (M1 := mu_shorter t esc _ _ Lc1).
      assert (Z1 : snd (line_run call bound l i s1 esc ch true prev1 cur1) <> Fuel) by (eapply line_run_fuel; eauto; lia).
      destruct (line_run call bound l i s1 esc ch true prev1 cur1) as [s2 [[tl rem]| | |]] eqn:El; cbn [stry snd] in *; try congruence.
      destruct cur1 as [|b cur2]; [discriminate|]. cbn [length] in *.
      destruct (line_run_trace call bound Ht r t l i esc ch true _ _ _ _ _ Wt Il Ie El Sc1) as (S2 & _); eauto.
      apply IH; eauto using scoped_shrinks; cbn [length]; try lia.
      eapply Nat.le_trans; [|exact Lm]. apply mu_shorter. lia.
  Qed.

  Lemma block_run_fuel t esc ch rev : within r t -> esc_in r esc -> incl ch chs ->
    forall ls, incl ls (t_lines t) -> forall i s acc prev cur, mu t esc cur <= m -> scoped r s -> length prev <= N -> length cur <= N ->
    snd (block_run call bound t ls i s esc ch rev acc prev cur) <> Fuel.
  Proof.
    intros Wt Ie Ich. induction ls as [|l ls IH]; intros Inc i s acc prev cur Lm Sc Lp Lc; cbn [block_run]; [discriminate|].
    assert (Inc' : incl ls (t_lines t)) by (intros x Hx; apply Inc; now right).
    assert (Il : In l (t_lines t)) by (apply Inc; now left).
    destruct (s_visited s (t_name t) i cur); [now apply IH|].
    assert (Sc1 : scoped r (s_mark s t i cur)) by now apply scoped_mark.
    destruct rev.
    - assert (X : snd (reverse_loop call bound bound l i (s_mark s t i cur) esc ch [] prev cur) <> Fuel)
        by (eapply reverse_loop_fuel; eauto; lia).
      destruct (reverse_loop call bound bound l i (s_mark s t i cur) esc ch [] prev cur) as [s2 [[cs rem]| | |]]; cbn [sbind snd fst] in *; try congruence.
      destruct cs; discriminate.
    - assert (X : snd (line_run call bound l i (s_mark s t i cur) esc ch false prev cur) <> Fuel) by (eapply line_run_fuel; eauto).
      destruct (line_run call bound l i (s_mark s t i cur) esc ch false prev cur) as [s2 [[tl rem]| | |]] eqn:El; cbn [stry snd] in *; try congruence.
      + destruct (line_run_trace call bound Ht r t l i esc ch false _ _ _ _ _ Wt Il Ie El Sc1) as (S2 & _); eauto.
        destruct (line_ok tl); [discriminate|]. apply IH; eauto using scoped_shrinks.
      + destruct (line_run_trace call bound Ht r t l i esc ch false _ _ _ _ _ Wt Il Ie El Sc1) as (S2 & _); eauto.
        apply IH; eauto using scoped_shrinks.
  Qed.

  Lemma token_step_fuel t s esc ch rev prev cur : within r t -> esc_in r esc -> scoped r s -> incl ch chs ->
    length prev <= N -> length cur <= N -> mu t esc cur <= m -> snd (token_step call bound t s esc ch rev prev cur) <> Fuel.
  Proof.
    intros Wt Ie Sc Ich Lp Lc Lm. unfold token_step.
    assert (Sc1 : scoped r (s_enter s t)) by now apply scoped_enter.
    assert (X := block_run_fuel t esc ch rev Wt Ie Ich (t_lines t) (incl_refl _) 0 (s_enter s t) [] prev cur Lm Sc1 Lp Lc).
    destruct (block_run call bound t (t_lines t) 0 (s_enter s t) esc ch rev [] prev cur) as [s1 o] eqn:Eb.
    destruct o as [[b rem]| | |]; try discriminate; [|now cbn in X].
    destruct b as [|tl b]; [discriminate|]. cbn [snd].
    assert (Lr : length rem <= N).
    { destruct (block_run_trace call bound Ht r t esc ch rev s Wt Ie (t_lines t) [] eq_refl _ _ _ _ _ _ Eb Sc1) as (_ & P);
        eauto using inside_enter.
      specialize (P _ _ eq_refl ltac:(discriminate) [] rem (p_skip_end _ _)).
      apply token_eats, eats_length in P. cbn [tr_remaining] in P. lia. }
    assert (Y := channels_try_fuel ch prev rem Ich Lp Lr).
    destruct (channels_try call bound ch prev rem); cbn [bind]; congruence.
  Qed.
End Term.

(** A bound that is enough for a grammar of size at most [n] on inputs of length at most [N]. *)
Fixpoint enough (n N : nat) : nat :=
  match n with
  | O => 0
  | S n' => enough n' N + N + 2 + N * S (2 * n') + 2 * n'
  end.

Lemma in_chan_size chs c : In c chs -> chan_size c <= list_sum (map chan_size chs).
Proof. intros I. apply list_sum_in. now apply in_map. Qed.

Lemma guarded_uses g g' : guarded g -> uses g g' -> guarded g'.
Proof. intros G U root chs t l U'. apply (G root chs). eapply uses_trans; eauto. Qed.

Lemma enough_fuel N : forall n root chs, gram_size (Grammar root chs) <= n -> guarded (Grammar root chs) ->
  forall f, enough n N <= f -> forall rev prev cur, length prev <= N -> length cur <= N ->
  snd (token_run f root [] None chs rev prev cur) <> Fuel.
Proof.
  induction n as [|n IH]; intros root chs Sz G; [cbn in Sz; lia|].
  cbn [gram_size] in Sz. cbn [enough]. set (F0 := enough n N) in *.
  assert (A : forall m f, F0 + N + 1 + m < f -> forall t s esc ch rev prev cur, within root t -> esc_in root esc -> scoped root s ->
    incl ch chs -> length prev <= N -> length cur <= N -> mu root t esc cur <= m -> snd (token_run f t s esc ch rev prev cur) <> Fuel).
  { induction m as [m IHm] using lt_wf_ind. intros f Lf. destruct f as [|f]; [lia|]. cbn [token_run].
    intros t s esc ch rev prev cur W Ie Sc Ich Lp Lc Lm.
    eapply (token_step_fuel (token_run f) f N root chs m); eauto; try lia.
    - apply token_run_trace.
    - intros t' l' W' I'. eapply G; eauto using uses_refl.
    - intros c cond I prev' cur' Lp' Lc'. eapply (IH c []); eauto; try lia.
      + apply in_chan_size in I. cbn in I |- *. lia.
      + eapply guarded_uses; eauto. eapply uses_channel; eauto using uses_refl.
    - intros c b a I prev' cur' Lp' Lc'. eapply (IH b []); eauto; try lia.
      + apply in_chan_size in I. cbn in I |- *. lia.
      + eapply guarded_uses; eauto. eapply uses_before; eauto using uses_refl.
    - intros c b a I prev' cur' Lp' Lc'. eapply (IH a []); eauto; try lia.
      + apply in_chan_size in I. cbn in I |- *. lia.
      + eapply guarded_uses; eauto. eapply uses_after; eauto using uses_refl.
    - intros t' l' n' root' chs' mi ma W' Il' Ic' rev' prev' cur' Lp' Lc'. eapply (IH root' chs'); eauto; try lia.
      + pose proof (tok_size_container _ _ _ Il' Ic') as Sz'. apply within_size in W'. cbn [cont_size econ_size] in Sz'. lia.
      + eapply guarded_uses; eauto. eapply uses_external; eauto using uses_refl.
    - intros t' s' esc' ch' rev' prev' cur' W' Ie' Sc' Ich' Lp' Lc' Lm'. destruct m as [|m']; [lia|].
      apply (IHm m'); auto; lia. }
  intros f Lf rev prev cur Lp Lc.
  eapply (A (N * S (2 * n) + 2 * n)); eauto using within_refl, scoped_nil, incl_refl; [lia|discriminate|].
  unfold mu, kk. cbn [esc_size]. pose proof (Nat.mul_le_mono (length cur) N (S (2 * tok_size root)) (S (2 * n)) Lc ltac:(lia)). lia.
Qed.

Lemma guarded_terminates g data : guarded g -> forall f, enough (gram_size g) (length data) <= f -> execute f g data <> Fuel.
Proof. destruct g as [root chs]. intros G f Lf. unfold execute. eapply enough_fuel; eauto. cbn. lia. Qed.

Lemma no_recursion_guarded g : no_recursion g -> guarded g.
Proof.
  intros H root chs t l U W I l1 l2 n mi ma ->. exfalso. apply (H _ _ U t _ (CElement (ERecursive n) mi ma) W I). apply in_elt.
Qed.
