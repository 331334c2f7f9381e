(** The parser agrees with parsing expressions with recursion. *)
From Coq Require Import List ZArith Lia Bool.
From Coq Require Import Init.Byte Strings.Byte.
From Verif Require Import Base BaseLemmas AstModel SpecAst AstProofs AstTraceProofs AstFuelProofs AstListProofs SpecPeg AstPegProofs SpecRec.
Import ListNotations.

(** ** Parsing expressions *)
Definition rskipper (how : repeating) (chs : list channel) : bytes -> bytes :=
  peg_skip (map (fun c => let 'Channel t _ := c in rec_token how (peg_skip []) t) chs).
Definition pieces (how : repeating) (sk : bytes -> bytes) (l : list container) : list (bytes * piece) :=
  map (fun c => (c_name c, rec_piece how sk c)) l.
Definition knot (how : repeating) (sk : bytes -> bytes) (t : token) : nat -> peg ast :=
  rec_knot how sk (t_name t) (map (pieces how sk) (t_lines t)).
Definition below (how : repeating) (sk : bytes -> bytes) (t : token) (k : nat) : peg ast :=
  match k with O => fun _ => None | S k' => knot how sk t k' end.
Definition line_rec (how : repeating) (self : peg ast) (tried : bool) (sk : bytes -> bytes) (l : list container) : peg (list (bytes * list ast)) :=
  rec_seq how self tried (pieces how sk l).

Lemma knot_token how sk t d : rec_token how sk t d = knot how sk t (length d) d.
Proof. now destruct t. Qed.
Lemma knot_eq how sk t k d : knot how sk t k d =
  match peg_first 0 (map (line_rec how (below how sk t k) false sk) (t_lines t)) d with
  | Some (i, es, d') => Some (Node (t_name t) i es, sk d')
  | None => None
  end.
Proof. unfold knot, below, line_rec. destruct k; cbn [rec_knot]; now rewrite map_map. Qed.
Lemma rskipper_nil how : rskipper how [] = peg_skip [].
Proof. reflexivity. Qed.
Lemma rec_of_eq how root chs : rec_of how (Grammar root chs) = rec_token how (rskipper how chs) root.
Proof. reflexivity. Qed.

Lemma knot_shrinks how sk t k d a d' : lessens sk -> knot how sk t k d = Some (a, d') -> length d' < length d.
Proof.
  intros Ls. rewrite knot_eq. destruct (peg_first 0 _ d) as [[[i es] x]|] eqn:E; [|discriminate].
  intros [= _ <-]. apply peg_first_shrinks in E. specialize (Ls x). lia.
Qed.
Lemma rec_token_shrinks how sk t d a d' : lessens sk -> rec_token how sk t d = Some (a, d') -> length d' < length d.
Proof. rewrite knot_token. apply knot_shrinks. Qed.
Lemma rskipper_lessens how chs : lessens (rskipper how chs).
Proof.
  intros d. unfold rskipper, peg_skip. apply iter_lessens. apply peg_round_lessens. apply Forall_forall. intros p I.
  apply in_map_iff in I as ([t cond] & <- & _). intros x a x'. apply rec_token_shrinks. apply lessens_id.
Qed.
Lemma rec_of_shrinks how g d a d' : rec_of how g d = Some (a, d') -> length d' < length d.
Proof. destruct g as [root chs]. rewrite rec_of_eq. apply rec_token_shrinks, rskipper_lessens. Qed.

Lemma rec_content_shrinks how sk e d a d' : lessens sk -> rec_content how sk e d = Some (a, d') -> length d' < length d.
Proof.
  intros Ls. destruct e as [n b|n g|t|n u esc|n]; cbn [rec_content]; try discriminate.
  - unfold peg_byte. specialize (Ls d). destruct (sk d) as [|x r]; [discriminate|]. destruct (Byte.eqb b x); [|discriminate].
    intros [= _ <-]. cbn [length] in Ls. lia.
  - destruct (rec_of how g d) as [[y x]|] eqn:E; [|discriminate]. intros [= _ <-]. apply rec_of_shrinks in E. cbn [length]. lia.
  - now apply rec_token_shrinks.
  - destruct u as [m [|l ls] ss]; [discriminate|]. destruct esc; [discriminate|]. unfold peg_until.
    fold (pieces how (peg_skip []) l). fold (line_rec how (fun _ => None) false (peg_skip []) l).
    pose proof (before_length (line_rec how (fun _ => None) false (peg_skip []) l) d) as B.
    destruct (before (line_rec how (fun _ => None) false (peg_skip []) l) d) as [[|x w] r]; [discriminate|].
    intros [= _ <-]. cbn [fst snd length] in B. lia.
Qed.
Lemma rec_content_nil how sk e : lessens sk -> rec_content how sk e [] = None.
Proof. intros Ls. destruct (rec_content how sk e []) as [[a d]|] eqn:E; auto. apply rec_content_shrinks in E; auto. cbn in E. lia. Qed.

(** ** The parser *)
(** The map when a token is called: its children are not in it, and if the token is, its lines were
    tried on longer inputs only. *)
Definition ready (t : token) (s : smap) (cur : bytes) : Prop :=
  inner t s /\ forall t' ls, s_get s (t_name t) = Some (t', ls) -> t' = t /\ forall j d, line_get ls j = Some d -> length cur < length d.
(** The map in a line tried on [d0]. *)
Definition good (t : token) (d0 : bytes) (s : smap) : Prop :=
  inner t s /\ forall t' ls, s_get s (t_name t) = Some (t', ls) -> t' = t /\ forall j d, line_get ls j = Some d -> length d0 <= length d.
(** The entry of the token may be gone. *)
Definition after (t : token) (s s' : smap) : Prop :=
  forall n, s_get s' n = s_get s n \/ (n = t_name t /\ s_get s' n = None).
Definition gone_from (t : token) (s s' : smap) : Prop :=
  forall n, s_get s' n = if bytes_eqb (t_name t) n then None else s_get s n.
Definition here (t : token) (s : smap) : bool := match s_get s (t_name t) with Some _ => true | None => false end.

Lemma ready_nil t d : ready t [] d.
Proof. split; [intros u C v W; reflexivity|intros t' ls [=]]. Qed.
Lemma ready_fresh t s d : (forall u v, child t u -> within u v -> within t v) -> fresh t s -> ready t s d.
Proof.
  intros T F. split; [intros u C v W; apply F; eauto|]. intros t' ls E. rewrite F in E by constructor. discriminate.
Qed.
Lemma within_child t u v : child t u -> within u v -> within t v.
Proof. intros C W. induction W as [|a b Wa IHa Cb]; [eapply within_step; eauto using within_refl|eapply within_step; eauto]. Qed.
Lemma gone_same t s s' : s_get s (t_name t) = None -> gone_from t s s' -> same s s'.
Proof. intros F G n. rewrite G. destruct (bytes_eqb (t_name t) n) eqn:E; auto. apply bytes_eqb_true in E as <-. auto. Qed.
Lemma after_refl t s : after t s s.
Proof. intros n. auto. Qed.
Lemma after_same t s s' : same s s' -> after t s s'.
Proof. intros S n. auto. Qed.
Lemma after_trans t a b c : after t a b -> after t b c -> after t a c.
Proof. intros A B n. destruct (B n) as [->|(-> & ->)]; auto. Qed.
Lemma after_gone t s s' : gone_from t s s' -> after t s s'.
Proof. intros G n. rewrite G. destruct (bytes_eqb (t_name t) n) eqn:E; auto. apply bytes_eqb_true in E as <-. auto. Qed.
Lemma inner_after t s s' : inner t s -> after t s s' -> inner t s'.
Proof. intros A B u C v W. destruct (B (t_name v)) as [->|(_ & ->)]; auto. eapply A; eauto. Qed.
Lemma good_after t d0 s s' : good t d0 s -> after t s s' -> good t d0 s'.
Proof.
  intros (A & B) C. split; [eapply inner_after; eauto|]. intros t' ls E. destruct (C (t_name t)) as [X|(_ & X)]; rewrite X in E; [auto|discriminate].
Qed.
Lemma same_here t s s' : same s s' -> here t s' = here t s.
Proof. intros S. unfold here. now rewrite S. Qed.
Lemma gone_here t s s' : gone_from t s s' -> here t s' = false.
Proof. intros G. unfold here. now rewrite G, bytes_eqb_refl. Qed.

Definition suits (how : repeating) (g : grammar) : Prop :=
  rec_grammar g /\ (how = at_most_once \/ (how = plainly /\ linear g)).
Lemma suits_uses how g g' : suits how g -> uses g g' -> suits how g'.
Proof.
  intros (Q & W) U. split; [intros root chs U'; apply (Q root chs); eapply uses_trans; eauto|].
  destruct W as [->|(-> & L)]; [now left|right]. split; auto. intros root chs t l U'. apply (L root chs). eapply uses_trans; eauto.
Qed.

Definition rec_call (how : repeating) (call : call_t) : Prop := forall r chs, suits how (Grammar r chs) ->
  (forall t s prev cur s' o k, within r t -> ready t s cur -> call t s None chs false prev cur = (s', o) -> o <> Fuel ->
     length cur <= k -> gone_from t s s' /\ agrees (knot how (rskipper how chs) t k cur) o) /\
  (forall sk t s prev cur s' o n, within r t -> fresh t s -> peg_ok (EEverything n t None) ->
     call t s None [] true prev cur = (s', o) -> o <> Fuel ->
     same s s' /\ agrees (rec_content how sk (EEverything n t None) cur) o).

Section Step.
  Variable how : repeating.
  Variable call : call_t.
  Variable bound : nat.
  Hypothesis Hc : rec_call how call.
  Hypothesis Ht : traced call.

  Section Root.
    Variable r : token.
    Variable chs : list channel.
    Hypothesis Hp : suits how (Grammar r chs).

    Let Hn : forall t u v, within r t -> child t u -> within u v -> t_name v <> t_name t.
    Proof. destruct (proj1 Hp r chs (uses_refl _)) as ((? & ? & ? & ? & ?) & ?). assumption. Qed.
    Let Hd : forall t l, within r t -> In l (t_lines t) -> compatible l.
    Proof. destruct (proj1 Hp r chs (uses_refl _)) as ((? & ? & ? & ? & ?) & ?). assumption. Qed.
    Let Hcard : every_container card_ok r.
    Proof. destruct (proj1 Hp r chs (uses_refl _)) as ((? & ? & ? & ? & ?) & ?). assumption. Qed.
    Let Hok : forall t l e min max, within r t -> In l (t_lines t) -> In (CElement e min max) l -> rec_ok t e.
    Proof. destruct (proj1 Hp r chs (uses_refl _)) as ((? & ? & ? & ? & ?) & ?). assumption. Qed.
    Let Hg : forall t l, within r t -> In l (t_lines t) -> guarded_line l.
    Proof. destruct (proj1 Hp r chs (uses_refl _)) as ((? & ? & ? & ? & ?) & ?). assumption. Qed.

    (** Channels. *)
    Definition channel_rec (c : channel) : peg ast := let 'Channel t _ := c in rec_token how (peg_skip []) t.

    Lemma channel_run_rec c prev cur o : In c chs -> channel_run call c prev cur = o -> o <> Fuel ->
      match o with
      | Ok x => length (tree_bytes true x) <= length cur /\
          match channel_rec c cur with
          | Some (_, d) => 0 < length (tree_bytes true x) /\ skipn (length (tree_bytes true x)) cur = d
          | None => tree_bytes true x = []
          end
      | Err => channel_rec c cur = None
      | _ => False
      end.
    Proof.
      destruct c as [t cond]. intros I E Nf. unfold channel_run in E. cbn [channel_rec].
      destruct (proj1 Hp r chs (uses_refl _)) as (_ & Pc). destruct (Pc _ _ I) as (-> & Pl). clear Pc.
      assert (Pt : suits how (Grammar t [])) by (eapply suits_uses; [exact Hp|eapply uses_channel; eauto using uses_refl]).
      destruct (call t [] None [] false prev cur) as [s' o'] eqn:Ec. cbn [snd] in E.
      assert (No : o' <> Fuel) by (intros ->; cbn in E; congruence).
      destruct (proj1 (Hc t [] Pt) t [] prev cur s' o' _ (within_refl t) (ready_nil t cur) Ec No (le_n _)) as (_ & A).
      rewrite <- knot_token, rskipper_nil in A. destruct o' as [x| | |]; cbn [agrees] in A; try contradiction; cbn [bind] in E; subst o; auto.
      assert (Tr : p_token t None [] false t cur x).
      { eapply (Ht t t [] None [] false prev cur); eauto using scoped_nil, within_refl. intros e [=]. }
      destruct (has_successful x) eqn:Hs; rewrite A.
      - assert (F : cur = tree_bytes true x ++ tr_remaining x) by (eapply fidelity; eauto using within_refl; intros ? ? []).
        assert (L : length (tr_remaining x) < length cur) by (eapply rec_token_shrinks; eauto using lessens_id).
        assert (L2 : length cur = length (tree_bytes true x) + length (tr_remaining x)) by (rewrite F at 1; apply app_length).
        split; [lia|]. split; [lia|]. rewrite F at 1. now rewrite skipn_app, skipn_all, Nat.sub_diag.
      - assert (F : tree_bytes true x = []).
        { destruct (tree_bytes true x) eqn:E; auto. assert (X : has_successful x = true); [|congruence].
          apply tree_bytes_successful with (inc := true). rewrite E. discriminate. }
        rewrite F. cbn [length]. split; [lia|auto].
    Qed.

    Lemma channels_round_rec : forall l, incl l chs -> forall ts prev rem, channels_round call l (ts, prev, rem) <> Fuel ->
      exists ts1 prev', channels_round call l (ts, prev, rem) = Ok (ts ++ ts1, prev', peg_round (map channel_rec l) rem) /\
        (ts1 = [] -> peg_round (map channel_rec l) rem = rem) /\
        length (peg_round (map channel_rec l) rem) + length ts1 <= length rem.
    Proof.
      induction l as [|c l IH]; intros Inc ts prev rem Nf; cbn [channels_round map] in *.
      - exists [], prev. rewrite app_nil_r. unfold peg_round. cbn. split; auto. split; auto. lia.
      - assert (Ic := Inc _ (or_introl eq_refl)). assert (Inc' : incl l chs) by (intros x Hx; apply Inc; now right).
        assert (No : channel_run call c prev rem <> Fuel) by (intros E; rewrite E in Nf; congruence).
        pose proof (channel_run_rec c prev rem _ Ic eq_refl No) as Q.
        assert (R : peg_round (channel_rec c :: map channel_rec l) rem =
          peg_round (map channel_rec l) (match channel_rec c rem with Some (_, d) => d | None => rem end)) by reflexivity.
        rewrite R. destruct (channel_run call c prev rem) as [x| | |]; try contradiction.
        + destruct Q as (L & Q). revert Nf. destruct (Nat.ltb_spec (length rem) (length (tree_bytes true x))); [lia|].
          destruct (channel_rec c rem) as [[a d]|].
          * destruct Q as (L0 & <-). destruct (Nat.eqb_spec (length (tree_bytes true x)) 0); [lia|]. intros Nf.
            destruct (IH Inc' _ _ _ Nf) as (ts1 & prev' & E & A & B). exists (x :: ts1), prev'.
            rewrite <- app_assoc in E. split; [exact E|]. split; [discriminate|]. rewrite skipn_length in B. cbn [length]. lia.
          * rewrite Q in *. cbn [length Nat.eqb] in *. intros Nf. apply IH; auto.
        + rewrite Q. apply IH; auto.
    Qed.

    Lemma channels_loop_rec l : incl l chs -> forall f ts prev rem, channels_loop call f l (ts, prev, rem) <> Fuel ->
      exists ts1 prev' rem', channels_loop call f l (ts, prev, rem) = Ok (ts ++ ts1, prev', rem') /\
        (ts1 = [] -> rem' = rem) /\ forall n, length rem <= n -> Nat.iter n (peg_round (map channel_rec l)) rem = rem'.
    Proof.
      intros Inc. induction f as [|f IH]; intros ts prev rem Nf; cbn [channels_loop] in *; [congruence|].
      assert (N1 : channels_round call l (ts, prev, rem) <> Fuel) by (intros E; rewrite E in Nf; apply Nf; reflexivity).
      destruct (channels_round_rec l Inc _ _ _ N1) as (ts1 & prev1 & E & A & B). rewrite E in *. cbn [bind fst snd] in *.
      rewrite app_length in *. destruct ts1 as [|x ts1]; cbn [length] in *.
      - rewrite Nat.add_0_r in *. rewrite Nat.eqb_refl in *. exists [], prev1, (peg_round (map channel_rec l) rem).
        split; auto. split; auto. intros n _. rewrite A by auto. apply iter_fixed. auto.
      - destruct (Nat.eqb_spec (length ts) (length ts + S (length ts1))); [lia|].
        destruct (IH _ _ _ Nf) as (ts2 & prev2 & rem2 & E2 & A2 & B2). exists ((x :: ts1) ++ ts2), prev2, rem2.
        rewrite <- app_assoc in E2. split; [exact E2|]. split; [discriminate|]. intros k L.
        destruct k as [|k]; [lia|]. rewrite iter_succ. apply B2. lia.
    Qed.

    Lemma channels_try_rec l prev cur : incl l chs -> channels_try call bound l prev cur <> Fuel ->
      exists ts, channels_try call bound l prev cur = Ok (ts, rskipper how l cur).
    Proof.
      intros Inc Nf. unfold channels_try in *. destruct l as [|c l]; [exists []; now rewrite rskipper_nil, peg_skip_nil|].
      set (l0 := c :: l) in *. clearbody l0. clear c l. unfold channels_run in *.
      assert (N1 : channels_loop call bound l0 ([], prev, cur) <> Fuel) by (intros E; rewrite E in Nf; apply Nf; reflexivity).
      destruct (channels_loop_rec l0 Inc _ _ _ _ N1) as (ts1 & prev' & rem' & E & A & B). rewrite E. cbn [bind fst snd app].
      assert (S1 : rskipper how l0 cur = rem') by (apply B; lia). rewrite S1.
      destruct ts1 as [|x ts1]; [exists []; now rewrite A|eexists; reflexivity].
    Qed.

    Section Line.
      Variable t : token.
      Variable l0 : list container.
      Hypothesis Wt : within r t.
      Hypothesis Il : In l0 (t_lines t).

      Variable ch : list channel.
      Hypothesis Hch : incl ch chs.
      Let sk := rskipper how ch.
      Let Ls : lessens sk := rskipper_lessens how ch.

      (** What the line was tried on, and what the token itself is inside it. *)
      Variable d0 : bytes.
      Variable self : peg ast.
      Definition self_ok : Prop :=
        (forall d a d', self d = Some (a, d') -> length d' < length d) /\
        forall s prev cur s' o, length cur < length d0 -> good t d0 s -> call t s None chs false prev cur = (s', o) -> o <> Fuel ->
          gone_from t s s' /\ agrees (self cur) o.

      Definition usable (rev : bool) (c : container) : Prop := (rev = false /\ ch = chs /\ self_ok) \/ value_container c.
      Definition tracks (tried : bool) (s : smap) (l : list container) : Prop :=
        (how = at_most_once /\ tried = negb (here t s)) \/
        (how = plainly /\ linear_line l0 /\ forall n mi ma, In (CElement (ERecursive n) mi ma) l -> here t s = true).

      Lemma element_value_rec b prev cur : element_value call bound b ch prev cur <> Fuel ->
        match element_value call bound b ch prev cur with
        | Ok (Some (x, rem)) => peg_byte b (sk cur) = Some (content_ast x, rem)
        | Ok None => peg_byte b (sk cur) = None
        | Err => peg_byte b (sk cur) = None
        | _ => False
        end.
      Proof.
        intros Nf. unfold element_value in *.
        assert (N1 : channels_try call bound ch prev cur <> Fuel) by (intros E; rewrite E in Nf; apply Nf; reflexivity).
        destruct (channels_try_rec ch prev cur Hch N1) as (ts & E). fold sk in E. rewrite E in *. cbn [bind fst snd] in *.
        unfold peg_byte. destruct (sk cur) as [|x rem]; auto. destruct (Byte.eqb b x) eqn:Eb; auto.
        apply byte_eqb_true in Eb. now subst x.
      Qed.

      Lemma element_run_rec c mi ma s rev prev cur s' o : In (CElement c mi ma) l0 -> (forall n, c <> ERecursive n) -> inner t s -> usable rev (CElement c mi ma) ->
        element_run call bound c s None ch rev prev cur = (s', o) -> o <> Fuel ->
        same s s' /\ match o with Ok (x, rem) => rec_content how sk c cur = Some (content_ast x, rem) | Err => rec_content how sk c cur = None | _ => False end.
      Proof.
        intros Ic Nr In0 Us E Nf. unfold element_run in E. destruct cur as [|b0 cur0].
        { injection E as <- <-. split; [apply same_refl|]. apply rec_content_nil, Ls. }
        set (cur := b0 :: cur0) in *. pose proof (Hok _ _ _ _ _ Wt Il Ic) as Ok'. cbn beta iota in Ok'.
        destruct c as [n b|n g|u|n u esc|n].
        - injection E as <- <-. split; [apply same_refl|].
          assert (N1 : element_value call bound b ch prev cur <> Fuel) by (intros E; rewrite E in Nf; apply Nf; reflexivity).
          pose proof (element_value_rec b prev cur N1) as V. cbn [rec_content].
          destruct (element_value call bound b ch prev cur) as [[[y rem]|]| | |]; cbn [bind]; auto.
        - destruct Us as [(-> & Ech & _)|[]]. injection E as <- <-. split; [apply same_refl|]. destruct g as [root chs'].
          unfold external_run in *. cbn [rec_content]. rewrite rec_of_eq.
          assert (Pg : suits how (Grammar root chs')) by (eapply suits_uses; [exact Hp|eapply uses_external; eauto using uses_refl]).
          destruct (call root [] None chs' false prev cur) as [s2 o2] eqn:Ec. cbn [snd] in *.
          assert (N2 : o2 <> Fuel) by (intros ->; apply Nf; reflexivity).
          destruct (proj1 (Hc root chs' Pg) root [] prev cur s2 o2 _ (within_refl root) (ready_nil _ _) Ec N2 (le_n _)) as (_ & Ag).
          rewrite <- knot_token in Ag.
          destruct o2 as [x| | |]; cbn [bind] in *; try contradiction.
          + unfold found. cbn in Ag. change (has_successful (Tree _ (tr_block x) [] [])) with (has_successful x).
            destruct (has_successful x) eqn:Hs; rewrite Ag; [|reflexivity]. cbn [content_ast]. destruct x as [xg xb xs xr].
            rewrite !tree_ast_eq. cbn [tr_block t_name]. destruct (successful xb); reflexivity.
          + cbn in Ag. now rewrite Ag.
        - destruct Us as [(-> & Ech & _)|[]]. assert (C : child t u) by (eapply child_token; eauto).
          assert (Wu : within r u) by (apply (within_step r t u Wt C)). unfold sk. rewrite Ech in *. clear Ech.
          destruct (call u s None chs false prev cur) as [s2 o2] eqn:Ec.
          assert (N2 : o2 <> Fuel) by (intros ->; cbn in E; injection E as <- <-; congruence).
          destruct (proj1 (Hc r chs Hp) u s prev cur s2 o2 _ Wu (ready_fresh _ _ _ (within_child u) (In0 u C)) Ec N2 (le_n _)) as (Sm & Ag).
          apply gone_same in Sm; [|apply (In0 u C); constructor]. rewrite <- knot_token in Ag. cbn [rec_content].
          destruct o2 as [x| | |]; cbn [sbind] in E; injection E as <- <-; split; auto; try exact Ag.
          + exact (found_agrees x _ _ Ag eq_refl).
        - destruct esc as [esc|]; [contradiction|]. destruct Us as [(-> & Ech & _)|[]].
          assert (C : child t u) by (eapply child_exception; eauto).
          assert (Wu : within r u) by (apply (within_step r t u Wt C)). cbn [negb] in E.
          destruct (call u s None [] true prev cur) as [s2 o2] eqn:Ec.
          assert (N2 : o2 <> Fuel) by (intros ->; cbn in E; injection E as <- <-; congruence).
          destruct (proj2 (Hc r chs Hp) sk u s prev cur s2 o2 n Wu (In0 u C) Ok' Ec N2) as (Sm & Ag).
          destruct o2 as [x| | |]; cbn [sbind] in E; injection E as <- <-; split; auto; try exact Ag.
          + exact (found_agrees x _ _ Ag eq_refl).
        - now specialize (Nr n).
      Qed.

      Lemma repeat_run_rec c mi ma rev : In (CElement c mi ma) l0 -> (forall n, c <> ERecursive n) -> usable rev (CElement c mi ma) ->
        forall f s cs prev cur s' o, inner t s -> repeat_run call bound f c ma s None ch rev cs prev cur = (s', o) -> o <> Fuel ->
        same s s' /\ match o with
        | Ok (cs', _, cur') => exists cs1, cs' = cs ++ cs1 /\ (cs1 = [] -> cur' = cur) /\ length cur' + length cs1 <= length cur /\
            (forall m, ma = Some m -> cs1 = [] \/ (zlen cs' <= m)%Z) /\
            forall n, length cur <= n -> peg_greedy (rec_content how sk c) ma n (zlen cs) cur = (map content_ast cs1, cur')
        | _ => False
        end.
      Proof.
        intros Ic Nr Us.
        assert (Nil : forall cs n, peg_greedy (rec_content how sk c) ma n (zlen (cs : list tcontent)) [] = ([], [])).
        { intros cs n. destruct n; cbn [peg_greedy]; auto. rewrite rec_content_nil by exact Ls. destruct (match ma with Some m => _ | None => _ end); auto. }
        induction f as [|f IH]; intros s cs prev cur s' o In0 E Nf; cbn [repeat_run] in E.
        - destruct cur as [|b cur0].
          + injection E as <- <-. split; [apply same_refl|]. exists []. rewrite app_nil_r. repeat split; auto; try (cbn [length]; lia).
          + destruct (match ma with Some m => _ | None => _ end) eqn:Em; injection E as <- <-; [|congruence].
            split; [apply same_refl|]. exists []. rewrite app_nil_r. repeat split; auto; try (cbn [length]; lia).
            intros n L. destruct n as [|n]; cbn [peg_greedy]; auto. now rewrite Em.
        - destruct cur as [|b cur0].
          + injection E as <- <-. split; [apply same_refl|]. exists []. rewrite app_nil_r. repeat split; auto; try (cbn [length]; lia).
          + set (cur := b :: cur0) in *. destruct (match ma with Some m => _ | None => _ end) eqn:Em.
            { injection E as <- <-. split; [apply same_refl|]. exists []. rewrite app_nil_r. repeat split; auto; try (cbn [length]; lia).
              intros n L. destruct n as [|n]; cbn [peg_greedy]; auto. now rewrite Em. }
            destruct (element_run call bound c s None ch rev prev cur) as [s1 o1] eqn:Ee.
            assert (N1 : o1 <> Fuel) by (intros ->; cbn in E; injection E as <- <-; congruence).
            destruct (element_run_rec c mi ma s rev prev cur s1 o1 Ic Nr In0 Us Ee N1) as (Sm & Ag).
            destruct o1 as [[x rem]| | |]; cbn [stry] in E; try contradiction.
            * pose proof (rec_content_shrinks _ _ _ _ _ _ Ls Ag) as Sh.
              destruct (IH _ _ _ _ _ _ (inner_same _ _ _ In0 Sm) E Nf) as (Sm2 & P). split; [eapply same_trans; eauto|].
              destruct o as [[[cs' prev'] cur']| | |]; try contradiction.
              destruct P as (cs1 & -> & P1 & P2 & P3 & P4). exists (x :: cs1). rewrite <- app_assoc. repeat split; auto.
              -- discriminate.
              -- cbn [length] in *. lia.
              -- intros m ->. right. destruct (P3 m eq_refl) as [->|L]; [|now rewrite <- app_assoc in L].
                 apply Z.leb_gt in Em. rewrite app_nil_r, zlen_app. unfold zlen at 2. cbn [length]. lia.
              -- intros n L. destruct n as [|n]; [cbn [length] in L; unfold cur in L; cbn [length] in L; lia|]. cbn [peg_greedy].
                 rewrite Em, Ag. replace (zlen cs + 1)%Z with (zlen (cs ++ [x])) by (rewrite zlen_app; reflexivity).
                 rewrite P4 by lia. reflexivity.
            * injection E as <- <-. split; auto. exists []. rewrite app_nil_r. repeat split; auto; try (cbn [length]; lia).
              intros n L. destruct n as [|n]; cbn [peg_greedy]; auto. now rewrite Em, Ag.
      Qed.

      (** A token gone from the map is not found. *)
      Lemma repeat_gone f ma s rev cs prev cur s' o : here t s = false ->
        repeat_run call bound f (ERecursive (t_name t)) ma s None ch rev cs prev cur = (s', o) -> o <> Fuel ->
        s' = s /\ o = Ok (cs, prev, cur).
      Proof.
        unfold here. intros G E Nf. destruct f as [|f]; cbn [repeat_run] in E; destruct cur as [|b cur]; try (injection E as <- <-; auto).
        - destruct (match ma with Some m => _ | None => _ end); injection E as <- <-; [auto|congruence].
        - destruct (match ma with Some m => _ | None => _ end); [injection E as <- <-; auto|].
          cbn [element_run] in E. destruct (s_get s (t_name t)) as [[? ?]|]; [discriminate|]. cbn [stry] in E. injection E as <- <-. auto.
      Qed.

      Lemma repeat_self n mi ma rev f s prev cur s' o tried l' :
        In (CElement (ERecursive n) mi ma) l0 -> usable rev (CElement (ERecursive n) mi ma) -> good t d0 s -> length cur < length d0 ->
        tracks tried s (CElement (ERecursive n) mi ma :: l') ->
        (linear_line l0 -> forall n' mi' ma', ~ In (CElement (ERecursive n') mi' ma') l') ->
        repeat_run call bound f (ERecursive n) ma s None ch rev [] prev cur = (s', o) -> o <> Fuel ->
        after t s s' /\ match o with
        | Ok (cs, _, cur') => exists tried', how self tried ma cur = (map content_ast cs, cur', tried') /\ tracks tried' s' l' /\
            (cs = [] -> cur' = cur) /\ length cur' + length cs <= length cur /\ (forall m, ma = Some m -> cs = [] \/ (zlen cs <= m)%Z)
        | _ => False
        end.
      Proof.
        intros Ic Us Gd Lc Tk Nl E Nf. pose proof (Hok _ _ _ _ _ Wt Il Ic) as En. cbn [rec_ok] in En. subst n.
        destruct Us as [(-> & Ech & (Sh & So))|[]].
        assert (Tk' : forall s1 b, (how = at_most_once -> b = negb (here t s1)) -> tracks b s1 l').
        { intros s1 b X. destruct Tk as [(Eh & _)|(Eh & Ln & _)]; [left; auto|right]. split; [exact Eh|]. split; [exact Ln|].
          intros n' mi' ma' I. destruct (Nl Ln _ _ _ I). }
        assert (Ne : how = at_most_once -> how = plainly -> False).
        { intros -> X. assert (Y : at_most_once (fun _ => None) false None [x00] = plainly (fun _ => None) false None [x00]) by now rewrite X. discriminate Y. }
        (* nothing is tried *)
        assert (None' : forall p, cur = [] \/ (match ma with Some m => (m <=? 0)%Z | None => false end) = true \/ here t s = false ->
          exists tried', how self tried ma cur = (map content_ast [], cur, tried') /\ tracks tried' s l' /\
            (@nil tcontent = [] -> cur = cur) /\ length cur + length (@nil tcontent) <= length cur /\
            (forall m, ma = Some m -> @nil tcontent = [] \/ (p <= m)%Z)).
        { intros p C. exists tried. split; [|split; [apply Tk'; intros Eh; destruct Tk as [(_ & ->)|(Eh' & _)]; [reflexivity|]|]].
          - destruct Tk as [(-> & ->)|(-> & Ln & Hh)].
            + unfold at_most_once. cbn [map]. destruct C as [->|[Em|Hf]].
              * destruct (negb (here t s) || _); reflexivity.
              * rewrite Em, orb_true_r. reflexivity.
              * rewrite Hf. reflexivity.
            + specialize (Hh _ _ _ (or_introl eq_refl)). unfold plainly. cbn [map]. destruct C as [->|[Em|Hf]]; [|rewrite (proj1 Ln _ _ _ Ic) in Em; discriminate|congruence].
              reflexivity.
          - destruct (Ne Eh Eh').
          - split; [reflexivity|]. split; [cbn [length]; lia|auto]. }
        destruct (here t s) eqn:Hh.
        2:{ destruct (repeat_gone _ _ _ _ _ _ _ _ _ Hh E Nf) as (-> & ->). split; [apply after_refl|]. apply (None' 0%Z). auto. }
        destruct f as [|f]; cbn [repeat_run] in E; (destruct cur as [|b cur0]; [injection E as <- <-; split; [apply after_refl|]; apply (None' 0%Z); auto|]);
          set (cur := b :: cur0) in *; change (zlen (@nil tcontent)) with 0%Z in E;
          (destruct (match ma with Some m => (m <=? 0)%Z | None => false end) eqn:Em; [injection E as <- <-; split; [apply after_refl|]; apply (None' 0%Z); auto|]);
          [injection E as <- <-; congruence|].
        destruct Gd as (In0 & Gt). pose proof Hh as Hh'. unfold here in Hh'.
        destruct (s_get s (t_name t)) as [[t' ls]|] eqn:Es; [|discriminate]. destruct (Gt _ _ eq_refl) as (-> & Gl).
        assert (Ee : element_run call bound (ERecursive (t_name t)) s None ch false prev cur =
          sbind (call t s None chs false prev cur) (fun s' tr => (s', found tr (tr_remaining tr)))) by (unfold element_run, cur; rewrite Es, Ech; reflexivity).
        rewrite Ee in E. clear Ee.
        destruct (call t s None chs false prev cur) as [s1 o1] eqn:Ec.
        assert (N1 : o1 <> Fuel) by (intros ->; cbn in E; injection E as <- <-; congruence).
        destruct (So s prev cur s1 o1 Lc) as (Gn & Ag); auto.
        { split; auto. intros t' ls' X. rewrite Es in X. injection X as <- <-. auto. }
        assert (Hg1 : here t s1 = false) by (eapply gone_here; eauto).
        (* the result of the one try *)
        assert (K : forall y, self cur = y -> exists z, tracks z s1 l' /\
          how self tried ma cur = match y with Some (x, d') => ([x], d', z) | None => ([], cur, z) end).
        { intros y Ey. destruct Tk as [(Eh & Et)|(Eh & Ln & _)].
          - exists true. split; [apply Tk'; now rewrite Hg1|]. rewrite Hh in Et. cbn [negb] in Et. subst tried.
            rewrite Eh. unfold at_most_once. cbn [orb]. rewrite Em. unfold cur at 1. rewrite Ey. destruct y as [[? ?]|]; reflexivity.
          - exists tried. split; [apply Tk'; intros Eh'; destruct (Ne Eh' Eh)|].
            rewrite Eh. unfold plainly. rewrite (proj1 Ln _ _ _ Ic). unfold cur at 1. cbn [length peg_greedy]. cbn [Z.leb Z.compare]. rewrite Ey.
            destruct y as [[x d']|]; [|reflexivity]. destruct (length cur0) as [|k]; reflexivity. }
        destruct o1 as [x| | |]; cbn [sbind stry] in E; try contradiction.
        - unfold found in E. cbn in Ag. destruct (has_successful x) eqn:Hs; cbn [stry] in E.
          + destruct (repeat_gone _ _ _ _ _ _ _ _ _ Hg1 E Nf) as (-> & ->). cbn [app]. split; [eapply after_gone; eauto|].
            destruct (K _ Ag) as (z & Tk2 & Ek). exists z. split; [exact Ek|]. split; [exact Tk2|]. split; [discriminate|]. specialize (Sh _ _ _ Ag). split; [cbn [length]; lia|].
            intros m Ema. right. rewrite Ema in Em. apply Z.leb_gt in Em. unfold zlen. cbn [length]. lia.
          + injection E as <- <-. split; [eapply after_gone; eauto|]. destruct (K _ Ag) as (z & Tk2 & Ek). exists z. split; [exact Ek|]. split; [exact Tk2|].
            split; [reflexivity|]. split; [cbn [length]; lia|auto].
        - injection E as <- <-. cbn in Ag. split; [eapply after_gone; eauto|]. destruct (K _ Ag) as (z & Tk2 & Ek). exists z. split; [exact Ek|]. split; [exact Tk2|].
            split; [reflexivity|]. split; [cbn [length]; lia|auto].
      Qed.

      Lemma tracks_same tried s s' c l : same s s' -> tracks tried s (c :: l) -> tracks tried s' l.
      Proof.
        intros Sm [(Eh & ->)|(Eh & Ln & Hh)]; [left|right]; rewrite (same_here _ _ _ Sm); auto.
        split; [exact Eh|]. split; [exact Ln|]. intros n mi ma I. eapply Hh. right. exact I.
      Qed.

      Definition needed (pre : list container) : Prop := exists c mi ma, In (CElement c mi ma) pre /\ (1 <= mi < two63)%Z.
      Lemma needed_snoc pre c mi ma (cur cur1 : bytes) k : (needed pre -> length cur < length d0) -> length cur <= length d0 ->
        length cur1 + k <= length cur -> ((1 <= mi)%Z -> 1 <= k) -> needed (pre ++ [CElement c mi ma]) -> length cur1 < length d0.
      Proof.
        intros A B C D (c' & mi' & ma' & I & L). apply in_app_or in I as [I|[[= <- <- <-]|[]]]; [|lia].
        assert (X : needed pre) by (exists c', mi', ma'; auto). specialize (A X). lia.
      Qed.

      Definition unselfish (l : list container) : Prop := forall n mi ma, ~ In (CElement (ERecursive n) mi ma) l.
      Lemma containers_run_rec rev prev0 : forall l pre, l0 = pre ++ l -> Forall (usable rev) l ->
        forall s es prev cur s' o tried, good t d0 s -> tracks tried s l -> length cur <= length d0 -> (needed pre -> length cur < length d0) ->
        containers_run call bound l s None ch rev prev0 es prev cur = (s', o) -> o <> Fuel ->
        after t s s' /\ (unselfish l -> same s s') /\ match o with
        | Ok (es', rem) => exists es1, es' = es ++ es1 /\ line_rec how self tried sk l cur = Some (map element_ast es1, rem) /\ fits l es1 /\ (es1 = [] -> rem = cur) /\
            length rem + length es1 <= length cur
        | Err => line_rec how self tried sk l cur = None
        | _ => False
        end.
      Proof.
        unfold line_rec, pieces. induction l as [|[c mi ma|n vs] l IH]; intros pre Ep Us s es prev cur s' o tried Gd Tk Lc Nc E Nf; cbn [containers_run] in E.
        - injection E as <- <-. split; [apply after_refl|]. split; [intros _; apply same_refl|]. exists []. rewrite app_nil_r. repeat split; auto. constructor. cbn; lia.
        - assert (Ic : In (CElement c mi ma) l0) by (rewrite Ep; apply in_elt).
          assert (Ep' : l0 = (pre ++ [CElement c mi ma]) ++ l) by (rewrite <- app_assoc; exact Ep).
          inversion Us as [|? ? Uc Ul]; subst x l1. cbn [map rec_seq].
          destruct (repeat_run call bound bound c ma s None ch rev [] prev cur) as [s1 o1] eqn:Er.
          assert (N1 : o1 <> Fuel) by (intros ->; cbn in E; injection E as <- <-; congruence).
          pose proof (Hcard _ _ _ Wt Il Ic) as ((M0 & M1) & M2).
          (* what the element does *)
          assert (P : after t s s1 /\ (unselfish [CElement c mi ma] -> same s s1) /\ match o1 with
            | Ok (cs, _, cur1) => exists tried1,
                match rec_piece how sk (CElement c mi ma) with
                | Fixed p => (p cur, tried)
                | Again mi ma => let '(xs, d', tried') := how self tried ma cur in (if (zlen xs <? mi)%Z then None else Some (xs, d'), tried')
                end = (if (zlen cs <? mi)%Z then None else Some (map content_ast cs, cur1), tried1) /\ tracks tried1 s1 l /\
                (cs = [] -> cur1 = cur) /\ length cur1 + length cs <= length cur /\ (forall m, ma = Some m -> cs = [] \/ (zlen cs <= m)%Z)
            | _ => False
            end).
          { assert (Lm : forall (cs : list tcontent), zlen (map content_ast cs) = zlen cs) by (intros; unfold zlen; now rewrite map_length).
            destruct c as [n b|n g|u|n u esc|n];
              try (match type of Er with repeat_run _ _ _ ?c _ _ _ _ _ _ _ _ = _ => set (c0 := c) in * end;
                   assert (Nr : forall n, c0 <> ERecursive n) by (intros ?; discriminate);
                   destruct (repeat_run_rec c0 mi ma rev Ic Nr Uc _ _ _ _ _ _ _ (proj1 Gd) Er N1) as (Sm & P); split; [now apply after_same|]; split; [intros _; exact Sm|];
                   destruct o1 as [[[cs prev1] cur1]| | |]; try contradiction; destruct P as (cs1 & -> & P1 & P2 & P3 & P4); cbn [app] in *;
                   exists tried; split; [|split; [eapply tracks_same; eauto|auto]]; change (rec_piece how sk (CElement c0 mi ma)) with (Fixed (peg_times (rec_content how sk c0) mi ma));
                   unfold peg_times; change 0%Z with (zlen (@nil tcontent)); rewrite P4 by lia; now rewrite Lm).
            destruct (Hg _ _ Wt Il pre l n mi ma Ep) as (c' & mi' & ma' & I' & L'). cbn [rec_piece].
            assert (Lt : length cur < length d0) by (apply Nc; exists c', mi', ma'; auto).
            assert (Nl : linear_line l0 -> forall n' mi' ma', ~ In (CElement (ERecursive n') mi' ma') l).
            { intros (_ & Ln) n' mi1 ma1 I1. apply in_split in I1 as (l2 & l3 & ->). eapply Ln. exact Ep. }
            destruct (repeat_self n mi ma rev _ _ _ _ _ _ tried l Ic Uc Gd Lt Tk Nl Er N1) as (Af & P). split; [exact Af|]. split; [intros X; exfalso; eapply X; now left|].
            destruct o1 as [[[cs prev1] cur1]| | |]; try contradiction. destruct P as (tried1 & -> & P1 & P2). exists tried1. rewrite Lm. auto. }
          destruct P as (Af & Sm1 & P). destruct o1 as [[[cs prev1] cur1]| | |]; try contradiction. cbn [sbind] in E.
          destruct P as (tried1 & -> & Tk1 & P1 & P2 & P3).
          rewrite i64_small in E by (rewrite two63_val in *; lia).
          destruct (Z.ltb_spec (zlen cs) mi) as [|Lm].
          { injection E as <- <-. split; auto. split; auto. intros X. apply Sm1. intros n0 ? ? [I|[]]. eapply X. left. exact I. }
          assert (Lc1 : length cur1 <= length d0) by lia.
          assert (Nc1 : needed (pre ++ [CElement c mi ma]) -> length cur1 < length d0).
          { eapply needed_snoc; eauto. intros ?. unfold zlen in Lm. lia. }
          destruct (IH _ Ep' Ul _ _ _ _ _ _ _ (good_after _ _ _ _ Gd Af) Tk1 Lc1 Nc1 E Nf) as (Af2 & Sm2 & Q). split; [eapply after_trans; eauto|].
          split; [intros X; eapply same_trans; [apply Sm1; intros ? ? ? [I|[]]; eapply X; left; exact I|apply Sm2; intros ? ? ? I; eapply X; right; exact I]|].
          destruct o as [[es' rem]| | |]; auto; [|now rewrite Q]. destruct Q as (es1 & -> & Q0 & Q1 & Q2 & Q3). rewrite Q0.
          destruct cs as [|x cs].
          + exists es1. repeat split; auto.
            * apply fits_absent; auto.
            * intros ->. rewrite Q2; auto.
            * cbn [length] in P2. lia.
          + exists (TElement (Some (CElement c mi ma)) (x :: cs) :: es1). rewrite <- app_assoc. repeat split; auto.
            * apply fits_present; auto; [discriminate|]. intros m Em. destruct (P3 m Em) as [|]; [discriminate|auto].
            * discriminate.
            * cbn [length] in *. lia.
        - injection E as <- <-. split; [apply after_refl|]. split; [intros _; apply same_refl|]. cbn [map rec_seq rec_piece].
          assert (K : forall l' cur', compose_run call bound l' ch prev0 cur' <> Panic).
          { induction l' as [|[b z] l' IHl]; intros cur'; cbn [compose_run]; [discriminate|].
            destruct (element_value call bound b ch prev0 cur') as [[[x y]|]| | |] eqn:Ev; cbn [bind]; auto; try discriminate.
            exfalso. assert (N1 : element_value call bound b ch prev0 cur' <> Fuel) by congruence.
            pose proof (element_value_rec b prev0 cur' N1) as V. now rewrite Ev in V. }
          specialize (K vs cur). destruct (compose_run call bound vs ch prev0 cur); cbn [bind] in *; auto; congruence.
      Qed.

      Lemma line_run_rec rev i s prev s' o : Forall (usable rev) l0 -> good t d0 s -> tracks false s l0 ->
        line_run call bound l0 i s None ch rev prev d0 = (s', o) -> o <> Fuel ->
        after t s s' /\ (unselfish l0 -> same s s') /\ match o with
        | Ok (tl, rem) => line_rec how self false sk l0 d0 = Some (map element_ast (l_elements tl), rem) /\ l_index tl = i /\ line_ok tl = (length rem <? length d0)
        | Err => line_rec how self false sk l0 d0 = None
        | _ => False
        end.
      Proof.
        intros Us Gd Tk E Nf. unfold line_run in E.
        destruct (containers_run call bound l0 s None ch rev prev [] prev d0) as [s1 o1] eqn:Ec.
        assert (N1 : o1 <> Fuel) by (intros ->; cbn in E; injection E as <- <-; congruence).
        assert (Nn : needed [] -> length d0 < length d0) by (intros (? & ? & ? & [] & _)).
        destruct (containers_run_rec rev prev l0 [] eq_refl Us _ _ _ _ _ _ _ Gd Tk (le_n _) Nn Ec N1) as (Af & Sm & P).
        destruct o1 as [[es rem]| | |]; cbn [sbind] in E; injection E as <- <-; split; auto; split; auto.
        cbn [fst snd]. destruct P as (es1 & -> & P0 & F & P1 & P2). split; [exact P0|]. split; auto. cbn [app].
        destruct es1 as [|e es1].
        - rewrite P1 by auto. rewrite Nat.ltb_irrefl. reflexivity.
        - destruct (Nat.ltb_spec (length rem) (length d0)); [|cbn [length] in P2; lia].
          apply fits_line_ok; auto; [eapply Hd; eauto| |discriminate].
          intros c Ic. destruct c; auto. apply (fun H => H Ic).
          clear - F. remember (e :: es1) as es2. clear Heqes2. intros I. induction F; [destruct I| |]; (destruct I as [I|I]; [discriminate|auto]).
      Qed.
    End Line.

    (** Lines of values do not touch the map. *)
    Lemma good_less t d d' s : good t d s -> length d' <= length d -> good t d' s.
    Proof. intros (A & B) L. split; auto. intros t' ls E. destruct (B _ _ E) as (-> & C). split; auto. intros j x Ex. specialize (C _ _ Ex). lia. Qed.
    Lemma good_same t d s s' : good t d s -> same s s' -> good t d s'.
    Proof. intros G S. eapply good_after; eauto using after_same. Qed.
    Lemma values_unselfish l : Forall value_container l -> unselfish l.
    Proof. rewrite Forall_forall. intros V n mi ma I. exact (V _ I). Qed.

    Lemma reverse_loop_rec t l i : within r t -> In l (t_lines t) -> Forall value_container l ->
      forall f s cs prev cur s' o, good t cur s -> here t s = true ->
      reverse_loop call bound f l i s None [] cs prev cur = (s', o) -> o <> Fuel ->
      same s s' /\ match o with
      | Ok (cs', cur') => exists w, cs' = cs ++ map (fun b => TValue b []) w /\ before (line_rec how (fun _ => None) false (peg_skip []) l) cur = (w, cur')
      | _ => False
      end.
    Proof.
      intros W Il V. pose proof (values_unselfish l V) as Un.
      induction f as [|f IH]; intros s cs prev cur s' o Gd Hh E Nf; cbn [reverse_loop] in E; destruct cur as [|b cur0].
      - injection E as <- <-. split; [apply same_refl|]. exists []. cbn [map]. rewrite app_nil_r. auto.
      - injection E as <- <-. congruence.
      - injection E as <- <-. split; [apply same_refl|]. exists []. cbn [map]. rewrite app_nil_r. auto.
      - cbn [escape_run sbind] in E. set (cur := b :: cur0) in *.
        destruct (line_run call bound l i s None [] true prev cur) as [s1 o1] eqn:El.
        assert (N1 : o1 <> Fuel) by (intros ->; cbn in E; injection E as <- <-; congruence).
        assert (Us : Forall (usable t [] cur (fun _ => None) true) l) by (eapply Forall_impl; [|exact V]; intros c Hv; now right).
        assert (Tk : tracks t l false s l).
        { destruct (proj2 Hp) as [Eh|(Eh & Ln)]; [left; now rewrite Hh|right]. split; [exact Eh|]. split; [eapply Ln; eauto using uses_refl|].
          intros n mi ma I. destruct (Un _ _ _ I). }
        destruct (line_run_rec t l W Il [] (incl_nil_l _) cur (fun _ => None) true i s prev s1 o1 Us Gd Tk El N1) as (_ & Sm & P). specialize (Sm Un).
        rewrite rskipper_nil in P.
        destruct o1 as [[tl rem]| | |]; cbn [stry] in E; try contradiction.
        + injection E as <- <-. split; auto. destruct P as (P & _). exists []. cbn [map]. rewrite app_nil_r. split; auto.
          unfold cur. cbn [before]. fold cur. now rewrite P.
        + assert (Gd1 : good t cur0 s1) by (eapply good_same; eauto; eapply good_less; eauto; unfold cur; cbn [length]; lia).
          assert (Hh1 : here t s1 = true) by now rewrite (same_here _ _ _ Sm).
          destruct (IH _ _ _ _ _ _ Gd1 Hh1 E Nf) as (Sm2 & Q). split; [eapply same_trans; eauto|].
          destruct o as [[cs' cur']| | |]; auto. destruct Q as (w & -> & Q). exists (b :: w). cbn [map]. rewrite <- app_assoc.
          split; auto. unfold cur. cbn [before]. fold cur. now rewrite P, Q.
    Qed.

    (** The map while a token is parsed, before line [i]. *)
    Definition rdoing (t : token) (i : nat) (cur : bytes) (s s1 : smap) : Prop :=
      (forall t' ls, s_get s1 (t_name t) = Some (t', ls) -> t' = t /\
         forall j d, line_get ls j = Some d -> length cur <= length d /\ (i <= j -> length cur < length d)) /\
      forall n, n <> t_name t -> s_get s1 n = s_get s n.

    Lemma rdoing_inner t i cur s s1 : within r t -> inner t s -> rdoing t i cur s s1 -> inner t s1.
    Proof. intros W F (_ & D) u C v Wv. rewrite D by (eapply Hn; eauto). eapply F; eauto. Qed.
    Lemma rdoing_good t i cur s s1 : within r t -> inner t s -> rdoing t i cur s s1 -> good t cur s1.
    Proof.
      intros W F D. split; [eapply rdoing_inner; eauto|]. intros t' ls E. destruct (proj1 D _ _ E) as (-> & X). split; auto.
      intros j d Ed. now apply X in Ed.
    Qed.
    Lemma rdoing_after t i cur s s1 s2 : rdoing t i cur s s1 -> after t s1 s2 -> rdoing t i cur s s2.
    Proof.
      intros (A & B) Af. split.
      - intros t' ls E. destruct (Af (t_name t)) as [X|(_ & X)]; rewrite X in E; [auto|discriminate].
      - intros n Nn. destruct (Af n) as [->|(-> & _)]; [auto|congruence].
    Qed.
    Lemma rdoing_mark t i cur s s1 : rdoing t i cur s s1 -> rdoing t (S i) cur s (s_mark s1 t i cur) /\ here t (s_mark s1 t i cur) = true.
    Proof.
      intros (A & B). unfold s_mark, here. destruct (s_get s1 (t_name t)) as [[t' ls]|] eqn:G.
      - destruct (A _ _ eq_refl) as (-> & L). split; [split|].
        + intros t' ls'. rewrite s_get_set, bytes_eqb_refl. intros [= <- <-]. split; auto. intros j d. cbn [line_get].
          destruct (Nat.eqb_spec i j) as [->|]; [intros [= <-]; lia|]. intros Ed. destruct (L _ _ Ed). split; auto. intros; apply H0. lia.
        + intros n Nn. rewrite s_get_set. destruct (bytes_eqb (t_name t) n) eqn:En; auto. apply bytes_eqb_true in En. congruence.
        + now rewrite s_get_set, bytes_eqb_refl.
      - split; [split|].
        + intros t' ls'. rewrite s_get_set, bytes_eqb_refl. intros [= <- <-]. split; auto. intros j d. cbn [line_get].
          destruct (Nat.eqb_spec i j) as [->|]; [intros [= <-]; lia|discriminate].
        + intros n Nn. rewrite s_get_set. destruct (bytes_eqb (t_name t) n) eqn:En; auto. apply bytes_eqb_true in En. congruence.
        + now rewrite s_get_set, bytes_eqb_refl.
    Qed.
    Lemma rdoing_visited t i cur s s1 : rdoing t i cur s s1 -> s_visited s1 (t_name t) i cur = false.
    Proof.
      intros (A & _). unfold s_visited. destruct (s_get s1 (t_name t)) as [[t' ls]|] eqn:G; auto. destruct (A _ _ eq_refl) as (_ & L).
      destruct (line_get ls i) as [d|] eqn:Ed; auto. destruct (bytes_eqb cur d) eqn:Eb; auto. apply bytes_eqb_true in Eb as ->.
      destruct (L _ _ Ed) as (_ & X). specialize (X (le_n _)). lia.
    Qed.
    Lemma rdoing_enter t cur s : ready t s cur -> rdoing t 0 cur s (s_enter s t).
    Proof.
      intros (_ & A). unfold s_enter. destruct (s_get s (t_name t)) as [[t' ls]|] eqn:G.
      - split; auto. intros t2 ls2 E. rewrite G in E. injection E as <- <-. destruct (A _ _ eq_refl) as (-> & L). split; auto.
        intros j d Ed. specialize (L _ _ Ed). split; lia.
      - split.
        + intros t' ls'. rewrite s_get_set, bytes_eqb_refl. intros [= <- <-]. split; auto. intros j d [=].
        + intros n Nn. rewrite s_get_set. destruct (bytes_eqb (t_name t) n) eqn:En; auto. apply bytes_eqb_true in En. congruence.
    Qed.
    Lemma rdoing_del t i cur s s1 : rdoing t i cur s s1 -> gone_from t s (s_del s1 (t_name t)).
    Proof.
      intros (_ & D) n. rewrite s_get_del. destruct (bytes_eqb (t_name t) n) eqn:En; auto.
      apply D. intros ->. rewrite bytes_eqb_refl in En. discriminate.
    Qed.

    Lemma block_run_rec t s cur k : within r t -> inner t s -> length cur <= k ->
      forall ls, incl ls (t_lines t) -> forall i s1 acc prev s' o, rdoing t i cur s s1 -> Forall (fun x => line_ok x = false) acc ->
      block_run call bound t ls i s1 None chs false acc prev cur = (s', o) -> o <> Fuel ->
      (exists j, rdoing t j cur s s') /\ match o with
      | Ok (b, rem) => peg_first i (map (line_rec how (below how (rskipper how chs) t k) false (rskipper how chs)) ls) cur =
          match successful b with Some l => Some (l_index l, map element_ast (l_elements l), rem) | None => None end
      | _ => False
      end.
    Proof.
      intros W F Lk. induction ls as [|l ls IH]; intros Inc i s1 acc prev s' o D Fa E Nf; cbn [block_run] in E.
      - injection E as <- <-. split; eauto. now rewrite successful_none.
      - assert (Il := Inc _ (or_introl eq_refl)). assert (Inc' : incl ls (t_lines t)) by (intros x Hx; apply Inc; now right).
        rewrite (rdoing_visited _ _ _ _ _ D) in E. destruct (rdoing_mark _ _ _ _ _ D) as (D1 & Hh).
        destruct (line_run call bound l i (s_mark s1 t i cur) None chs false prev cur) as [s2 o2] eqn:El.
        assert (N2 : o2 <> Fuel) by (intros ->; cbn in E; injection E as <- <-; congruence).
        assert (So : self_ok t cur (below how (rskipper how chs) t k)).
        { split.
          - intros d a d'. destruct k; cbn [below]; [discriminate|]. apply knot_shrinks, rskipper_lessens.
          - intros s3 prev3 cur3 s4 o4 L3 (G3 & G3') E4 N4. destruct k as [|k]; [lia|]. cbn [below].
            apply (proj1 (Hc r chs Hp) t s3 prev3 cur3 s4 o4 k W); auto; [|lia]. split; auto. intros t' ls' X. destruct (G3' _ _ X) as (-> & Y).
            split; auto. intros j d Ed. specialize (Y _ _ Ed). lia. }
        assert (Us : Forall (usable t chs cur (below how (rskipper how chs) t k) false) l) by (apply Forall_forall; intros; left; auto).
        assert (Tk : tracks t l false (s_mark s1 t i cur) l).
        { destruct (proj2 Hp) as [Eh|(Eh & Ln)]; [left; now rewrite Hh|right]. split; [exact Eh|]. split; [eapply Ln; eauto using uses_refl|auto]. }
        destruct (line_run_rec t l W Il chs (incl_refl _) cur _ false i _ prev s2 o2 Us (rdoing_good _ _ _ _ _ W F D1) Tk El N2) as (Af & _ & P).
        assert (D2 := rdoing_after _ _ _ _ _ _ D1 Af). cbn [map peg_first].
        destruct o2 as [[tl rem]| | |]; cbn [stry] in E; try contradiction.
        + destruct P as (-> & Li & Lo). destruct (line_ok tl) eqn:Eo; rewrite <- Lo.
          * injection E as <- <-. split; eauto. rewrite successful_last by auto. now rewrite Li.
          * apply (IH Inc' _ _ _ _ _ _ D2 (proj2 (Forall_app _ _ _) (conj Fa (Forall_cons _ Eo (Forall_nil _)))) E Nf).
        + rewrite P. eapply IH; eauto.
    Qed.

    Lemma token_step_rec :
      (forall t s prev cur s' o k, within r t -> ready t s cur -> token_step call bound t s None chs false prev cur = (s', o) -> o <> Fuel ->
         length cur <= k -> gone_from t s s' /\ agrees (knot how (rskipper how chs) t k cur) o) /\
      (forall sk t s prev cur s' o n, within r t -> fresh t s -> peg_ok (EEverything n t None) ->
         token_step call bound t s None [] true prev cur = (s', o) -> o <> Fuel ->
         same s s' /\ agrees (rec_content how sk (EEverything n t None) cur) o).
    Proof.
      split.
      - intros t s prev cur s' o k W R E Nf Lk. unfold token_step in E.
        destruct (block_run call bound t (t_lines t) 0 (s_enter s t) None chs false [] prev cur) as [s1 o1] eqn:Eb.
        assert (N1 : o1 <> Fuel) by (intros ->; injection E as <- <-; congruence).
        destruct (block_run_rec t s cur k W (proj1 R) Lk (t_lines t) (incl_refl _) 0 _ [] _ _ _ (rdoing_enter _ _ _ R) (Forall_nil _) Eb N1) as ((j & D) & P).
        assert (Sm := rdoing_del _ _ _ _ _ D). rewrite knot_eq.
        destruct o1 as [[b rem]| | |]; try contradiction. destruct b as [|tl b]; injection E as <- <-; split; auto.
        + cbn [agrees]. rewrite P. reflexivity.
        + assert (N2 : channels_try call bound chs prev rem <> Fuel) by (intros E; rewrite E in Nf; apply Nf; reflexivity).
          destruct (channels_try_rec chs prev rem (incl_refl _) N2) as (ts & ->). cbn [bind agrees fst snd]. rewrite P, tree_ast_eq.
          unfold has_successful; cbn [tr_block tr_remaining]. destruct (successful (tl :: b)); auto.
      - intros sk t s prev cur s' o n W F Ok' E Nf. unfold token_step in E. cbn in Ok'.
        assert (R := ready_fresh t s cur (within_child t) F). assert (D := rdoing_enter _ _ _ R).
        assert (Fn : s_get s (t_name t) = None) by (apply F; constructor).
        destruct (t_lines t) as [|l ls] eqn:Et.
        + cbn in E. injection E as <- <-. split; [eapply gone_same; eauto using rdoing_del|]. destruct t as [? ? ?]; cbn in Et; subst. reflexivity.
        + cbn [block_run] in E. specialize (Ok' l ls eq_refl).
          rewrite (rdoing_visited _ _ _ _ _ D) in E. destruct (rdoing_mark _ _ _ _ _ D) as (D1 & Hh).
          assert (Il : In l (t_lines t)) by (rewrite Et; now left).
          destruct (reverse_loop call bound bound l 0 (s_mark (s_enter s t) t 0 cur) None [] [] prev cur) as [s2 o2] eqn:Er.
          assert (N2 : o2 <> Fuel) by (intros ->; cbn in E; injection E as <- <-; congruence).
          destruct (reverse_loop_rec t l 0 W Il Ok' _ _ _ _ _ _ _ (rdoing_good _ _ _ _ _ W (proj1 R) D1) Hh Er N2) as (Sm & P).
          assert (Sm' := gone_same _ _ _ Fn (rdoing_del _ _ _ _ _ (rdoing_after _ _ _ _ _ _ D1 (after_same _ _ _ Sm)))).
          destruct o2 as [[cs cur']| | |]; try contradiction. cbn [sbind fst snd app] in E. destruct P as (w & -> & P). cbn [app] in *.
          assert (Eq : rec_content how sk (EEverything n t None) cur = match w with [] => None | _ => Some (Node (t_name t) 0 [([], map Leaf w)], cur') end).
          { destruct t as [m ls' ss]; cbn in Et; subst ls'. cbn [rec_content t_name]. unfold peg_until.
            fold (pieces how (peg_skip []) l). fold (line_rec how (fun _ => None) false (peg_skip []) l). rewrite P. now destruct w. }
          destruct w as [|x w]; injection E as <- <-; split; auto.
          unfold channels_try; cbn [bind agrees fst snd tr_remaining]. rewrite Eq, tree_ast_eq. cbn [successful find line_ok l_elements].
          cbn [forallb element_ok el_grammar andb l_reverse orb l_index l_elements map element_ast has_successful].
          unfold has_successful; cbn [tr_block successful find line_ok l_elements forallb element_ok el_grammar andb l_reverse orb].
          rewrite map_map. reflexivity.
    Qed.
  End Root.
End Step.

Lemma token_run_rec how : forall f, rec_call how (token_run f).
Proof.
  induction f as [|f IH]; intros r chs Hp; cbn [token_run].
  - split; [intros t s prev cur s' o k _ _ [= <- <-]; congruence|intros sk t s prev cur s' o n _ _ _ [= <- <-]; congruence].
  - apply (token_step_rec how _ f IH (token_run_trace f) r chs Hp).
Qed.

Lemma execute_rec how f g data : suits how g -> execute f g data <> Fuel -> agrees (rec_of how g data) (execute f g data).
Proof.
  destruct g as [root chs]. intros Hp Nf. unfold execute in *. rewrite rec_of_eq, knot_token.
  destruct (token_run f root [] None chs false [] data) as [s' o] eqn:E. cbn [snd] in *.
  eapply (proj1 (token_run_rec how f root chs Hp)); eauto using within_refl, ready_nil.
Qed.

Lemma rec_guarded g : rec_grammar g -> guarded g.
Proof. intros Hp root chs t l U W I. destruct (Hp root chs U) as ((_ & _ & _ & _ & G) & _). eauto. Qed.

(** ** Checking that a grammar is of the class *)
Definition recb (t : token) (c : container) : bool :=
  match c with
  | CElement (ERecursive n) _ _ => bytes_eqb n (t_name t)
  | _ => pegb c
  end.
Definition check_rec (g : grammar) : bool :=
  check_containers cardb g && forallb (fun t => forallb (forallb (recb t)) (t_lines t)) (all_tokens g) &&
  check_guarded g &&
  forallb (fun t => forallb compatibleb (t_lines t)) (all_tokens g) &&
  forallb (fun g' => let 'Grammar root chs := g' in check_names root &&
    forallb (fun c => let 'Channel t cond := c in match cond with None => true | Some _ => false end &&
      forallb (fun u => forallb (forallb plainb) (t_lines u)) (tok_tokens t)) chs) (gram_grammars g).

Lemma check_rec_ok g : check_rec g = true -> rec_grammar g.
Proof.
  unfold check_rec. rewrite !andb_true_iff. intros ((((C1 & C2) & CG) & C3) & C4) root chs U. rewrite forallb_forall in C2, C3, C4.
  specialize (C4 _ (uses_grammars _ _ U)). cbn beta iota in C4. apply andb_true_iff in C4 as (C4 & C5). rewrite forallb_forall in C5.
  split.
  - refine (conj (check_names_ok _ C4) (conj _ (conj _ (conj _ _)))).
    + intros t l W I. specialize (C3 t (all_tokens_in _ _ _ _ U W)). rewrite forallb_forall in C3. apply compatibleb_ok. auto.
    + exact (check_cards _ C1 _ _ U).
    + intros t l e mi ma W I Ic. specialize (C2 t (all_tokens_in _ _ _ _ U W)). rewrite forallb_forall in C2.
      specialize (C2 _ I). rewrite forallb_forall in C2. specialize (C2 _ Ic). unfold recb in C2. unfold rec_ok.
      destruct e; try exact (pegb_ok _ C2). now apply bytes_eqb_true.
    + intros t l W I. eapply check_guarded_ok; eauto.
  - intros t cond I. specialize (C5 _ I). cbn beta iota in C5. apply andb_true_iff in C5 as (C5 & C6).
    split; [destruct cond; auto; discriminate|]. intros u l c W Il Ic. rewrite forallb_forall in C6.
    specialize (C6 u (within_tokens _ _ W)). rewrite forallb_forall in C6. specialize (C6 l Il). rewrite forallb_forall in C6.
    apply plainb_ok. auto.
Qed.

Definition recursive (c : container) : bool := match c with CElement (ERecursive _) _ _ => true | _ => false end.
Definition linearb (l : list container) : bool :=
  (length (filter recursive l) <=? 1) &&
  forallb (fun c => match c with CElement (ERecursive _) _ (Some m) => (m =? 1)%Z | CElement (ERecursive _) _ None => false | _ => true end) l.
Lemma linearb_ok l : linearb l = true -> linear_line l.
Proof.
  unfold linearb. rewrite andb_true_iff. intros (A & B). apply Nat.leb_le in A. rewrite forallb_forall in B. split.
  - intros n mi ma I. specialize (B _ I). cbn in B. destruct ma as [m|]; [|discriminate]. apply Z.eqb_eq in B. congruence.
  - intros l1 l2 l3 n mi ma n' mi' ma' ->. rewrite !filter_app in A. cbn [filter recursive] in A. rewrite filter_app in A. cbn [filter recursive] in A.
    rewrite !app_length in A. cbn [length] in A. rewrite app_length in A. cbn [length] in A. lia.
Qed.
Definition check_linear (g : grammar) : bool := forallb (fun t => forallb linearb (t_lines t)) (all_tokens g).
Lemma check_linear_ok g : check_linear g = true -> linear g.
Proof.
  intros C root chs t l U W I. unfold check_linear in C. rewrite forallb_forall in C.
  specialize (C t (all_tokens_in _ _ _ _ U W)). rewrite forallb_forall in C. apply linearb_ok. auto.
Qed.
