(** Channels with conditions. *)
From Coq Require Import List ZArith Lia Bool.
From Coq Require Import Init.Byte Strings.Byte.
From Verif Require Import Base BaseLemmas AstModel SpecAst AstProofs AstTraceProofs AstFuelProofs AstPanicProofs AstListProofs AstMoreProofs SpecPeg AstPegProofs SpecCond.
Import ListNotations.

Lemma tolerated_run f t d : execute f (Grammar t []) d <> Fuel -> execute f (Grammar t []) d <> Panic ->
  (exists tr, execute f (Grammar t []) d = Ok tr) /\ tolerated t d \/ execute f (Grammar t []) d = Err /\ ~ tolerated t d.
Proof.
  intros Nf Np. destruct (execute f (Grammar t []) d) as [x| | |] eqn:E; try congruence.
  - left. split; eauto. exists f, x. exact E.
  - right. split; auto. intros (f' & y & E').
    pose proof (execute_mono f (Nat.max f f') (Grammar t []) d) as M1. rewrite E in M1.
    pose proof (execute_mono f' (Nat.max f f') (Grammar t []) d) as M2. rewrite E' in M2.
    rewrite M1 in M2 by (lia || discriminate). assert (X : Err = Ok y) by (apply M2; [lia|discriminate]). discriminate.
Qed.

Lemma recognised_peg t d a rest : peg_grammar (Grammar t []) ->
  ((exists fuel, recognises fuel (Grammar t []) d a rest) <-> peg_of (Grammar t []) d = Some (a, rest)).
Proof.
  intros P. split.
  - intros (f & x & E & Hs & <- & <-). pose proof (execute_peg f _ d P) as A. rewrite E in A. cbn [agrees] in A.
    rewrite Hs in A. apply A. discriminate.
  - intros E. destruct (peg_recognises _ d P) as (n & R). exists n. apply R; auto.
Qed.

Lemma takes_unique chs c prev d r1 r2 : channels_peg chs -> In c chs -> takes c prev d r1 -> takes c prev d r2 -> r1 = r2.
Proof.
  intros Hp I. destruct c as [t cond]. destruct (Hp t cond I) as (P & _). cbn [takes].
  intros ((f1 & a1 & R1) & _) ((f2 & a2 & R2) & _).
  assert (E1 := proj1 (recognised_peg t d a1 r1 P) (ex_intro _ f1 R1)).
  assert (E2 := proj1 (recognised_peg t d a2 r2 P) (ex_intro _ f2 R2)). congruence.
Qed.

Lemma round_unique chs : channels_peg chs -> forall l, incl l chs -> forall prev d p1 d1 p2 d2,
  round l prev d p1 d1 -> round l prev d p2 d2 -> p1 = p2 /\ d1 = d2.
Proof.
  intros Hp. induction l as [|c l IH]; intros Inc prev d p1 d1 p2 d2 A B; inversion A; subst; inversion B; subst; auto.
  all: assert (Ic := Inc c (or_introl eq_refl)); assert (Inc' : incl l chs) by (intros x Hx; apply Inc; now right).
  - assert (rest = rest0) as <- by (eapply takes_unique; eauto). eapply IH; eauto.
  - exfalso. match goal with H : forall _, ~ _ |- _ => eapply H; eauto end.
  - exfalso. match goal with H : forall _, ~ _ |- _ => eapply H; eauto end.
  - eapply IH; eauto.
Qed.

Lemma rounds_unique chs : channels_peg chs -> forall prev d r1, rounds chs prev d r1 -> forall r2, rounds chs prev d r2 -> r1 = r2.
Proof.
  intros Hp prev d r1 H. induction H as [prev d prev' A|prev d prev' d' rest A N H IH]; intros r2 B; inversion B; subst; auto.
  - exfalso. destruct (round_unique chs Hp chs (incl_refl _) _ _ _ _ _ _ A H) as (_ & <-). auto.
  - exfalso. destruct (round_unique chs Hp chs (incl_refl _) _ _ _ _ _ _ A H0) as (_ & ->). auto.
  - destruct (round_unique chs Hp chs (incl_refl _) _ _ _ _ _ _ A H0) as (<- & <-). auto.
Qed.

Lemma between_unique chs : channels_peg chs -> forall l prev d r1, bytes_between chs l prev d r1 ->
  forall r2, bytes_between chs l prev d r2 -> r1 = r2.
Proof.
  intros Hp l prev d r1 H. induction H as [|b l prev d r rest A H IH]; intros r2 B; inversion B; subst; auto.
  match goal with H : rounds _ _ _ _ |- _ => pose proof (rounds_unique chs Hp _ _ _ A _ H) as E end. injection E as <-. auto.
Qed.

Section Cond.
  Variable f : nat.
  Variable root : token.
  Variable chs : list channel.
  Notation call := (token_run f).
  Hypothesis Hp : channels_peg chs.
  Hypothesis Ne : no_escape (Grammar root chs).

  Lemma no_escape_uses g g' : no_escape g -> uses g g' -> no_escape g'.
  Proof. intros N U r c U'. apply (N r c). eapply uses_trans; eauto. Qed.

  Lemma condition_run t cond c prev next : In (Channel t cond) chs -> cond = Some c ->
    channel_condition call c prev next <> Fuel ->
    channel_condition call c prev next = Ok tt /\ condition_holds cond prev next \/
    channel_condition call c prev next = Err /\ ~ condition_holds cond prev next.
  Proof.
    intros I -> Nf. destruct c as [b a]. unfold channel_condition in *. cbn [fst snd] in *. cbn [condition_holds].
    assert (X : match b with None => (match b with None => Ok tt | Some t => do _ <- snd (call t [] None [] false [] prev); Ok tt end) = Ok tt
      | Some t0 => match b with None => Ok tt | Some t => do _ <- snd (call t [] None [] false [] prev); Ok tt end = Ok tt /\ tolerated t0 prev \/
                   match b with None => Ok tt | Some t => do _ <- snd (call t [] None [] false [] prev); Ok tt end = Err /\ ~ tolerated t0 prev end).
    { destruct b as [t0|]; auto. fold (execute f (Grammar t0 []) prev) in *.
      change (snd (call t0 [] None [] false [] prev)) with (execute f (Grammar t0 []) prev) in *.
      destruct (tolerated_run f t0 prev) as [((x & E) & T)|(E & T)].
      - intros E. rewrite E in Nf. apply Nf. reflexivity.
      - apply execute_no_panic. eapply no_escape_uses; [exact Ne|]. eapply uses_before; eauto using uses_refl.
      - left. rewrite E. auto.
      - right. rewrite E. auto. }
    assert (Y : match a with None => True
      | Some t0 => match b with None => True | Some t1 => tolerated t1 prev end ->
          (do _ <- snd (call t0 [] None [] false [] next); Ok tt) = Ok tt /\ tolerated t0 next \/
          (do _ <- snd (call t0 [] None [] false [] next); Ok tt) = Err /\ ~ tolerated t0 next end).
    { destruct a as [t0|]; auto. intros Tb.
      change (snd (call t0 [] None [] false [] next)) with (execute f (Grammar t0 []) next) in *.
      destruct (tolerated_run f t0 next) as [((x & E) & T)|(E & T)].
      - intros E. apply Nf. destruct b as [t1|].
        + destruct X as [(X & _)|(_ & X)]; [|contradiction]. rewrite X. cbn [bind]. now rewrite E.
        + cbn [bind]. now rewrite E.
      - apply execute_no_panic. eapply no_escape_uses; [exact Ne|]. eapply uses_after; eauto using uses_refl.
      - left. rewrite E. auto.
      - right. rewrite E. auto. }
    destruct b as [t1|].
    - destruct X as [(X & T)|(X & T)]; rewrite X; cbn [bind].
      + destruct a as [t0|]; [destruct (Y T) as [(Z & T0)|(Z & T0)]; rewrite Z|].
        * left. split; auto. split; intros ? [= <-]; auto.
        * right. split; auto. intros (_ & C). apply T0. auto.
        * left. split; auto. split; [intros ? [= <-]; auto|discriminate].
      + right. split; auto. intros (C & _). apply T. auto.
    - cbn [bind]. destruct a as [t0|]; [destruct (Y Logic.I) as [(Z & T0)|(Z & T0)]; rewrite Z|].
      * left. split; auto. split; [discriminate|]. intros ? [= <-]; auto.
      * right. split; auto. intros (_ & C). apply T0. auto.
      * left. split; auto. split; discriminate.
  Qed.

  Lemma channel_run_cond c prev cur : In c chs -> channel_run call c prev cur <> Fuel ->
    match channel_run call c prev cur with
    | Ok x => length (tree_bytes true x) <= length cur /\
        (0 < length (tree_bytes true x) /\ takes c prev cur (skipn (length (tree_bytes true x)) cur) \/
         length (tree_bytes true x) = 0 /\ forall rest, ~ takes c prev cur rest)
    | Err => forall rest, ~ takes c prev cur rest
    | _ => False
    end.
  Proof.
    destruct c as [t cond]. intros I Nf. unfold channel_run in *. destruct (Hp t cond I) as (P & Pl).
    destruct (call t [] None [] false prev cur) as [s' o] eqn:Ec. cbn [snd] in *.
    assert (No : o <> Fuel) by (intros ->; apply Nf; reflexivity).
    destruct (proj1 (token_run_peg f t [] P) t [] prev cur s' o (within_refl t) (fun v _ => eq_refl) Ec No) as (_ & A).
    rewrite <- peg_of_eq in A.
    destruct o as [x| | |]; cbn [agrees] in A; try contradiction; cbn [bind] in *.
    2:{ intros rest ((fu & a & R) & _). assert (E := proj1 (recognised_peg t cur a rest P) (ex_intro _ fu R)). congruence. }
    assert (Tr : p_token t None [] false t cur x).
    { eapply (token_run_trace f t t [] None [] false prev cur); eauto using scoped_nil, within_refl. intros e [=]. }
    assert (G : length (tree_bytes true x) <= length cur /\
      (0 < length (tree_bytes true x) /\ skipn (length (tree_bytes true x)) cur = tr_remaining x /\ has_successful x = true \/
       length (tree_bytes true x) = 0 /\ peg_of (Grammar t []) cur = None)).
    { destruct (has_successful x) eqn:Hs.
      - assert (F : cur = tree_bytes true x ++ tr_remaining x) by (eapply fidelity; eauto using within_refl; intros ? ? []).
        assert (L : length (tr_remaining x) < length cur) by (eapply peg_of_shrinks; eauto).
        assert (L2 : length cur = length (tree_bytes true x) + length (tr_remaining x)) by (rewrite F at 1; apply app_length).
        split; [lia|]. left. split; [lia|]. split; auto. rewrite F at 1. now rewrite skipn_app, skipn_all, Nat.sub_diag.
      - assert (F : tree_bytes true x = []).
        { destruct (tree_bytes true x) eqn:E; auto. assert (X : has_successful x = true); [|congruence].
          apply tree_bytes_successful with (inc := true). rewrite E. discriminate. }
        rewrite F. cbn [length]. split; [lia|]. auto. }
    destruct G as (G1 & G2).
    assert (No2 : peg_of (Grammar t []) cur = None -> forall rest, ~ takes (Channel t cond) prev cur rest).
    { intros Ez rest ((fu & a & R) & _). assert (E := proj1 (recognised_peg t cur a rest P) (ex_intro _ fu R)). congruence. }
    assert (Yes : has_successful x = true -> exists fuel a, recognises fuel (Grammar t []) cur a (tr_remaining x)).
    { intros Hs. rewrite Hs in A. apply (recognised_peg t cur (tree_ast x) (tr_remaining x) P) in A. destruct A as (fu & A). eauto. }
    destruct cond as [c|]; cbn [bind].
    - assert (N2 : channel_condition call c prev (tr_remaining x) <> Fuel) by (intros E; rewrite E in Nf; apply Nf; reflexivity).
      destruct (condition_run t _ c prev (tr_remaining x) I eq_refl N2) as [(-> & C)|(-> & C)]; cbn [bind].
      + split; auto. destruct G2 as [(L & S & Hs)|(L & Z)]; [left|right]; split; auto. rewrite S. split; auto.
      + destruct G2 as [(L & S & Hs)|(L & Z)]; auto. intros rest ((fu & a & R) & C').
        assert (E := proj1 (recognised_peg t cur a rest P) (ex_intro _ fu R)). rewrite Hs in A.
        assert (rest = tr_remaining x) as -> by congruence. auto.
    - split; auto. destruct G2 as [(L & S & Hs)|(L & Z)]; [left|right]; split; auto. rewrite S. split; cbn [condition_holds]; auto.
  Qed.

  Lemma channels_round_cond : forall l, incl l chs -> forall ts prev rem, channels_round call l (ts, prev, rem) <> Fuel ->
    exists ts1 prev' rem', channels_round call l (ts, prev, rem) = Ok (ts ++ ts1, prev', rem') /\
      round l prev rem prev' rem' /\ (ts1 = [] -> rem' = rem) /\ length rem' + length ts1 <= length rem.
  Proof.
    induction l as [|c l IH]; intros Inc ts prev rem Nf; cbn [channels_round] in *.
    - exists [], prev, rem. rewrite app_nil_r. cbn. repeat split; auto. constructor. lia.
    - assert (Ic := Inc _ (or_introl eq_refl)). assert (Inc' : incl l chs) by (intros x Hx; apply Inc; now right).
      assert (No : channel_run call c prev rem <> Fuel) by (intros E; rewrite E in Nf; congruence).
      pose proof (channel_run_cond c prev rem Ic No) as Q.
      destruct (channel_run call c prev rem) as [x| | |]; try contradiction.
      + destruct Q as (L & Q). revert Nf. destruct (Nat.ltb_spec (length rem) (length (tree_bytes true x))); [lia|].
        destruct Q as [(L0 & T)|(L0 & T)].
        * destruct (Nat.eqb_spec (length (tree_bytes true x)) 0); [lia|]. intros Nf.
          destruct (IH Inc' _ _ _ Nf) as (ts1 & prev' & rem' & E & R & A & B). exists (x :: ts1), prev', rem'.
          rewrite <- app_assoc in E. split; [exact E|]. split; [eapply round_takes; eauto|]. split; [discriminate|].
          rewrite skipn_length in B. cbn [length]. lia.
        * rewrite L0. cbn [Nat.eqb]. intros Nf. destruct (IH Inc' _ _ _ Nf) as (ts1 & prev' & rem' & E & R & A & B).
          exists ts1, prev', rem'. split; [exact E|]. split; [eapply round_passes; eauto|]. auto.
      + destruct (IH Inc' _ _ _ Nf) as (ts1 & prev' & rem' & E & R & A & B).
        exists ts1, prev', rem'. split; [exact E|]. split; [eapply round_passes; eauto|]. auto.
  Qed.

  Lemma channels_loop_cond : forall k ts prev rem, channels_loop call k chs (ts, prev, rem) <> Fuel ->
    exists ts1 prev' rem', channels_loop call k chs (ts, prev, rem) = Ok (ts ++ ts1, prev', rem') /\
      rounds chs prev rem rem' /\ (ts1 = [] -> rem' = rem).
  Proof.
    induction k as [|k IH]; intros ts prev rem Nf; cbn [channels_loop] in *; [congruence|].
    assert (N1 : channels_round call chs (ts, prev, rem) <> Fuel) by (intros E; rewrite E in Nf; apply Nf; reflexivity).
    destruct (channels_round_cond chs (incl_refl _) _ _ _ N1) as (ts1 & prev1 & rem1 & E & R & A & B). rewrite E in *. cbn [bind fst snd] in *.
    rewrite app_length in *. destruct ts1 as [|x ts1]; cbn [length] in *.
    - rewrite Nat.add_0_r in *. rewrite Nat.eqb_refl in *. exists [], prev1, rem1. rewrite A in * by auto.
      split; auto. split; auto. eapply rounds_end; eauto.
    - destruct (Nat.eqb_spec (length ts) (length ts + S (length ts1))); [lia|].
      destruct (IH _ _ _ Nf) as (ts2 & prev2 & rem2 & E2 & R2 & A2). exists ((x :: ts1) ++ ts2), prev2, rem2.
      rewrite <- app_assoc in E2. split; [exact E2|]. split; [|discriminate]. eapply rounds_more; eauto.
      intros ->. lia.
  Qed.

  Lemma channels_try_cond k prev cur : channels_try call k chs prev cur <> Fuel ->
    exists ts r, channels_try call k chs prev cur = Ok (ts, r) /\ rounds chs prev cur r.
  Proof.
    intros Nf. unfold channels_try in *. destruct chs as [|c l] eqn:Ec.
    { exists [], cur. split; auto. eapply rounds_end. constructor. }
    rewrite <- Ec in *. unfold channels_run in *.
    assert (N1 : channels_loop call k chs ([], prev, cur) <> Fuel) by (intros E; rewrite E in Nf; apply Nf; reflexivity).
    destruct (channels_loop_cond _ _ _ _ N1) as (ts1 & prev' & rem' & E & R & A). rewrite E. cbn [bind fst snd app].
    destruct ts1 as [|x ts1]; [|eauto]. rewrite A in R by auto. eauto.
  Qed.

  Lemma value_cond k b prev cur : element_value call k b chs prev cur <> Fuel ->
    (exists ts r, element_value call k b chs prev cur = Ok (Some (TValue b ts, r)) /\ rounds chs prev cur (b :: r)) \/
    (element_value call k b chs prev cur = Ok None \/ element_value call k b chs prev cur = Err) /\ forall r, ~ rounds chs prev cur (b :: r).
  Proof.
    intros Nf. unfold element_value in *.
    assert (N1 : channels_try call k chs prev cur <> Fuel) by (intros E; rewrite E in Nf; apply Nf; reflexivity).
    destruct (channels_try_cond k prev cur N1) as (ts & r & E & R). rewrite E. cbn [bind fst snd].
    destruct r as [|x r].
    - right. split; auto. intros r R'. pose proof (rounds_unique chs Hp _ _ _ R _ R') as X. discriminate.
    - destruct (Byte.eqb b x) eqn:Eb.
      + apply byte_eqb_true in Eb as <-. left. eauto.
      + right. split; auto. intros r' R'. pose proof (rounds_unique chs Hp _ _ _ R _ R') as X. injection X as -> ->.
        rewrite (proj2 (byte_eqb_true b b) eq_refl) in Eb. discriminate.
  Qed.

  Lemma rounds_nil prev r : rounds chs prev [] r -> r = [].
  Proof.
    assert (K : forall l p, incl l chs -> forall p' d', round l p [] p' d' -> d' = []).
    { induction l as [|c l IH]; intros p Inc p' d' H; inversion H; subst; auto.
      - exfalso. destruct c as [t cond]. destruct (Hp t cond (Inc _ (or_introl eq_refl))) as (P & _).
        match goal with H : takes _ _ _ _ |- _ => destruct H as ((fu & a & R) & _) end.
        assert (E := proj1 (recognised_peg t [] a rest P) (ex_intro _ fu R)). apply peg_of_shrinks in E. cbn in E. lia.
      - eapply IH; eauto. intros x Hx; apply Inc; now right. }
    intros H. remember (@nil byte) as d eqn:Ed. induction H as [|prev d prev' d' rest A N H IH]; auto. subst d.
    apply K in A; [|apply incl_refl]. subst d'. congruence.
  Qed.

  Lemma containers_cond k prev0 l : forall s es prev cur s' o,
    containers_run call k (vline l) s None chs false prev0 es prev cur = (s', o) -> o <> Fuel ->
    match o with
    | Ok (es', rem) => exists es1, es' = es ++ es1 /\ bytes_between chs (map snd l) prev cur rem /\ fits (vline l) es1 /\
        (es1 = [] -> l = [])
    | Err => forall rest, ~ bytes_between chs (map snd l) prev cur rest
    | _ => False
    end.
  Proof.
    induction l as [|[n b] l IH]; intros s es prev cur s' o E Nf; cbn [vline map containers_run fst snd] in *.
    - injection E as <- <-. exists []. rewrite app_nil_r. repeat split; auto; constructor.
    - fold (vline l) in *.
      assert (Z : forall r, bytes_between chs (b :: map snd l) prev cur r -> exists r1, rounds chs prev cur (b :: r1) /\ bytes_between chs (map snd l) cur r1 r).
      { intros r H. inversion H; subst. eauto. }
      destruct (repeat_run call k k (EValue n b) (Some 1%Z) s None chs false [] prev cur) as [s1 o1] eqn:Er.
      assert (X : o1 = Fuel \/ (o1 = Ok ([], prev, cur) /\ forall r, ~ rounds chs prev cur (b :: r)) \/
        exists ts r, o1 = Ok ([TValue b ts], cur, r) /\ rounds chs prev cur (b :: r)).
      { clear E. unfold repeat_run in Er. destruct cur as [|c0 cur0].
        { destruct k; injection Er as <- <-; right; left; split; auto; intros r R; apply rounds_nil in R; discriminate. }
        destruct k as [|k]; [cbn in Er; injection Er as <- <-; auto|].
        fold repeat_run in Er. cbn [zlen length Z.leb Z.of_nat Z.compare] in Er.
        change (1 <=? zlen (@nil tcontent))%Z with false in Er. cbv iota in Er. unfold element_run in Er.
        set (cur := c0 :: cur0) in *.
        assert (D : element_value call (S k) b chs prev cur = Fuel \/ element_value call (S k) b chs prev cur <> Fuel)
          by (destruct (element_value call (S k) b chs prev cur); [right|right|right|left]; auto; discriminate).
        destruct D as [D|D]; [rewrite D in Er; cbn in Er; injection Er as <- <-; auto|].
        destruct (value_cond (S k) b prev cur D) as [(ts & r & Ev & R)|(Ev & R)].
        - rewrite Ev in Er. cbn [bind stry app] in Er. right. right. exists ts, r. split; auto.
          destruct r as [|r0 r]; [destruct k; injection Er as <- <-; auto|].
          destruct k; cbn in Er; injection Er as <- <-; auto.
        - right. left. split; auto. destruct Ev as [Ev|Ev]; rewrite Ev in Er; cbn [bind stry] in Er; injection Er as <- <-; auto. }
      destruct X as [->|[(-> & X)|(ts & r & -> & X)]]; cbn [sbind] in E.
      + injection E as <- <-. congruence.
      + injection E as <- <-. intros rest H. apply Z in H as (r1 & H & _). eapply X; eauto.
      + change (zlen [TValue b ts] <? i64 1)%Z with false in E. cbv iota in E.
        specialize (IH _ _ _ _ _ _ E Nf). destruct o as [[es' rem]| | |]; auto.
        * destruct IH as (es1 & -> & B & F & _). exists (TElement (Some (CElement (EValue n b) 1 (Some 1%Z))) [TValue b ts] :: es1).
          rewrite <- app_assoc. split; auto. split; [econstructor; eauto|]. split; [|discriminate].
          apply fits_present; auto; try discriminate.
          intros m [= <-]. unfold zlen. cbn. lia.
        * intros rest H. apply Z in H as (r1 & H & H2). pose proof (rounds_unique chs Hp _ _ _ X _ H) as Y. injection Y as <-. eapply IH; eauto.
  Qed.
End Cond.

Lemma vline_compatible l : compatible (vline l).
Proof.
  intros e mi ma e' mi' ma' I I' _. unfold vline in *. apply in_map_iff in I as (x & [= <- <- <-] & _).
  apply in_map_iff in I' as (y & [= <- <- <-] & _). lia.
Qed.

Theorem conditional_line n l su chs d : l <> [] -> channels_peg chs -> no_escape (Grammar (Token n [vline l] su) chs) ->
  forall f, execute f (Grammar (Token n [vline l] su) chs) d <> Fuel -> forall rest,
  (exists t, execute f (Grammar (Token n [vline l] su) chs) d = Ok t /\ has_successful t = true /\ tr_remaining t = rest) <->
  exists r, bytes_between chs (map snd l) [] d r /\ rounds chs [] r rest.
Proof.
  intros Nl Hp Ne f Nf rest. destruct f as [|f]; [exfalso; apply Nf; reflexivity|].
  set (t := Token n [vline l] su) in *. unfold execute in *. cbn [token_run] in *. unfold token_step in *.
  change (t_lines t) with [vline l] in *. cbn [block_run] in *.
  replace (s_visited (s_enter [] t) (t_name t) 0 d) with false in *.
  2:{ unfold s_enter, s_visited. cbn [s_get]. rewrite s_get_set, bytes_eqb_refl. reflexivity. }
  destruct (line_run (token_run f) f (vline l) 0 (s_mark (s_enter [] t) t 0 d) None chs false [] d) as [s1 o1] eqn:El.
  unfold line_run in El.
  destruct (containers_run (token_run f) f (vline l) (s_mark (s_enter [] t) t 0 d) None chs false [] [] [] d) as [s2 o2] eqn:Ec.
  assert (N2 : o2 <> Fuel).
  { intros ->. cbn in El. injection El as <- <-. cbn in Nf. apply Nf. reflexivity. }
  pose proof (containers_cond f t chs Hp Ne f [] l _ _ _ _ _ _ Ec N2) as C.
  destruct o2 as [[es rem]| | |]; try contradiction; cbn [sbind] in El; injection El as <- <-; cbn [stry fst snd] in *.
  - destruct C as (es1 & -> & B & F & Z). cbn [app] in *.
    assert (Lk : line_ok (TLine 0 (vline l) false es1) = true).
    { apply fits_line_ok; auto using vline_compatible.
      intros c I. apply in_map_iff in I as (x & <- & _). exact Logic.I. }
    rewrite Lk in *. cbn [snd] in *.
    assert (N3 : channels_try (token_run f) f chs [] rem <> Fuel) by (intros E; rewrite E in Nf; apply Nf; reflexivity).
    destruct (channels_try_cond f t chs Hp Ne f [] rem N3) as (ts & r & E & R). rewrite E in *. cbn [bind fst snd] in *. split.
    + intros (x & [= <-] & _ & <-). cbn [tr_remaining]. eauto.
    + intros (r1 & B1 & R1). pose proof (between_unique chs Hp _ _ _ _ B _ B1) as <-.
      pose proof (rounds_unique chs Hp _ _ _ R _ R1) as <-. eexists. split; [reflexivity|]. split; auto.
      unfold has_successful. cbn [tr_block successful find]. rewrite Lk. reflexivity.
  - cbn [snd] in *. split.
    + intros (x & E & _). discriminate.
    + intros (r1 & B1 & _). exfalso. eapply C; eauto.
Qed.

(** ** Conditions that never fail *)
Lemma round_ext : forall l l', Forall2 (fun c c' => forall prev d rest, takes c prev d rest <-> takes c' prev d rest) l l' ->
  forall prev d p' d', round l prev d p' d' -> round l' prev d p' d'.
Proof.
  induction 1 as [|c c' l l' E F IH]; intros prev d p' d' R; inversion R; subst; [constructor| |].
  - eapply round_takes; [apply E; eassumption|]. apply IH; assumption.
  - apply round_passes; [|apply IH; assumption]. intros rest T. apply E in T. match goal with H : forall _, ~ _ |- _ => exact (H _ T) end.
Qed.
Lemma rounds_ext l l' : Forall2 (fun c c' => forall prev d rest, takes c prev d rest <-> takes c' prev d rest) l l' ->
  forall prev d rest, rounds l prev d rest -> rounds l' prev d rest.
Proof.
  intros F prev d rest R. induction R as [prev d prev' A|prev d prev' d' rest A N H IH].
  - eapply rounds_end. eapply round_ext; eauto.
  - eapply rounds_more; eauto. eapply round_ext; eauto.
Qed.
Lemma between_ext l l' : Forall2 (fun c c' => forall prev d rest, takes c prev d rest <-> takes c' prev d rest) l l' ->
  forall bs prev d rest, bytes_between l bs prev d rest -> bytes_between l' bs prev d rest.
Proof. intros F bs prev d rest B. induction B; econstructor; eauto using rounds_ext. Qed.

Lemma optional_tolerated n m b su d : tolerated (Token n [[CElement (EValue m b) 0 (Some 1%Z)]] su) d.
Proof.
  exists 3. unfold execute. cbn [token_run]. unfold token_step at 1. cbn [t_lines block_run].
  replace (s_visited (s_enter [] _) _ 0 d) with false.
  2:{ unfold s_enter, s_visited. cbn [s_get]. rewrite s_get_set, bytes_eqb_refl. reflexivity. }
  unfold line_run. cbn [containers_run repeat_run]. destruct d as [|x d].
  - cbn [sbind]. change (zlen (@nil tcontent) <? i64 0)%Z with false. cbn. eauto.
  - change (1 <=? zlen (@nil tcontent))%Z with false. cbn [element_run element_value channels_try bind snd fst].
    unfold element_value. cbn [channels_try bind snd fst]. destruct (Byte.eqb b x).
    + cbn [bind stry app]. destruct d as [|y d].
      * cbn [sbind]. change (zlen [TValue x []] <? i64 0)%Z with false. cbv iota. cbn [sbind stry containers_run app fst snd].
        destruct (line_ok _); cbn; eauto.
      * change (1 <=? zlen [TValue x []])%Z with true. cbn [sbind]. change (zlen [TValue x []] <? i64 0)%Z with false.
        cbv iota. cbn [sbind stry containers_run app fst snd]. destruct (line_ok _); cbn; eauto.
    + cbn [bind stry sbind]. change (zlen (@nil tcontent) <? i64 0)%Z with false. cbn. eauto.
Qed.

(** ** The end of the root *)
Lemma rounds_conditioned chs r rest :
  (forall t cond, In (Channel t cond) chs -> exists b a, cond = Some (Some b, a) /\ ~ tolerated b []) ->
  rounds chs [] r rest -> rest = r.
Proof.
  intros H. assert (K : forall l, incl l chs -> forall prev d p' d', prev = [] -> round l prev d p' d' -> p' = [] /\ d' = d).
  { induction l as [|c l IH]; intros Inc prev d p' d' -> R; inversion R; subst; auto.
    - exfalso. destruct c as [t cond]. destruct (H t cond (Inc _ (or_introl eq_refl))) as (b & a & -> & N).
      match goal with T : takes _ _ _ _ |- _ => destruct T as (_ & C & _) end. apply N. auto.
    - eapply IH; eauto. intros x Hx; apply Inc; now right. }
  intros R. inversion R as [|? ? p' d' ? A N]; subst; auto. exfalso. apply K in A; auto using incl_refl. destruct A as (_ & ->). congruence.
Qed.
