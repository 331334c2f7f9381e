(** The channels of the grammar of grammars skip blanks and comments. *)
From Coq Require Import List ZArith Lia Bool.
From Coq Require Strings.String.
Import String.StringSyntax.
From Coq Require Import Init.Byte Strings.Byte.
From Verif Require Import Base BaseLemmas AstModel SpecAst AstProofs AstTraceProofs AstFuelProofs AstListProofs SpecPeg AstPegProofs
  AstVisibleProofs GrammarModel SpecGrammar GrammarProofs.
Import ListNotations.
Local Open Scope list_scope.

(** ** Comments *)
Definition ends (r : bytes) : Prop := r = [] \/ exists r', r = x0a :: r'.
Lemma split_unique w : forall w' r r', w ++ r = w' ++ r' -> ~ In x0a w -> ~ In x0a w' -> ends r -> ends r' -> w = w' /\ r = r'.
Proof.
  induction w as [|x w IH]; intros [|y w'] r r' E N N' F F'; cbn in E; auto.
  - exfalso. subst r. destruct F as [Fa|(z & Fa)]; [discriminate|]. injection Fa as -> _. apply N'. now left.
  - exfalso. subst r'. destruct F' as [Fa|(z & Fa)]; [discriminate|]. injection Fa as -> _. apply N. now left.
  - injection E as <- E. destruct (IH w' r r' E) as (-> & ->); auto; intros I; [apply N|apply N']; now right.
Qed.
Lemma comment_unique d r : comment d r -> forall r', comment d r' -> r = r'.
Proof.
  intros [w r1 Nw I F] r' K. inversion K as [w' r2 Nw' I' F' E]; subst. apply split_unique in E as (_ & ->); auto.
Qed.
Lemma visible_unique d v : visible d v -> forall v', visible d v' -> v = v'.
Proof.
  assert (D : forall b d r, blank b -> ~ comment (b :: d) r).
  { intros b d0 r B K. inversion K; subst. destruct B as [B|[B|[B|B]]]; discriminate. }
  induction 1 as [|b d v B V IH|d r v K V IH|b d v Nb Nk V IH]; intros v' V'.
  - inversion V' as [|?|? ? ? K|?]; subst; auto. inversion K.
  - inversion V' as [|? ? ? B' V2|? ? ? K V2|? ? ? Nb Nk V2]; subst; auto; [destruct (D _ _ _ B K)|contradiction].
  - inversion V' as [|? ? ? B' V2|? r' ? K' V2|? ? ? Nb Nk V2]; subst.
    + inversion K.
    + destruct (D _ _ _ B' K).
    + rewrite (comment_unique _ _ K _ K') in *. auto.
    + destruct (Nk _ K).
  - inversion V' as [|? ? ? B' V2|? r' ? K' V2|? ? ? Nb' Nk' V2]; subst; [contradiction|destruct (Nk _ K')|]. f_equal. auto.
Qed.

Lemma before_line d w r : before (plain_line [from_value x0a]) d = (w, r) -> d = w ++ r /\ ~ In x0a w /\ ends r.
Proof.
  revert w r. induction d as [|x d IH]; intros w r E; cbn [before] in E.
  - injection E as <- <-. repeat split; auto. now left.
  - rewrite single_line in E. destruct (Byte.eqb x0a x) eqn:Ex.
    + apply byte_eqb_true in Ex as <-. injection E as <- <-. repeat split; auto. right. eauto.
    + destruct (before _ d) as [w' r']. injection E as <- <-. destruct (IH w' r' eq_refl) as (-> & N & F). repeat split; auto.
      intros [->|I]; auto. rewrite byte_eqb_refl in Ex. discriminate.
Qed.

Section Channels.
Variable su : bytes -> list suite.

Lemma everything_eq d :
  C (from_everything "everythingExceptEndOfLine" (end_of_line su)) d =
  match before (plain_line [from_value x0a]) d with
  | ([], _) => None
  | (w, r) => Some ([Node (str "endOfLineSpaces") 0 [([], map Leaf w)]], r)
  end.
Proof.
  change (C (from_everything "everythingExceptEndOfLine" (end_of_line su)))
    with (peg_times (peg_content (peg_skip []) (EEverything (str "everythingExceptEndOfLine") (end_of_line su) None)) 1 (Some 1%Z)).
  rewrite times_once by (apply peg_content_nil, lessens_id).
  change (peg_content (peg_skip []) (EEverything (str "everythingExceptEndOfLine") (end_of_line su) None) d)
    with (match peg_until (plain_line [from_value x0a]) d with
          | Some (w, r) => Some (Node (str "endOfLineSpaces") 0 [([], w)], r) | None => None end).
  unfold peg_until. destruct (before _ d) as [[|x w] r]; reflexivity.
Qed.
Lemma slashes_fwd d : exists a, P (all su "doubleSlash" "//") (x2f :: x2f :: d) = Some (a, d).
Proof.
  eexists. apply P_here; [|cbn; lia]. eapply line_cons; [apply value_fwd|]. eapply line_cons; [apply value_fwd|]. apply line_nil.
Qed.
Lemma slashes_inv d a r : P (all su "doubleSlash" "//") d = Some (a, r) -> d = x2f :: x2f :: r.
Proof.
  intros E. apply P_single in E as (es & -> & E & _).
  apply line_inv in E as (ys & d2 & es2 & E2 & E & _). apply value_inv in E2 as (-> & _).
  apply line_inv in E as (xs & d1 & es1 & E1 & E & _). apply value_inv in E1 as (-> & _). rewrite line_nil in E. now injection E as _ ->.
Qed.
Lemma comment_peg d r : (exists a, P (comment_token su) d = Some (a, r)) <-> comment d r.
Proof.
  split.
  - intros (a & E). apply P_single in E as (es & -> & E & _).
    apply line_inv in E as (ys & d2 & es2 & E2 & E & _). apply once_inv in E2 as (b & _ & E2). apply slashes_inv in E2 as ->.
    apply line_inv in E as (xs & d1 & es1 & E1 & E & _). rewrite everything_eq in E1.
    destruct (before _ d2) as [w q] eqn:B. apply before_line in B as (-> & N & F). destruct w as [|x w]; [discriminate|].
    injection E1 as _ <-. rewrite line_nil in E. injection E as _ ->. constructor; auto. discriminate.
  - intros [w r' Nw N F]. destruct (slashes_fwd (w ++ r')) as (a & E).
    destruct (before (plain_line [from_value x0a]) (w ++ r')) as [w1 r1] eqn:B. apply before_line in B as E1. destruct E1 as (E1 & N1 & F1).
    apply split_unique in E1 as (<- & <-); auto. destruct w as [|x w]; [congruence|]. eexists. apply P_here; [|cbn; rewrite app_length; lia].
    eapply line_cons; [apply once_fwd; exact E|]. eapply line_cons; [rewrite everything_eq, B; reflexivity|]. apply line_nil.
Qed.
Lemma blank_peg n b d r : (exists a, P (Token n [[from_value b]] []) d = Some (a, r)) <-> d = b :: r.
Proof.
  split.
  - intros (a & E). apply P_single in E as (es & -> & E & _).
    apply line_inv in E as (ys & d2 & es2 & E2 & E & _). apply value_inv in E2 as (-> & _). rewrite line_nil in E. now injection E as _ ->.
  - intros ->. eexists. apply P_here; [|cbn; lia]. eapply line_cons; [apply value_fwd|]. apply line_nil.
Qed.

(** ** Skipping *)
Definition takes (d r : bytes) : Prop := (exists b, blank b /\ d = b :: r) \/ comment d r.
Notation ps := (map (fun c => let 'Channel t _ := c in P t) (the_channels su)).
Lemma takes_iff d r : (exists p a, In p ps /\ p d = Some (a, r)) <-> takes d r.
Proof.
  split.
  - intros (p & a & I & E). destruct I as [<-|[<-|[<-|[<-|[<-|[]]]]]].
    + left. exists x20. split; [unfold blank; auto|]. apply (blank_peg (str "space") x20 d r). exists a. exact E.
    + left. exists x09. split; [unfold blank; auto|]. apply (blank_peg (str "tab") x09 d r). exists a. exact E.
    + left. exists x0a. split; [unfold blank; auto|]. apply (blank_peg (str "newLine") x0a d r). exists a. exact E.
    + left. exists x0d. split; [unfold blank; auto|]. apply (blank_peg (str "retChar") x0d d r). exists a. exact E.
    + right. apply comment_peg. exists a. exact E.
  - intros [(b & B & ->)|K].
    + destruct B as [->|[->|[->| ->]]].
      * destruct (proj2 (blank_peg (str "space") x20 (x20 :: r) r) eq_refl) as (a & E). eexists _, a. split; [left; reflexivity|exact E].
      * destruct (proj2 (blank_peg (str "tab") x09 (x09 :: r) r) eq_refl) as (a & E). eexists _, a. split; [right; left; reflexivity|exact E].
      * destruct (proj2 (blank_peg (str "newLine") x0a (x0a :: r) r) eq_refl) as (a & E). eexists _, a. split; [do 2 right; left; reflexivity|exact E].
      * destruct (proj2 (blank_peg (str "retChar") x0d (x0d :: r) r) eq_refl) as (a & E). eexists _, a. split; [do 3 right; left; reflexivity|exact E].
    + apply comment_peg in K as (a & E). eexists _, a. split; [do 4 right; left; reflexivity|exact E].
Qed.
Inductive skips : bytes -> bytes -> Prop :=
| skips_none d : skips d d
| skips_step d d1 r : takes d d1 -> skips d1 r -> skips d r.
Lemma skips_trans d d1 r : skips d d1 -> skips d1 r -> skips d r.
Proof. induction 1; auto. intros S. econstructor; eauto. Qed.
Lemma round_skips d : skips d (peg_round ps d).
Proof.
  unfold peg_round. assert (A : forall l d, incl l ps -> skips d (fold_left (fun d p => match p d with Some (_, d') => d' | None => d end) l d)).
  { induction l as [|p l IH]; intros x I; cbn [fold_left]; [constructor|]. destruct (p x) as [[a r]|] eqn:E.
    - apply skips_step with r; [apply takes_iff; exists p, a; split; auto; apply I; now left|]. apply IH. intros q Q. apply I. now right.
    - apply IH. intros q Q. apply I. now right. }
  apply A, incl_refl.
Qed.
Lemma skipper_skips d : skips d (skipper (the_channels su) d).
Proof.
  unfold skipper, peg_skip. generalize (length d) as n. intros n. induction n as [|n IH]; [constructor|].
  cbn [Nat.iter]. eapply skips_trans; [exact IH|]. apply round_skips.
Qed.
Lemma round_fixed (l : list (peg ast)) : Forall (fun p : peg ast => forall d a d', p d = Some (a, d') -> length d' < length d) l ->
  forall d, peg_round l d = d -> forall p, In p l -> p d = None.
Proof.
  induction 1 as [|q l Hq F IH]; intros d E p I; [destruct I|]. unfold peg_round in E. cbn [fold_left] in E.
  destruct (q d) as [[a d1]|] eqn:Q.
  - exfalso. apply Hq in Q. destruct (round_shrinks l F d1) as [E1|E1]; unfold peg_round in E1; rewrite E in E1; [rewrite E1 in Q|]; lia.
  - destruct I as [<-|I]; auto.
Qed.
Lemma skipper_fixed d r : ~ takes (skipper (the_channels su) d) r.
Proof.
  intros T. apply takes_iff in T as (p & a & I & E).
  assert (S : peg_round ps (skipper (the_channels su) d) = skipper (the_channels su) d).
  { unfold skipper, peg_skip. apply iter_stable; auto. apply round_shrinks, channel_pegs_shrink. }
  rewrite (round_fixed ps (channel_pegs_shrink _) _ S p I) in E. discriminate.
Qed.

Lemma skips_visible d r v : skips d r -> visible r v -> visible d v.
Proof.
  induction 1 as [|d d1 r T S IH]; auto. intros V. destruct T as [(b & B & ->)|K]; [apply visible_blank; auto|].
  apply visible_comment with d1; auto.
Qed.
Lemma seen_visible d v : seen (the_channels su) d v -> visible d v.
Proof.
  induction 1 as [d E|d b r v E S IH]; unfold skipped in E; fold (skipper (the_channels su)) in E; apply skips_visible with (skipper (the_channels su) d); try apply skipper_skips.
  - rewrite E. constructor.
  - pose proof (skipper_fixed d) as N. rewrite E in *. apply visible_byte; auto.
    + intros B. apply (N r). left. eauto.
    + intros r' K. apply (N r'). now right.
Qed.
Lemma visible_seen d v : visible d v <-> seen (the_channels su) d v.
Proof.
  split; [|apply seen_visible]. intros V. destruct (seen_total (the_channels su) d) as (v' & S).
  rewrite (visible_unique _ _ V _ (seen_visible _ _ S)). exact S.
Qed.

(** ** Reading through the channels *)
Lemma plain_root root chs : peg_grammar (Grammar root chs) -> peg_grammar (Grammar root []).
Proof.
  intros K r cs U. destruct (uses_nil _ chs _ U) as [U'|E]; [exact (K _ _ U')|]. injection E as -> ->.
  split; [exact (proj1 (K root chs (uses_refl _)))|]. intros ? ? [].
Qed.
Lemma reads t d : peg_grammar (Grammar t (the_channels su)) -> every_container value_or_token t ->
  exists n, forall fuel, n <= fuel ->
  (forall a rest, recognises fuel (Grammar t (the_channels su)) d a rest ->
     exists v r, visible d v /\ P t v = Some (a, r) /\ visible rest r) /\
  (forall v a r, visible d v -> P t v = Some (a, r) ->
     exists rest, recognises fuel (Grammar t (the_channels su)) d a rest /\ visible rest r).
Proof.
  intros K V. destruct (peg_recognises _ d K) as (n & Hn). exists n. intros f L. specialize (Hn f L).
  assert (A : forall v, visible d v -> match P t v with
    | Some (a, r) => exists rest, recognises f (Grammar t (the_channels su)) d a rest /\ visible rest r
    | None => forall a rest, ~ recognises f (Grammar t (the_channels su)) d a rest end).
  { intros v Vv. apply visible_seen in Vv. pose proof (peg_of_seen t _ d v V Vv) as Q. rewrite peg_of_eq, skipper_nil in Q.
    destruct (P t v) as [[a r]|].
    - destruct Q as (rest & E & S & _). exists rest. split; [now apply Hn|]. now apply visible_seen.
    - intros a rest R. apply Hn in R. congruence. }
  split.
  - intros a rest R. destruct (seen_total (the_channels su) d) as (v & S). apply visible_seen in S. specialize (A v S).
    destruct (P t v) as [[a' r]|] eqn:E; [|destruct (A _ _ R)]. destruct A as (rest' & R' & Vr).
    apply Hn in R. apply Hn in R'. rewrite R in R'. injection R' as -> ->. exists v, r. auto.
  - intros v a r Vv E. specialize (A v Vv). now rewrite E in A.
Qed.
Lemma rest_nil t d a rest fuel : peg_grammar (Grammar t (the_channels su)) -> recognises fuel (Grammar t (the_channels su)) d a rest ->
  visible rest [] -> rest = [].
Proof.
  intros K R V. apply visible_seen in V.
  destruct (peg_recognises _ d K) as (n & Hn).
  assert (E : peg_of (Grammar t (the_channels su)) d = Some (a, rest)).
  { destruct R as (x & E & Hs & <- & <-). pose proof (execute_peg fuel _ d K ltac:(rewrite E; discriminate)) as A. rewrite E in A. cbn in A. now rewrite Hs in A. }
  rewrite peg_of_eq, peg_token_eq in E. destruct (peg_first _ _ d) as [[[i es] r]|]; [|discriminate]. injection E as _ <-.
  inversion V as [? E|]; subst. unfold skipped in E. fold (skipper (the_channels su)) in E. now rewrite skipper_stable in E.
Qed.
End Channels.
