(** Property theorems for the assignments of the grammar of grammars (C175, C176). *)
From Coq Require Import List ZArith Lia Bool.
From Coq Require Strings.String.
Import String.StringSyntax.
From Coq Require Import Init.Byte Strings.Byte.
From Verif Require Import Base BaseLemmas AstModel SpecAst AstProofs AstTraceProofs AstFuelProofs AstListProofs SpecPeg AstPegProofs
  AstVisibleProofs GrammarModel SpecGrammar GrammarProofs GrammarVisibleProofs SpecAssign GrammarAssignProofs.
Import ListNotations.
Local Open Scope list_scope.

(** ** C175 *)
Theorem C175_other_assignments : forall su t B,
  In (t, B) [(compose_assignment su, compose_text); (everything_assignment su, everything_text);
             (token_assignment su, block_text); (external_assignment su, hash_text)] ->
  forall d, exists n, forall fuel, n <= fuel ->
  (forall a rest, recognises fuel (Grammar t (the_channels su)) d a rest ->
     exists w r, visible d (w ++ r) /\ assignment_text B w /\ leaves a = w /\ visible rest r) /\
  (forall w r, visible d (w ++ r) -> assignment_text B w ->
     exists a rest, recognises fuel (Grammar t (the_channels su)) d a rest /\ leaves a = w /\ visible rest r).
Proof.
  intros su t B I d.
  assert (K : peg_grammar (Grammar t (the_channels su)) /\ every_container value_or_token t /\
    (forall d r, rd (peg_token (peg_skip []) t) d r <-> exists w, assignment_text B w /\ d = w ++ r)).
  { destruct I as [[= <- <-]|[[= <- <-]|[[= <- <-]|[[= <- <-]|[]]]]];
      (split; [apply check_peg_ok; vm_compute; reflexivity|]; split; [apply check_values; vm_compute; reflexivity|]); apply rd_assignment.
    - apply rd_compose_fwd.
    - apply rd_compose_inv.
    - apply rd_everything_fwd.
    - apply rd_everything_inv.
    - apply rd_block_fwd.
    - apply rd_block_inv.
    - apply rd_hash_fwd.
    - apply rd_hash_inv. }
  destruct K as (K & V & R). destruct (reads su t d K V) as (n & H). exists n. intros f L. destruct (H f L) as (H1 & H2). split.
  - intros a rest Ra. destruct (H1 a rest Ra) as (v & r & Vv & E & Vr).
    destruct (proj1 (R v r)) as (w & W & Ev); [now exists a|]. exists w, r. subst v. split; auto. split; auto. split; auto.
    eapply text_of; [exact V|reflexivity|exact E].
  - intros w r Vv W. destruct (proj2 (R (w ++ r) r)) as (a & E); [eauto|]. destruct (H2 _ _ _ Vv E) as (rest & Rr & Vr).
    exists a, rest. split; auto. split; auto. eapply text_of; [exact V|reflexivity|exact E].
Qed.
Print Assumptions C175_other_assignments.

(** name = block: "a:b?c[2,]d|e---valid:f&g;invalid:h;;" is the text of an assignment of a block. *)
Example C175_ex : assignment_text block_text (text "a:b?c[2,]d|e---valid:f&g;invalid:h;;") /\
  assignment_text compose_text (text "a:b|12|3---invalid:h;;") /\ assignment_text everything_text (text "a:#b!c---valid:h;;") /\
  ~ assignment_text everything_text (text "a:#b!c;").
Proof.
  assert (N : forall b, In b (text "abcdefgh") -> name [b]).
  { intros b I. exists b, []. split; [reflexivity|]. split; [|constructor]. cbn in I.
    repeat (destruct I as [<-|I]; [split; vm_compute; discriminate|]). destruct I. }
  assert (D : forall b, In b (text "123") -> decimal b).
  { intros b I. cbn in I. repeat (destruct I as [<-|I]; [split; vm_compute; discriminate|]). destruct I. }
  assert (Cm : forall b, In b (text "abcdefgh") -> composes_text [x3a; b; x3b]).
  { intros b I. apply (Composes [b] []); auto. }
  refine (conj _ (conj _ (conj _ _))).
  - apply (Assignment block_text [x61] (text "b?c[2,]d|e") (text "---valid:f&g;invalid:h;")).
    + apply N. cbn; tauto.
    + refine (Block [text "b?"; text "c[2,]"; text "d"] (text "b?c[2,]d") [text "e"] _ _).
      * apply (line_more [x62] [[x3f]] [text "c[2,]"; text "d"] (text "c[2,]d")); [apply N; cbn; tauto| |discriminate|].
        { repeat constructor; cbn; auto. }
        apply (line_more [x63] [text "[2,]"] [text "d"] (text "d")); [apply N; cbn; tauto| |discriminate|].
        { constructor; [|constructor]. apply (card_range [x32] []); [split; [discriminate|]|]; repeat constructor; apply D; cbn; tauto. }
        apply (line_last [x64] []); [apply N; cbn; tauto|constructor].
      * constructor; [|constructor]. eexists. apply (line_last [x65] []); [apply N; cbn; tauto|constructor].
    + apply (suite_valid_invalid (text ":f&g;") (text ":h;")); [|apply Cm; cbn; tauto].
      apply (Composes [x66] [[x67]]); [|constructor; [|constructor]]; apply N; cbn; tauto.
  - apply (Assignment compose_text [x61] (text "b|12|3") (text "---invalid:h;")); [apply N; cbn; tauto| |].
    + apply (Compose [x62] [[x31; x32]; [x33]]); [apply N; cbn; tauto|].
      constructor; [|constructor; [|constructor]]; (split; [discriminate|]); repeat (constructor; [apply D; cbn; tauto|]); constructor.
    + apply (suite_only_invalid (text ":h;")). apply Cm; cbn; tauto.
  - apply (Assignment everything_text [x61] (text "#b!c") (text "---valid:h;")); [apply N; cbn; tauto| |].
    + apply (everything_escape [x62] [x63]); apply N; cbn; tauto.
    + apply (suite_only_valid (text ":h;")). apply Cm; cbn; tauto.
  - intros A. remember (text "a:#b!c;") as t eqn:E. destruct A as [n w s _ _ S].
    assert (I : In x2d (n ++ x3a :: w ++ s ++ [x3b])).
    { apply in_or_app. right. right. apply in_or_app. right. apply in_or_app. left. destruct S; left; reflexivity. }
    rewrite E in I. cbn in I. intuition discriminate.
Qed.

(** ** C176 *)
(** The guarantee one would expect, that a line can have two names in a row, fails: elements are separated by
    nothing, so that only the last element of a line can be without a cardinality. *)
Theorem C176_names_in_a_row_refuted : forall su d, exists n, forall fuel, n <= fuel ->
  (forall a rest, recognises fuel (Grammar (line_token su) (the_channels su)) d a rest ->
     exists xs w r, a = Node (text "line") 0 [(text "element", xs)] /\ visible d (w ++ r) /\ line_text (map leaves xs) w /\ visible rest r) /\
  (forall es w r, visible d (w ++ r) -> line_text es w -> stops r -> no_card r ->
     exists a rest, recognises fuel (Grammar (line_token su) (the_channels su)) d a rest /\ leaves a = w /\ visible rest r) /\
  (forall m1 m2 r, visible d (m1 ++ m2 ++ r) -> name m1 -> name m2 -> stops r -> no_card r ->
     exists x rest, recognises fuel (Grammar (line_token su) (the_channels su)) d (Node (text "line") 0 [(text "element", [x])]) rest /\
       leaves x = m1 ++ m2 /\ visible rest r).
Proof.
  intros su d. assert (K : peg_grammar (Grammar (line_token su) (the_channels su))) by (apply check_peg_ok; vm_compute; reflexivity).
  assert (V : every_container value_or_token (line_token su)) by (apply check_values; vm_compute; reflexivity).
  destruct (reads su _ d K V) as (n & H). exists n. intros f L. destruct (H f L) as (H1 & H2). refine (conj _ (conj _ _)).
  - intros a rest R. destruct (H1 a rest R) as (v & r & Vv & E & Vr). apply line_inv_tree in E as (xs & w & -> & Lt & ->). exists xs, w, r. auto.
  - intros es w r Vv Lt S N. destruct (rd_line_fwd su es w r Lt S N) as (a & E). destruct (H2 _ _ _ Vv E) as (rest & R & Vr).
    exists a, rest. split; auto. split; auto. eapply text_of; [exact V|reflexivity|exact E].
  - intros m1 m2 r Vv (c1 & k1 & -> & C1 & F1) (c2 & k2 & -> & C2 & F2) S N.
    assert (Nm : name (c1 :: k1 ++ c2 :: k2)).
    { exists c1, (k1 ++ c2 :: k2). split; auto. split; auto. apply Forall_app. split; auto. constructor; auto. now right. }
    rewrite app_assoc in Vv. cbn [app] in Vv. pose proof (line_last _ [] Nm (Forall_nil _)) as Lt. cbn [concat] in Lt. rewrite app_nil_r in Lt.
    destruct (rd_line_fwd su _ _ r Lt S N) as (a & E). destruct (H2 _ _ _ Vv E) as (rest & R & Vr).
    apply line_inv_tree in E as E'. destruct E' as (xs & w & -> & Lw & Ew).
    assert (La : leaves (Node (text "line") 0 [(text "element", xs)]) = c1 :: k1 ++ c2 :: k2) by (eapply text_of; [exact V| |exact E]; reflexivity).
    apply app_inv_tail in Ew. subst w.
    assert (Xs : exists x, xs = [x]).
    { destruct xs as [|x [|y ys]]; [inversion Lw|now exists x|exfalso]. cbn [map] in Lw. inversion Lw as [|p cs es w Np Fc Nc Ll Ep Ew]; subst.
      destruct cs as [|c cs]; [congruence|]. inversion Fc as [|? ? Ct]; subst. apply (card_first su) in Ct as (z & q & -> & I).
      assert (Fl : Forall letter (c1 :: k1 ++ c2 :: k2)).
      { constructor; [now right|]. apply Forall_app. split; auto. constructor; auto. now right. }
      rewrite <- Ew, Forall_app in Fl. destruct Fl as (_ & Fl). cbn in Fl. inversion Fl as [|? ? Lz]; subst. revert Lz. apply letter_not.
      cbn in I. repeat (destruct I as [<-|I]; [reflexivity|]). destruct I. }
    destruct Xs as (x & ->). exists x, rest. split; auto. split; auto. cbn in La. now rewrite !app_nil_r in La.
Qed.
Print Assumptions C176_names_in_a_row_refuted.

(** "ab cd;" is read as the one element "abcd". *)
Example C176_ex : visible (text "ab cd;") (text "ab" ++ text "cd" ++ text ";") /\ name (text "ab") /\ name (text "cd") /\ stops (text ";") /\
  no_card (text ";").
Proof.
  assert (N : forall a b, In a (text "ac") -> In b (text "bd") -> name [a; b]).
  { intros a b I J. exists a, [b]. split; [reflexivity|]. cbn in I, J.
    split; [|constructor; [right|constructor]]; repeat (destruct I as [<-|I]; [repeat (destruct J as [<-|J]; [split; vm_compute; discriminate|]); destruct J|]); destruct I. }
  refine (conj _ (conj _ (conj _ (conj _ _)))).
  - apply (seen_visible (fun _ => [])). cbn [app text]. repeat (eapply seen_byte; [vm_compute; reflexivity|]). apply seen_end. vm_compute. reflexivity.
  - apply N; cbn; tauto.
  - apply N; cbn; tauto.
  - apply stops_sign. reflexivity.
  - clear N. apply no_card_first; [exact (fun _ => [])|]. cbn. intuition discriminate.
Qed.
