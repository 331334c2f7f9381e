(** What the tokens of the grammar of grammars read that are used in assignments. *)
From Coq Require Import List ZArith Lia Bool.
From Coq Require Strings.String.
Import String.StringSyntax.
From Coq Require Import Init.Byte Strings.Byte.
From Verif Require Import Base BaseLemmas AstModel SpecAst AstProofs AstTraceProofs AstFuelProofs AstListProofs SpecPeg AstPegProofs
  AstVisibleProofs GrammarModel SpecGrammar GrammarProofs SpecAssign.
Import ListNotations.
Local Open Scope list_scope.

(** ** Reading without the tree *)
Definition rd {A} (p : peg A) (d r : bytes) : Prop := exists a, p d = Some (a, r).
Definition stuck {A} (p : peg A) (d : bytes) : Prop := forall r, ~ rd p d r.

Lemma stuck_none {A} (p : peg A) d : stuck p d <-> p d = None.
Proof.
  unfold stuck, rd. split.
  - intros H. destruct (p d) as [[a r]|]; auto. destruct (H r). eauto.
  - intros E r (a & F). congruence.
Qed.
Lemma rd_once t d r : rd (C (once t)) d r <-> rd (P t) d r.
Proof.
  split.
  - intros (xs & E). apply once_inv in E as (a & _ & E). now exists a.
  - intros (a & E). exists [a]. now apply once_fwd.
Qed.
Lemma rd_value b d r : rd (C (from_value b)) d r <-> d = b :: r.
Proof.
  split.
  - intros (xs & E). now apply value_inv in E as (-> & _).
  - intros ->. eexists. apply value_fwd.
Qed.
Lemma rd_nil d r : rd (plain_line []) d r <-> d = r.
Proof. split; [intros (a & E); rewrite line_nil in E; congruence|intros ->; eexists; apply line_nil]. Qed.
Lemma rd_cons c l d r : rd (plain_line (c :: l)) d r <-> exists d1, rd (C c) d d1 /\ rd (plain_line l) d1 r.
Proof.
  split.
  - intros (es & E). apply line_inv in E as (xs & d1 & es' & E1 & E & _). exists d1. split; eexists; eassumption.
  - intros (d1 & (xs & E1) & (es & E)). eexists. eapply line_cons; eassumption.
Qed.
Lemma rd_optional t d r : rd (C (optional t)) d r <-> rd (P t) d r \/ (stuck (P t) d /\ r = d).
Proof.
  rewrite stuck_none. unfold rd. rewrite optional_eq. destruct (P t d) as [[a q]|].
  - split; [intros (xs & [= _ <-]); left; eauto|]. intros [(b & [= _ <-])|(E & _)]; [eauto|discriminate].
  - split; [intros (xs & [= _ <-]); auto|]. intros [(b & E)|(_ & ->)]; [discriminate|eauto].
Qed.

Inductive star (q : bytes -> bytes -> Prop) : bytes -> bytes -> Prop :=
| star_nil d : (forall r, ~ q d r) -> star q d d
| star_cons d d1 r : q d d1 -> star q d1 r -> star q d r.
Lemma reps_star {A} (p : peg A) d r : (exists xs, reps p xs d r) <-> star (rd p) d r.
Proof.
  split.
  - intros (xs & R). induction R as [d E|x xs d d1 r E R IH]; [constructor; now apply stuck_none|].
    econstructor; [|exact IH]. now exists x.
  - induction 1 as [d N|d d1 r (a & E) S (xs & R)]; [exists []; constructor; now apply stuck_none|].
    exists (a :: xs). econstructor; eauto.
Qed.
Lemma rd_many t d r : rd (C (many t)) d r <-> star (rd (P t)) d r.
Proof.
  rewrite <- reps_star. split; intros (xs & E); exists xs; now apply many_iff.
Qed.
Lemma rd_some t d r : rd (C (some t)) d r <-> exists d1, rd (P t) d d1 /\ star (rd (P t)) d1 r.
Proof.
  split.
  - intros (xs & E). apply some_iff in E as (R & N). inversion R as [|x ys ? d1 ? E' R']; subst; [congruence|].
    exists d1. split; [now exists x|]. apply reps_star. eauto.
  - intros (d1 & (a & E) & S). apply reps_star in S as (xs & R). exists (a :: xs). apply some_iff. split; [econstructor; eauto|discriminate].
Qed.

Lemma rd_tok n l s d r : length r < length d -> rd (plain_line l) d r -> rd (P (Token n [l] s)) d r.
Proof. intros L (es & E). eexists. apply P_here; eassumption. Qed.
Lemma rd_tok_inv n l s d r : rd (P (Token n [l] s)) d r -> rd (plain_line l) d r.
Proof. intros (a & E). apply P_single in E as (es & _ & E & _). now exists es. Qed.
Lemma rd_toks_inv n ls s d r : rd (P (Token n ls s)) d r -> exists l, In l ls /\ rd (plain_line l) d r.
Proof. intros (a & E). apply P_inv in E as (l & i & es & I & _ & E & _). exists l. split; auto. now exists es. Qed.
(** The first line that is not stuck. *)
Lemma rd_toks n before l after s d r : (forall k, In k before -> stuck (plain_line k) d) ->
  rd (plain_line l) d r -> length r < length d -> rd (P (Token n (before ++ l :: after) s)) d r.
Proof.
  intros N (es & E) L. enough (A : forall i, exists j, peg_first i (map plain_line (before ++ l :: after)) d = Some (j, es, r)).
  { destruct (A 0) as (j & J). eexists. rewrite P_eq, J. reflexivity. }
  induction before as [|k before IH]; intros i; cbn [app map].
  - exists i. now apply first_here.
  - rewrite first_later; [|apply stuck_none, N; now left]. apply IH. intros k' I. apply N. now right.
Qed.

(** ** Runs of bytes of one kind *)
Definition ends (K : byte -> Prop) (d : bytes) : Prop := match d with x :: _ => ~ K x | [] => True end.
Lemma span_unique (K : byte -> Prop) a : forall b r q, Forall K a -> Forall K b -> ends K r -> ends K q ->
  a ++ r = b ++ q -> a = b /\ r = q.
Proof.
  induction a as [|x a IH]; intros [|y b] r q Fa Fb Er Eq E; cbn in E; auto.
  - subst r. inversion Fb; subst. contradiction.
  - subst q. inversion Fa; subst. contradiction.
  - injection E as -> E. inversion Fa; inversion Fb; subst. destruct (IH b r q) as (-> & ->); auto.
Qed.

Section Su.
Variable su : bytes -> list suite.

Lemma rd_number d r : rd (P (any_number su)) d r <-> exists x, decimal x /\ d = x :: r.
Proof.
  split.
  - intros (a & E). apply number_inv in E as (x & -> & D & _). eauto.
  - intros (x & D & ->). destruct (number_fwd su x r D) as (a & E & _). now exists a.
Qed.
Lemma rd_decimals d r : star (rd (P (any_number su))) d r <-> exists ds, Forall decimal ds /\ d = ds ++ r /\ ends decimal r.
Proof.
  split.
  - induction 1 as [d N|d d1 r E S (ds & F & -> & En)].
    + exists []. split; auto. split; auto. destruct d as [|x d]; cbn; auto. intros D. apply (N d). apply rd_number. eauto.
    + apply rd_number in E as (x & D & ->). exists (x :: ds). auto.
  - intros (ds & F & -> & En). induction F as [|x ds D F IH]; cbn [app].
    + constructor. intros q E. apply rd_number in E as (x & D & ->). contradiction.
    + econstructor; [|exact IH]. apply rd_number. eauto.
Qed.
Lemma rd_digits d r : rd (C (some (any_number su))) d r <-> exists ds, digits ds /\ d = ds ++ r /\ ends decimal r.
Proof.
  rewrite rd_some. split.
  - intros (d1 & E & S). apply rd_number in E as (x & D & ->). apply rd_decimals in S as (ds & F & -> & En).
    exists (x :: ds). split; [split; [discriminate|auto]|auto].
  - intros (ds & (N & F) & -> & En). destruct ds as [|x ds]; [congruence|]. inversion F; subst. exists (ds ++ r). split.
    + apply rd_number. eauto.
    + apply rd_decimals. eauto.
Qed.
Lemma rd_name d r : rd (P (variable_name su)) d r <-> exists n, name n /\ d = n ++ r /\ stops r.
Proof.
  split.
  - intros (a & E). apply name_inv in E as (n & -> & N & S & _). eauto.
  - intros (n & N & -> & S). destruct (name_fwd su n r N S) as (a & E & _). now exists a.
Qed.

Ltac inv_line := repeat match goal with
  | H : rd (plain_line (_ :: _)) _ _ |- _ => apply rd_cons in H as (? & ? & H)
  | H : rd (plain_line []) _ _ |- _ => apply rd_nil in H; subst
  | H : rd (C (sign _)) _ _ |- _ => apply rd_value in H; subst
  | H : rd (C (from_value _)) _ _ |- _ => apply rd_value in H; subst
  | H : rd (C (some (any_number su))) _ _ |- _ => apply rd_digits in H as (? & ? & ? & ?); subst
  | H : rd (C (many (any_number su))) _ _ |- _ => apply rd_many, rd_decimals in H as (? & ? & ? & ?); subst
  | H : rd (C (once (variable_name su))) _ _ |- _ => apply rd_once, rd_name in H as (? & ? & ? & ?); subst
  end.
Ltac len := cbn [app]; repeat first [rewrite app_length | progress cbn [length]]; lia.

Lemma decimal_not x : existsb (Byte.eqb x) [x2c; x5d; x7c; x2d] = true -> ~ decimal x.
Proof. intros E (A & B); destruct x; try discriminate E; vm_compute in A, B; congruence. Qed.
Lemma letter_not x : existsb (Byte.eqb x) [x2a; x2b; x3f; x5b; x7c; x2d; x21; x26; x3b; x3a] = true -> ~ letter x.
Proof. intros E [(A & B)|(A & B)]; destruct x; try discriminate E; vm_compute in A, B; congruence. Qed.

(** ** Cardinalities *)
Lemma rd_cardinality d r : rd (P (cardinality_token su)) d r <-> exists c, cardinality_text c /\ d = c ++ r.
Proof.
  split.
  - intros E. apply rd_toks_inv in E as (l & I & E). destruct I as [<-|[<-|[<-|[<-|[<-|[]]]]]]; inv_line.
    + exists [x3f]. split; [constructor; cbn; auto|reflexivity].
    + exists [x2b]. split; [constructor; cbn; auto|reflexivity].
    + exists [x2a]. split; [constructor; cbn; auto|reflexivity].
    + match goal with H : digits ?ds |- _ => exists (x5b :: ds ++ [x5d]); split; [now constructor|] end.
      cbn. now rewrite <- app_assoc.
    + match goal with H : digits ?ds, G : Forall decimal ?es |- _ => exists (x5b :: ds ++ x2c :: es ++ [x5d]); split; [now constructor|] end.
      cbn. rewrite <- app_assoc. cbn. now rewrite <- app_assoc.
  - intros (c & Ct & ->). destruct Ct as [b I|ds D|ds es D F].
    + destruct I as [<-|[<-|[<-|[]]]]; cbn [app].
      * apply (rd_toks _ []); [intros k []| |len]. apply rd_cons. eexists. split; [now apply rd_value|now apply rd_nil].
      * eapply (rd_toks _ [_]); [| |len]; [|apply rd_cons; eexists; split; [now apply rd_value|now apply rd_nil]].
        intros k [<-|[]] q E. inv_line. discriminate.
      * eapply (rd_toks _ [_; _]); [| |len]; [|apply rd_cons; eexists; split; [now apply rd_value|now apply rd_nil]].
        intros k [<-|[<-|[]]] q E; inv_line; discriminate.
    + cbn [app]. rewrite <- app_assoc. cbn [app].
      eapply (rd_toks _ [_; _; _]); [| |len].
      * intros k [<-|[<-|[<-|[]]]] q E; inv_line; discriminate.
      * apply rd_cons. eexists. split; [now apply rd_value|]. apply rd_cons. exists (x5d :: r). split.
        { apply rd_digits. exists ds. repeat split; auto; try apply D. now apply decimal_not. }
        apply rd_cons. eexists. split; [now apply rd_value|now apply rd_nil].
    + cbn [app]. rewrite <- app_assoc. cbn [app]. rewrite <- app_assoc. cbn [app].
      eapply (rd_toks _ [_; _; _; _] _ []); [| |len].
      * intros k [<-|[<-|[<-|[<-|[]]]]] q E; [inv_line; discriminate..|].
        apply rd_cons in E as (d1 & E1 & E). apply rd_value in E1. injection E1 as <-.
        apply rd_cons in E as (d2 & E1 & E). apply rd_digits in E1 as (ds' & D' & E1 & N1).
        destruct (span_unique decimal ds ds' (x2c :: es ++ x5d :: r) d2) as (_ & <-); auto; [apply D|apply D'|now apply decimal_not|].
        inv_line. discriminate.
      * apply rd_cons. eexists. split; [now apply rd_value|]. apply rd_cons. exists (x2c :: es ++ x5d :: r). split.
        { apply rd_digits. exists ds. repeat split; auto; try apply D. now apply decimal_not. }
        apply rd_cons. eexists. split; [now apply rd_value|]. apply rd_cons. exists (x5d :: r). split.
        { apply rd_many, rd_decimals. exists es. repeat split; auto. now apply decimal_not. }
        apply rd_cons. eexists. split; [now apply rd_value|now apply rd_nil].
Qed.
Lemma card_first c : cardinality_text c -> exists x q, c = x :: q /\ In x [x3f; x2b; x2a; x5b].
Proof. intros [b I|ds D|ds es D F]; eexists _, _; (split; [reflexivity|]); cbn in *; intuition auto. Qed.
Lemma no_card_first x q : ~ In x [x3f; x2b; x2a; x5b] -> no_card (x :: q).
Proof. intros N c q' Ct E. apply card_first in Ct as (y & c' & -> & I). cbn in E. injection E as <- _. contradiction. Qed.
Lemma rd_cards d r : star (rd (P (cardinality_token su))) d r <-> exists cs, Forall cardinality_text cs /\ d = concat cs ++ r /\ no_card r.
Proof.
  split.
  - induction 1 as [d N|d d1 r E S (cs & F & -> & Nc)].
    + exists []. split; auto. split; auto. intros c q Ct ->. apply (N q). apply rd_cardinality. eauto.
    + apply rd_cardinality in E as (c & Ct & ->). exists (c :: cs). split; auto. split; auto. cbn. now rewrite <- app_assoc.
  - intros (cs & F & -> & N). induction F as [|c cs Ct F IH]; cbn [concat app].
    + constructor. intros q E. apply rd_cardinality in E as (c & Ct & ->). now apply (N c q).
    + rewrite <- app_assoc. econstructor; [|exact IH]. apply rd_cardinality. eauto.
Qed.

(** ** Elements, lines and blocks *)
Lemma rd_element d r : rd (P (element_token su)) d r <-> exists n cs, name n /\ Forall cardinality_text cs /\
  d = n ++ concat cs ++ r /\ stops (concat cs ++ r) /\ no_card r.
Proof.
  split.
  - intros E. apply rd_tok_inv in E. apply rd_cons in E as (d1 & E1 & E). apply rd_cons in E as (d2 & E2 & E). apply rd_nil in E. subst d2.
    apply rd_once, rd_name in E1 as (n & N & -> & S). apply rd_many, rd_cards in E2 as (cs & F & -> & Nc). exists n, cs. auto.
  - intros (n & cs & N & F & -> & S & Nc). apply rd_tok; [destruct N as (c & k & -> & _); len|].
    apply rd_cons. eexists. split; [apply rd_once, rd_name; eauto|]. apply rd_cons. eexists. split; [apply rd_many, rd_cards; eauto|]. now apply rd_nil.
Qed.
Lemma name_first n : name n -> exists x q, n = x :: q /\ lower x.
Proof. intros (c & cs & -> & L & _). eauto. Qed.
Lemma stops_cards cs r : cs <> [] -> Forall cardinality_text cs -> stops (concat cs ++ r).
Proof.
  intros N F. destruct cs as [|c cs]; [congruence|]. inversion F as [|? ? Ct]; subst. apply card_first in Ct as (x & q & -> & I).
  cbn. apply letter_not. cbn in I. repeat destruct I as [<-|I]; try reflexivity. destruct I.
Qed.
Lemma line_first es w : line_text es w -> exists x q, w = x :: q /\ lower x.
Proof. intros [n cs N _|n cs es' w' N _ _ _]; apply name_first in N as (x & q & -> & L); cbn; eauto. Qed.
Lemma no_card_lower x q : lower x -> no_card (x :: q).
Proof.
  intros (A & B). apply no_card_first. intros I. cbn in I. repeat destruct I as [<-|I]; try (vm_compute in A, B; congruence).
Qed.
Lemma elements_fwd es w : line_text es w -> forall r, stops r -> no_card r ->
  exists d1, rd (P (element_token su)) (w ++ r) d1 /\ star (rd (P (element_token su))) d1 r.
Proof.
  induction 1 as [n cs N F|n cs es w N F Nc L IH]; intros r S Nr.
  - exists r. split.
    + apply rd_element. exists n, cs. rewrite <- app_assoc. split; auto. split; auto. split; auto. split; auto.
      destruct cs as [|c cs]; [exact S|]. apply stops_cards; [discriminate|auto].
    + constructor. intros q E. apply rd_element in E as (m & ds & Nm & _ & -> & _). apply name_first in Nm as (x & k & -> & Lx). apply S. now right.
  - destruct (IH r S Nr) as (d1 & E & St). exists (w ++ r). split.
    + apply rd_element. exists n, cs. rewrite <- !app_assoc. split; auto. split; auto. split; auto. split; [now apply stops_cards|].
      apply line_first in L as (x & q & -> & Lx). now apply no_card_lower.
    + econstructor; eassumption.
Qed.
Lemma rd_line_fwd es w r : line_text es w -> stops r -> no_card r -> rd (P (line_token su)) (w ++ r) r.
Proof.
  intros L S N. apply rd_tok; [apply line_first in L as (x & q & -> & _); len|].
  apply rd_cons. exists r. split; [|now apply rd_nil]. apply rd_some. eapply elements_fwd; eassumption.
Qed.
(** With the tree: the elements are the contents of the only element of the line. *)
Lemma elements_inv xs d r : reps (P (element_token su)) xs d r -> xs <> [] ->
  exists w, line_text (map leaves xs) w /\ d = w ++ r.
Proof.
  assert (V : every_container value_or_token (element_token su)) by (apply check_values; vm_compute; reflexivity).
  induction 1 as [d E|x xs d d1 r E R IH]; intros N; [congruence|].
  assert (Ex : exists n cs, name n /\ Forall cardinality_text cs /\ d = (n ++ concat cs) ++ d1 /\ stops (concat cs ++ d1) /\ leaves x = n ++ concat cs).
  { assert (E' : rd (P (element_token su)) d d1) by now exists x. apply rd_element in E' as (n & cs & Nn & F & -> & S & Nc).
    rewrite app_assoc in E. exists n, cs. rewrite app_assoc. repeat (split; auto). eapply text_of; [exact V|reflexivity|exact E]. }
  destruct Ex as (n & cs & Nn & F & -> & S & Lx). cbn [map]. rewrite Lx.
  destruct xs as [|y ys].
  - inversion R; subst. exists (n ++ concat cs). split; [now constructor|]. reflexivity.
  - destruct IH as (w & Lw & ->); [discriminate|]. exists (n ++ concat cs ++ w). split; [|now rewrite <- !app_assoc].
    constructor; auto. intros ->. apply line_first in Lw as (z & q & -> & Lz). apply S. now right.
Qed.
Lemma line_inv_tree d a r : P (line_token su) d = Some (a, r) ->
  exists xs w, a = Node (text "line") 0 [(text "element", xs)] /\ line_text (map leaves xs) w /\ d = w ++ r.
Proof.
  intros E. apply P_single in E as (es & -> & E & _). apply line_inv in E as (xs & d1 & es' & E & E' & ->).
  rewrite line_nil in E'. injection E' as <- <-. apply some_iff in E as (R & N). destruct (elements_inv xs d d1 R N) as (w & Lw & ->).
  exists xs, w. split; auto. destruct xs; [congruence|reflexivity].
Qed.
Lemma rd_line_inv d r : rd (P (line_token su)) d r -> exists es w, line_text es w /\ d = w ++ r.
Proof. intros (a & E). apply line_inv_tree in E as (xs & w & _ & L & ->). eauto. Qed.

Definition dash (r : bytes) : Prop := exists q, r = x2d :: q.
Lemma rd_more_fwd w r : (exists es, line_text es w) -> stops r -> no_card r -> rd (P (delimiter_then_line su)) (x7c :: w ++ r) r.
Proof.
  intros (es & L) S N. apply rd_tok; [len|]. apply rd_cons. eexists. split; [now apply rd_value|].
  apply rd_cons. exists r. split; [apply rd_once; eapply rd_line_fwd; eassumption|now apply rd_nil].
Qed.
Lemma rd_more_inv d r : rd (P (delimiter_then_line su)) d r -> exists w, (exists es, line_text es w) /\ d = x7c :: w ++ r.
Proof.
  intros E. apply rd_tok_inv in E. apply rd_cons in E as (d1 & E1 & E). apply rd_value in E1. subst d.
  apply rd_cons in E as (d2 & E1 & E). apply rd_nil in E. subst d2. apply rd_once, rd_line_inv in E1 as (es & w & L & ->). eauto.
Qed.
Lemma bar_or_dash ls r : dash r -> let q := concat (map (cons x7c) ls) ++ r in stops q /\ no_card q.
Proof.
  intros (k & ->). destruct ls as [|w ls]; cbn.
  - split; [now apply letter_not|]. apply no_card_first. cbn. intuition discriminate.
  - split; [now apply letter_not|]. apply no_card_first. cbn. intuition discriminate.
Qed.
Lemma rd_block_fwd w r : block_text w -> dash r -> rd (P (block_token su)) (w ++ r) r.
Proof.
  intros [es l ls L F] D. rewrite <- app_assoc. apply rd_tok; [apply line_first in L as (x & q & -> & _); len|].
  apply rd_cons. exists (concat (map (cons x7c) ls) ++ r). destruct (bar_or_dash ls r D) as (S & N).
  split; [apply rd_once; eapply rd_line_fwd; eassumption|]. apply rd_cons. exists r. split; [|now apply rd_nil]. apply rd_many. clear S N.
  induction F as [|v ls W F IH]; cbn [map concat app].
  - constructor. intros q E. apply rd_more_inv in E as (v & _ & E). destruct D as (k & ->). discriminate.
  - rewrite <- app_assoc. destruct (bar_or_dash ls r D) as (S & N). econstructor; [|exact IH]. now apply rd_more_fwd.
Qed.
Lemma rd_block_inv d r : rd (P (block_token su)) d r -> exists w, block_text w /\ d = w ++ r.
Proof.
  intros E. apply rd_tok_inv in E. apply rd_cons in E as (d1 & E1 & E). apply rd_once, rd_line_inv in E1 as (es & l & L & ->).
  apply rd_cons in E as (d2 & E1 & E). apply rd_nil in E. subst d2. apply rd_many in E1.
  enough (A : exists ls, Forall (fun w => exists es', line_text es' w) ls /\ d1 = concat (map (cons x7c) ls) ++ r).
  { destruct A as (ls & F & ->). eexists. split; [econstructor; eassumption|]. now rewrite <- app_assoc. }
  clear L. induction E1 as [d N|d d1 r E S (ls & F & ->)]; [exists []; auto|]. apply rd_more_inv in E as (w & W & ->).
  exists (w :: ls). split; auto. cbn. now rewrite <- app_assoc.
Qed.

(** ** Composes *)
Lemma rd_amount d r : rd (P (compose_with_amount su)) d r <-> exists ds, digits ds /\ d = x7c :: ds ++ r /\ ends decimal r.
Proof.
  split.
  - intros E. apply rd_tok_inv in E. apply rd_cons in E as (d1 & E1 & E). apply rd_value in E1. subst d.
    apply rd_cons in E as (d2 & E1 & E). apply rd_nil in E. subst d2. apply rd_digits in E1 as (ds & D & -> & N). eauto.
  - intros (ds & D & -> & N). apply rd_tok; [len|]. apply rd_cons. eexists. split; [now apply rd_value|].
    apply rd_cons. exists r. split; [apply rd_digits; eauto|now apply rd_nil].
Qed.
Lemma rd_compose_fwd w r : compose_text w -> dash r -> rd (P (compose_token su)) (w ++ r) r.
Proof.
  intros [n ds N F] D. rewrite <- app_assoc. apply rd_tok; [destruct N as (c & cs & -> & _); len|].
  apply rd_cons. exists (concat (map (cons x7c) ds) ++ r). destruct (bar_or_dash ds r D) as (S & _).
  split; [apply rd_once, rd_name; eauto|]. apply rd_cons. exists r. split; [|now apply rd_nil]. apply rd_many. clear S.
  induction F as [|v ds W F IH]; cbn [map concat app].
  - constructor. intros q E. apply rd_amount in E as (v & _ & E & _). destruct D as (k & ->). discriminate.
  - rewrite <- app_assoc. econstructor; [|exact IH]. apply rd_amount. exists v. split; auto. split; auto.
    destruct D as (k & ->). destruct ds; cbn; now apply decimal_not.
Qed.
Lemma rd_compose_inv d r : rd (P (compose_token su)) d r -> exists w, compose_text w /\ d = w ++ r.
Proof.
  intros E. apply rd_tok_inv in E. apply rd_cons in E as (d1 & E1 & E). apply rd_once, rd_name in E1 as (n & N & -> & _).
  apply rd_cons in E as (d2 & E1 & E). apply rd_nil in E. subst d2. apply rd_many in E1.
  enough (A : exists ds, Forall digits ds /\ d1 = concat (map (cons x7c) ds) ++ r).
  { destruct A as (ds & F & ->). eexists. split; [econstructor; eassumption|]. now rewrite <- app_assoc. }
  clear N. induction E1 as [d N|d d1 r E S (ls & F & ->)]; [exists []; auto|]. apply rd_amount in E as (w & W & -> & _).
  exists (w :: ls). split; auto. cbn. now rewrite <- app_assoc.
Qed.

(** ** Everythings *)
Lemma rd_everything_fwd w r : everything_text w -> dash r -> rd (P (everything_token su)) (w ++ r) r.
Proof.
  intros W (k & ->). destruct W as [n N|n m N M]; cbn [app].
  - eapply (rd_toks _ [_]); [| |len].
    + intros l [<-|[]] q E. apply rd_cons in E as (d1 & E & _). apply rd_once, rd_tok_inv in E.
      apply rd_cons in E as (d2 & E1 & E). apply rd_value in E1. injection E1 as <-.
      apply rd_cons in E as (d2 & E1 & E). apply rd_once, rd_name in E1 as (n' & N' & E1 & S).
      assert (E2 : x2d :: k = d2).
      { destruct N as (c & cs & -> & _ & F), N' as (c' & cs' & -> & _ & F'). injection E1 as _ E1.
        apply (span_unique letter cs cs' (x2d :: k) d2); auto. now apply letter_not. }
      subst d2. inv_line. discriminate.
    + apply rd_cons. exists (x2d :: k). split; [|now apply rd_nil]. apply rd_once, rd_tok; [len|].
      apply rd_cons. eexists. split; [now apply rd_value|]. apply rd_cons. exists (x2d :: k). split; [|now apply rd_nil].
      apply rd_once, rd_name. exists n. split; auto. split; auto. now apply letter_not.
  - rewrite <- app_assoc. cbn [app]. apply (rd_toks _ []); [intros l []| |len].
    apply rd_cons. exists (x2d :: k). split; [|now apply rd_nil]. apply rd_once, rd_tok; [len|].
    apply rd_cons. eexists. split; [now apply rd_value|]. apply rd_cons. exists (x21 :: m ++ x2d :: k). split.
    { apply rd_once, rd_name. exists n. split; auto. split; auto. now apply letter_not. }
    apply rd_cons. eexists. split; [now apply rd_value|]. apply rd_cons. exists (x2d :: k). split; [|now apply rd_nil].
    apply rd_once, rd_name. exists m. split; auto. split; auto. now apply letter_not.
Qed.
Lemma rd_everything_inv d r : rd (P (everything_token su)) d r -> exists w, everything_text w /\ d = w ++ r.
Proof.
  intros E. apply rd_toks_inv in E as (l & I & E). destruct I as [<-|[<-|[]]];
    apply rd_cons in E as (d1 & E1 & E); apply rd_nil in E; subst d1; apply rd_once, rd_tok_inv in E1.
  - apply rd_cons in E1 as (d1 & E & E1). apply rd_value in E. subst d. apply rd_cons in E1 as (d2 & E & E1).
    apply rd_once, rd_name in E as (n & N & -> & _). apply rd_cons in E1 as (d3 & E & E1). apply rd_value in E. subst d2.
    apply rd_cons in E1 as (d4 & E & E1). apply rd_nil in E1. subst d4. apply rd_once, rd_name in E as (m & M & -> & _).
    exists (x23 :: n ++ x21 :: m). split; [now constructor|]. cbn. now rewrite <- app_assoc.
  - apply rd_cons in E1 as (d1 & E & E1). apply rd_value in E. subst d. apply rd_cons in E1 as (d2 & E & E1).
    apply rd_nil in E1. subst d2. apply rd_once, rd_name in E as (n & N & -> & _). exists (x23 :: n). split; [now constructor|reflexivity].
Qed.

(** ** Suites *)
Lemma rd_all n s d r : str s <> [] -> rd (P (all su n s)) d r <-> d = text s ++ r.
Proof.
  intros Ns. split.
  - intros E. apply rd_tok_inv in E as (es & E). now apply values_inv in E.
  - intros ->. apply rd_tok; [|destruct (values_fwd (str s) r) as (es & E); now exists es].
    rewrite app_length. change (text s) with (str s). destruct (str s); [congruence|cbn; lia].
Qed.
Lemma rd_and d r : rd (P (delimiter_then_suite_element su)) d r <-> exists n, name n /\ d = x26 :: n ++ r /\ stops r.
Proof.
  split.
  - intros E. apply rd_tok_inv in E. apply rd_cons in E as (d1 & E1 & E). apply rd_value in E1. subst d.
    apply rd_cons in E as (d2 & E1 & E). apply rd_nil in E. subst d2. apply rd_once, rd_name in E1 as (n & N & -> & S). eauto.
  - intros (n & N & -> & S). apply rd_tok; [len|]. apply rd_cons. eexists. split; [now apply rd_value|].
    apply rd_cons. exists r. split; [apply rd_once, rd_name; eauto|now apply rd_nil].
Qed.
Lemma rd_composes d r : rd (P (suite_block su)) d r <-> exists w, composes_text w /\ d = w ++ r.
Proof.
  split.
  - intros E. apply rd_tok_inv in E. apply rd_cons in E as (d1 & E1 & E). apply rd_value in E1. subst d.
    apply rd_cons in E as (d2 & E1 & E). apply rd_once, rd_name in E1 as (n & N & -> & _).
    apply rd_cons in E as (d3 & E1 & E). apply rd_cons in E as (d4 & E2 & E). apply rd_nil in E. subst d4. apply rd_value in E2.
    apply rd_many in E1.
    enough (A : exists ns, Forall name ns /\ d2 = concat (map (cons x26) ns) ++ d3).
    { destruct A as (ns & F & ->). subst d3. eexists. split; [econstructor; eassumption|]. cbn [app]. now rewrite <- !app_assoc. }
    clear N E2 r. induction E1 as [d N|d d1 r E S (ls & F & ->)]; [exists []; auto|]. apply rd_and in E as (w & W & -> & _).
    exists (w :: ls). split; auto. cbn. now rewrite <- app_assoc.
  - intros (w & [n ns N F] & ->). cbn [app]. rewrite <- !app_assoc. cbn [app].
    assert (St : forall ns, stops (concat (map (cons x26) ns) ++ x3b :: r)) by (intros [|m ms]; cbn; now apply letter_not).
    apply rd_tok; [len|]. apply rd_cons. eexists. split; [now apply rd_value|]. apply rd_cons. eexists. split; [apply rd_once, rd_name; eauto|].
    apply rd_cons. exists (x3b :: r). split; [|apply rd_cons; eexists; split; [now apply rd_value|now apply rd_nil]].
    apply rd_many. induction F as [|m ns M F IH]; cbn [map concat app].
    + constructor. intros q E. apply rd_and in E as (m & _ & E & _). discriminate.
    + rewrite <- app_assoc. econstructor; [|exact IH]. apply rd_and. eauto.
Qed.
Lemma rd_part n m s d r : str s <> [] -> rd (P (tok su n [[once (all su m s); once (suite_block su)]])) d r <->
  exists w, composes_text w /\ d = text s ++ w ++ r.
Proof.
  intros Ns. split.
  - intros E. apply rd_tok_inv in E. apply rd_cons in E as (d1 & E1 & E). apply rd_once, rd_all in E1; auto. subst d.
    apply rd_cons in E as (d2 & E1 & E). apply rd_nil in E. subst d2. apply rd_once, rd_composes in E1 as (w & W & ->). eauto.
  - intros (w & W & ->). apply rd_tok; [destruct W; len|]. apply rd_cons. exists (w ++ r). split; [now apply rd_once, rd_all|].
    apply rd_cons. exists r. split; [apply rd_once, rd_composes; eauto|now apply rd_nil].
Qed.
Lemma rd_valid d r : rd (P (suite_valid su)) d r <-> exists w, composes_text w /\ d = text "valid" ++ w ++ r.
Proof. apply rd_part. discriminate. Qed.
Lemma rd_invalid d r : rd (P (suite_invalid su)) d r <-> exists w, composes_text w /\ d = text "invalid" ++ w ++ r.
Proof. apply rd_part. discriminate. Qed.
Lemma rd_prefix d r : rd (P (suite_prefix su)) d r <-> d = text "---" ++ r.
Proof. apply rd_all. discriminate. Qed.

Lemma rd_suite_inv d r : rd (P (suite_token su)) d r -> exists w, suite_text w /\ d = w ++ r.
Proof.
  intros E. apply rd_toks_inv in E as (l & I & E). destruct I as [<-|[<-|[]]];
    apply rd_cons in E as (d1 & E1 & E); apply rd_once, rd_prefix in E1; subst d;
    apply rd_cons in E as (d2 & E1 & E); apply rd_cons in E as (d3 & E2 & E); apply rd_nil in E; subst d3.
  - apply rd_once, rd_valid in E1 as (b & B & ->). apply rd_optional in E2 as [E2|(_ & <-)].
    + apply rd_invalid in E2 as (c & Ct & ->). eexists. split; [apply (suite_valid_invalid b c); auto|]. now rewrite <- !app_assoc.
    + eexists. split; [apply (suite_only_valid b); auto|]. now rewrite <- !app_assoc.
  - apply rd_once, rd_invalid in E2 as (c & Ct & ->). apply rd_optional in E1 as [E1|(_ & E1)].
    + apply rd_valid in E1 as (b & B & ->). eexists. split; [apply (suite_valid_invalid b c); auto|]. now rewrite <- !app_assoc.
    + subst d1. eexists. split; [apply (suite_only_invalid c); auto|]. now rewrite <- !app_assoc.
Qed.
Lemma rd_suite_fwd w r : suite_text w -> rd (P (suite_token su)) (w ++ x3b :: r) (x3b :: r).
Proof.
  intros [b B|b c B Ct|c Ct].
  - rewrite <- app_assoc. apply (rd_toks _ []); [intros l []| |cbn; len].
    apply rd_cons. exists (text "valid" ++ b ++ x3b :: r). split; [now apply rd_once, rd_prefix|].
    apply rd_cons. exists (x3b :: r). split; [apply rd_once, rd_valid; eauto|]. apply rd_cons. exists (x3b :: r). split; [|now apply rd_nil].
    apply rd_optional. right. split; auto. intros q E. apply rd_invalid in E as (v & _ & E). discriminate.
  - rewrite <- !app_assoc. apply (rd_toks _ []); [intros l []| |cbn; len].
    apply rd_cons. exists (text "valid" ++ b ++ text "invalid" ++ c ++ x3b :: r). split; [now apply rd_once, rd_prefix|].
    apply rd_cons. eexists. split; [apply rd_once, rd_valid; eauto|]. apply rd_cons. exists (x3b :: r). split; [|now apply rd_nil].
    apply rd_optional. left. apply rd_invalid. eauto.
  - rewrite <- app_assoc. eapply (rd_toks _ [_] _ []); [| |cbn; len].
    + intros l [<-|[]] q E. apply rd_cons in E as (d1 & E1 & E). apply rd_once, rd_prefix in E1. injection E1 as <-.
      apply rd_cons in E as (d2 & E1 & E). apply rd_once, rd_valid in E1 as (v & _ & E1). discriminate.
    + apply rd_cons. exists (text "invalid" ++ c ++ x3b :: r). split; [now apply rd_once, rd_prefix|].
      apply rd_cons. exists (text "invalid" ++ c ++ x3b :: r). split.
      { apply rd_optional. right. split; auto. intros q E. apply rd_valid in E as (v & _ & E). discriminate. }
      apply rd_cons. exists (x3b :: r). split; [apply rd_once, rd_invalid; eauto|now apply rd_nil].
Qed.
Lemma suite_dash w r : suite_text w -> dash (w ++ r).
Proof. intros [b B|b c B Ct|c Ct]; eexists; reflexivity. Qed.

(** ** Assignments *)
Lemma rd_hash_fwd h r : hash_text h -> dash r -> rd (P (sha512_hex su)) (h ++ r) r.
Proof. intros (L & F) _. destruct (sha_fwd su h r) as (a & E); [unfold zlen; lia|auto|now exists a]. Qed.
Lemma rd_hash_inv d r : rd (P (sha512_hex su)) d r -> exists w, hash_text w /\ d = w ++ r.
Proof. intros (a & E). apply sha_inv in E as (h & -> & L & F & _). exists h. split; auto. split; auto. unfold zlen in L. lia. Qed.

Section Assign.
Variables (nm : String.string) (body : token) (B : bytes -> Prop).
Hypothesis fwd : forall w r, B w -> dash r -> rd (P body) (w ++ r) r.
Hypothesis inv : forall d r, rd (P body) d r -> exists w, B w /\ d = w ++ r.
Lemma rd_assignment d r : rd (P (tok su nm [[once (variable_name su); sign ":"; once body; once (suite_token su); sign ";"]])) d r <->
  exists w, assignment_text B w /\ d = w ++ r.
Proof.
  split.
  - intros E. apply rd_tok_inv in E. apply rd_cons in E as (d1 & E1 & E). apply rd_once, rd_name in E1 as (n & N & -> & _).
    apply rd_cons in E as (d2 & E1 & E). apply rd_value in E1. change (hd x00 (str ":")) with x3a in E1. subst d1.
    apply rd_cons in E as (d3 & E1 & E). apply rd_once, inv in E1 as (w & W & ->).
    apply rd_cons in E as (d4 & E1 & E). apply rd_once, rd_suite_inv in E1 as (s & S & ->).
    apply rd_cons in E as (d5 & E1 & E). apply rd_nil in E. subst d5. apply rd_value in E1. subst d4.
    eexists. split; [econstructor; eassumption|]. rewrite <- app_assoc. cbn [app]. rewrite <- !app_assoc. reflexivity.
  - intros (v & [n w s N W S] & ->). rewrite <- app_assoc. cbn [app]. rewrite <- !app_assoc. cbn [app].
    apply rd_tok; [len|]. apply rd_cons. eexists. split; [apply rd_once, rd_name; exists n; split; [auto|split; [reflexivity|now apply letter_not]]|].
    apply rd_cons. eexists. split; [now apply rd_value|].
    apply rd_cons. exists (s ++ x3b :: r). split; [apply rd_once, fwd; [auto|now apply suite_dash]|].
    apply rd_cons. exists (x3b :: r). split; [now apply rd_once, rd_suite_fwd|].
    apply rd_cons. eexists. split; [now apply rd_value|now apply rd_nil].
Qed.
End Assign.
End Su.
