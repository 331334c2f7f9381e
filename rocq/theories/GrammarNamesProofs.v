(** The names of the tokens in what the grammar of grammars reads. *)
From Coq Require Import List ZArith Lia Bool.
From Coq Require Strings.String.
From Coq Require Import Init.Byte Strings.Byte.
From Verif Require Import Base BaseLemmas AstModel SpecAst AstProofs AstTraceProofs AstListProofs SpecPeg AstPegProofs
  SpecOwn AstOwnProofs GrammarModel SpecGrammar GrammarProofs SpecNames.
Import ListNotations.

Definition holdsb (parent inner : bytes) : bool :=
  existsb (fun x => bytes_eqb (text (fst x)) parent && existsb (fun n => bytes_eqb (text n) inner) (snd x)) holdings.
Lemma holdsb_ok p n : holdsb p n = true -> holds p n.
Proof.
  unfold holdsb. rewrite existsb_exists. intros ((q & ns) & I & E). cbn [fst snd] in E.
  apply andb_true_iff in E as (Eq & En). apply existsb_exists in En as (m & Im & Em).
  apply bytes_eqb_true in Eq, Em. exists q, ns, m. auto.
Qed.

Definition held (n : bytes) (c : container) : bool :=
  match c with
  | CElement (EValue _ _) _ _ => true
  | CElement (EToken u) _ _ => holdsb n (t_name u)
  | CElement (EEverything _ u None) _ _ => holdsb n (t_name u)
  | _ => false
  end.
Definition good_token (t : token) : bool := forallb (forallb (held (t_name t))) (t_lines t).
Definition good_channels (g : grammar) : bool :=
  let 'Grammar _ chs := g in
  forallb (fun c => let 'Channel t _ := c in existsb (fun b => bytes_eqb (text b) (t_name t)) blanks) chs.

Lemma within_trans r t u : within r t -> within t u -> within r u.
Proof. intros A B. induction B as [|v w B IH Ch]; auto. exact (within_step _ _ _ IH Ch). Qed.

Lemma uses_sub R r chs g : within R r -> uses (Grammar r chs) g -> uses (Grammar R chs) g \/ g = Grammar r chs.
Proof.
  intros W U. induction U as [|root cs t l n g' mi ma U IH W' I Ic|root cs t cond U IH I|root cs t b a U IH I|root cs t b a U IH I].
  - auto.
  - left. destruct IH as [U'|[= -> ->]]; [exact (uses_external _ _ _ _ _ _ _ _ _ U' W' I Ic)|].
    exact (uses_external _ _ _ _ _ _ _ _ _ (uses_refl _) (within_trans _ _ _ W W') I Ic).
  - left. destruct IH as [U'|[= -> ->]]; [exact (uses_channel _ _ _ _ _ U' I)|exact (uses_channel _ _ _ _ _ (uses_refl _) I)].
  - left. destruct IH as [U'|[= -> ->]]; [exact (uses_before _ _ _ _ _ _ U' I)|exact (uses_before _ _ _ _ _ _ (uses_refl _) I)].
  - left. destruct IH as [U'|[= -> ->]]; [exact (uses_after _ _ _ _ _ _ U' I)|exact (uses_after _ _ _ _ _ _ (uses_refl _) I)].
Qed.

Lemma fits_in l es : fits l es -> forall e, In e es -> exists c, In c l /\ el_grammar e = Some c.
Proof.
  induction 1 as [|c mi ma l es L F IH|c mi ma l cs es Ne L M F IH]; intros e I.
  - destruct I.
  - destruct (IH _ I) as (d & Id & Ed). exists d. split; [now right|exact Ed].
  - destruct I as [<-|I].
    + exists (CElement c mi ma). split; [now left|reflexivity].
    + destruct (IH _ I) as (d & Id & Ed). exists d. split; [now right|exact Ed].
Qed.

Section Names.
  Variables (R : token) (chs : list channel).
  Hypothesis Ht : forallb good_token (all_tokens (Grammar R chs)) = true.
  Hypothesis Hc : forallb good_channels (gram_grammars (Grammar R chs)) = true.
  Hypothesis Hk : cards_ok (Grammar R chs).

  Lemma good_within root cs t : uses (Grammar R chs) (Grammar root cs) -> within root t -> good_token t = true.
  Proof. intros U W. rewrite forallb_forall in Ht. apply Ht. exact (all_tokens_in _ _ _ _ U W). Qed.

  Variable r : token.
  Hypothesis W : within R r.

  Lemma good_used root cs t : uses (Grammar r chs) (Grammar root cs) -> within root t -> good_token t = true.
  Proof.
    intros U Wt. destruct (uses_sub _ _ _ _ W U) as [U'|[= -> ->]]; [exact (good_within _ _ _ U' Wt)|].
    exact (good_within _ _ _ (uses_refl _) (within_trans _ _ _ W Wt)).
  Qed.

  Lemma good_own t : token_of (Grammar r chs) t -> good_token t = true.
  Proof.
    intros [root cs u U Wu|root cs u l n root' chs' mi ma U Wu I Ic]; [exact (good_used _ _ _ U Wu)|].
    pose proof (good_used _ _ _ U Wu) as G. unfold good_token in G. rewrite forallb_forall in G.
    specialize (G _ I). rewrite forallb_forall in G. specialize (G _ Ic). discriminate.
  Qed.

  Lemma sub_cards : cards_ok (Grammar r chs).
  Proof.
    intros root cs U. destruct (uses_sub _ _ _ _ W U) as [U'|[= -> ->]]; [exact (Hk _ _ U')|].
    intros t l c Wt. exact (Hk _ _ (uses_refl _) t l c (within_trans _ _ _ W Wt)).
  Qed.

  Lemma channel_names t : channel_of (Grammar r chs) t -> between_bytes (t_name t).
  Proof.
    intros (root & cs & cond & U & I).
    assert (G : good_channels (Grammar root cs) = true).
    { rewrite forallb_forall in Hc. destruct (uses_sub _ _ _ _ W U) as [U'|[= -> ->]]; [apply Hc; exact (uses_grammars _ _ U')|].
      exact (Hc _ (uses_grammars _ _ (uses_refl _))). }
    cbn [good_channels] in G. rewrite forallb_forall in G. specialize (G _ I). cbn beta iota in G.
    apply existsb_exists in G as (b & Ib & E). apply bytes_eqb_true in E. exists b. auto.
  Qed.

  Lemma names fuel d t : execute fuel (Grammar r chs) d = Ok t -> has_successful t = true ->
    tr_grammar t = r /\
    (forall u v, nested t u -> matched u v -> holds (t_name (tr_grammar u)) (t_name (tr_grammar v))) /\
    (forall u v, nested t u -> passed_over u v -> between_bytes (t_name (tr_grammar v))).
  Proof.
    intros E Hs. destruct (execute_own _ _ _ _ E Hs) as (Er & O). split; [exact Er|]. split.
    - intros u v N [l e El Ie Iv]. pose proof (good_own _ (proj1 (O _ N))) as G.
      assert (Sh : shaped u).
      { apply execute_trace in E. destruct (cards_ok_split _ _ sub_cards) as (Ct & Cc).
        destruct (proj1 shapes _ _ _ _ _ _ _ E Ct Cc (within_refl _) Hs) as (A & _). now apply A. }
      destruct Sh as (l1 & El1 & Nl & Sh). rewrite El in El1. injection El1 as <-.
      destruct Sh as [(_ & F & Sh)|(_ & cs & Ee & _ & Sh)].
      + destruct (Sh _ Ie) as (c & mi & ma & Eg & Co). specialize (Co _ Iv).
        destruct (fits_in _ _ F _ Ie) as (c' & Ic & Ec). rewrite Eg in Ec. injection Ec as <-.
        unfold good_token in G. rewrite forallb_forall in G. specialize (G _ (nth_error_In _ _ Nl)).
        rewrite forallb_forall in G. specialize (G _ Ic).
        destruct c as [n b|n g|w|n w [x|]|n]; cbn [held content_of] in G, Co; try discriminate; try contradiction; rewrite Co;
          exact (holdsb_ok _ _ G).
      + rewrite Ee in Ie. destruct Ie as [<-|[]]. destruct (Sh _ Iv) as (b & B). discriminate.
    - intros u v N S. exact (channel_names _ (proj2 (O _ N) _ S)).
  Qed.
End Names.

Lemma grammar_names su r : within (grammar_token su) r -> forall fuel d t,
  execute fuel (Grammar r (the_channels su)) d = Ok t -> has_successful t = true ->
  tr_grammar t = r /\
  (forall u v, nested t u -> matched u v -> holds (t_name (tr_grammar u)) (t_name (tr_grammar v))) /\
  (forall u v, nested t u -> passed_over u v -> between_bytes (t_name (tr_grammar v))).
Proof.
  intros W fuel d t. refine (names (grammar_token su) (the_channels su) _ _ _ r W fuel d t).
  - vm_compute. reflexivity.
  - vm_compute. reflexivity.
  - assert (K : peg_grammar (the_grammar su)) by (apply check_peg_ok; vm_compute; reflexivity).
    intros root cs U. exact (proj1 (proj2 (proj2 (proj1 (K _ _ U))))).
Qed.
