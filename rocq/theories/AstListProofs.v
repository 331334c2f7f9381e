(** The tokens and grammars of a grammar as lists, to check the hypotheses on concrete grammars. *)
From Coq Require Import List ZArith Bool Lia Arith.
From Coq Require Import Init.Byte Strings.Byte.
From Verif Require Import Base BaseLemmas AstModel SpecAst AstProofs AstTraceProofs AstFuelProofs.
Import ListNotations.

Fixpoint tok_tokens (t : token) : list token :=
  t :: (let 'Token _ ls _ := t in flat_map (flat_map cont_tokens) ls)
with cont_tokens (c : container) : list token :=
  match c with CElement e _ _ => econ_tokens e | CCompose _ _ => [] end
with econ_tokens (e : econtent) : list token :=
  match e with
  | EToken u => tok_tokens u
  | EEverything _ u o => tok_tokens u ++ match o with Some x => tok_tokens x | None => [] end
  | _ => []
  end.

Fixpoint tok_grammars (t : token) : list grammar :=
  let 'Token _ ls _ := t in flat_map (flat_map cont_grammars) ls
with cont_grammars (c : container) : list grammar :=
  match c with CElement e _ _ => econ_grammars e | CCompose _ _ => [] end
with econ_grammars (e : econtent) : list grammar :=
  match e with
  | EExternal _ g => gram_grammars g
  | EToken u => tok_grammars u
  | EEverything _ u o => tok_grammars u ++ match o with Some x => tok_grammars x | None => [] end
  | _ => []
  end
with gram_grammars (g : grammar) : list grammar :=
  g :: (let 'Grammar root chs := g in tok_grammars root ++ flat_map chan_grammars chs)
with chan_grammars (c : channel) : list grammar :=
  let 'Channel t cond := c in
  Grammar t [] :: tok_grammars t ++
  match cond with
  | Some (b, a) =>
    match b with Some b => Grammar b [] :: tok_grammars b | None => [] end ++
    match a with Some a => Grammar a [] :: tok_grammars a | None => [] end
  | None => []
  end.

Lemma tok_tokens_eq t : tok_tokens t = t :: flat_map (flat_map cont_tokens) (t_lines t).
Proof. destruct t. reflexivity. Qed.
Lemma tok_grammars_eq t : tok_grammars t = flat_map (flat_map cont_grammars) (t_lines t).
Proof. destruct t. reflexivity. Qed.

Lemma tokens_self t : In t (tok_tokens t).
Proof. rewrite tok_tokens_eq. now left. Qed.
Lemma tokens_container t l c u : In l (t_lines t) -> In c l -> In u (cont_tokens c) -> In u (tok_tokens t).
Proof. intros I Ic Iu. rewrite tok_tokens_eq. right. apply in_flat_map. exists l. split; auto. apply in_flat_map. eauto. Qed.
Lemma tokens_child t c u : child t c -> In u (tok_tokens c) -> In u (tok_tokens t).
Proof.
  intros C Iu. destruct C as [l v mi ma I Ic|l n v e mi ma I Ic|l n v e mi ma I Ic]; apply (tokens_container _ _ _ u I Ic); cbn [cont_tokens econ_tokens]; auto; apply in_app_iff; auto.
Qed.
Lemma within_tokens r t : within r t -> In t (tok_tokens r).
Proof.
  assert (A : forall n r, tok_size r <= n -> forall t u, In t (tok_tokens r) -> child t u -> In u (tok_tokens r)).
  { induction n as [|n IH]; intros q Sz t0 u I C; [pose proof (tok_size_pos q); lia|].
    rewrite tok_tokens_eq in I. destruct I as [<-|I]; [eapply tokens_child; eauto using tokens_self|].
    apply in_flat_map in I as (l & Il & I). apply in_flat_map in I as (c & Ic & I).
    assert (K : forall v, child q v -> In t0 (tok_tokens v) -> In u (tok_tokens q)).
    { intros v Cv Iv. apply (tokens_child q v u Cv). eapply IH; eauto. apply child_size in Cv. lia. }
    destruct c as [[nm b|nm g'|v|nm v o|nm] mi ma|nm vs]; cbn [cont_tokens econ_tokens] in I; try contradiction.
    - apply (K v); auto. eapply child_token; eauto.
    - apply in_app_iff in I as [I|I]; [apply (K v); auto; eapply child_exception; eauto|].
      destruct o as [e|]; [|destruct I]. apply (K e); auto. eapply child_escape; eauto. }
  induction 1 as [|t u W IH C]; [apply tokens_self|]. eapply A; eauto.
Qed.

Lemma grammars_container t l c g : In l (t_lines t) -> In c l -> In g (cont_grammars c) -> In g (tok_grammars t).
Proof. intros I Ic Iu. rewrite tok_grammars_eq. apply in_flat_map. exists l. split; auto. apply in_flat_map. eauto. Qed.
Lemma grammars_child t c g : child t c -> In g (tok_grammars c) -> In g (tok_grammars t).
Proof.
  intros C Iu. destruct C as [l v mi ma I Ic|l n v e mi ma I Ic|l n v e mi ma I Ic]; apply (grammars_container _ _ _ g I Ic); cbn [cont_grammars econ_grammars]; auto; apply in_app_iff; auto.
Qed.
Lemma grammars_within r t g : within r t -> In g (tok_grammars t) -> In g (tok_grammars r).
Proof. induction 1 as [|t u W IH C]; auto. intros I. apply IH. eapply grammars_child; eauto. Qed.
Lemma grammars_self g : In g (gram_grammars g).
Proof. destruct g. now left. Qed.
Lemma grammars_external root chs t l n g' min max g : within root t -> In l (t_lines t) -> In (CElement (EExternal n g') min max) l ->
  In g (gram_grammars g') -> In g (gram_grammars (Grammar root chs)).
Proof.
  intros W I Ic Ig. right. apply in_app_iff. left. apply (grammars_within root t g W). apply (grammars_container t l _ g I Ic). exact Ig.
Qed.
Lemma grammars_chan root chs c cond g : In (Channel c cond) chs -> In g (chan_grammars (Channel c cond)) -> In g (gram_grammars (Grammar root chs)).
Proof. intros I Ig. right. apply in_app_iff. right. apply in_flat_map. eauto. Qed.

(** A list with the grammar, closed by the rules of [uses], has all grammars used. *)
Lemma uses_grammars g g' : uses g g' -> In g' (gram_grammars g).
Proof.
  assert (D : forall g', uses g g' -> forall g'', In g'' (gram_grammars g') -> In g'' (gram_grammars g)).
  { induction 1 as [|root chs t l n g1 mi ma U IH W I Ic|root chs t cond U IH I|root chs t b a U IH I|root chs t b a U IH I]; intros g2 I2; auto; apply IH.
    - eapply grammars_external; eauto.
    - eapply grammars_chan; eauto. cbn [chan_grammars gram_grammars flat_map] in *. rewrite app_nil_r in I2. destruct I2 as [<-|I2]; [now left|].
      right. apply in_app_iff. now left.
    - eapply grammars_chan; eauto. cbn [chan_grammars gram_grammars flat_map] in *. rewrite app_nil_r in I2. right. apply in_app_iff. right. apply in_app_iff. now left.
    - eapply grammars_chan; eauto. cbn [chan_grammars gram_grammars flat_map] in *. rewrite app_nil_r in I2. right. apply in_app_iff. right. apply in_app_iff. now right. }
  intros U. apply (D g' U). apply grammars_self.
Qed.

(** Checks on all tokens of all grammars used. *)
Definition all_tokens (g : grammar) : list token := flat_map (fun g' => let 'Grammar root _ := g' in tok_tokens root) (gram_grammars g).
Lemma all_tokens_in g root chs t : uses g (Grammar root chs) -> within root t -> In t (all_tokens g).
Proof. intros U W. apply in_flat_map. exists (Grammar root chs). split; [now apply uses_grammars|now apply within_tokens]. Qed.

Definition check_containers (p : container -> bool) (g : grammar) : bool :=
  forallb (fun t => forallb (forallb p) (t_lines t)) (all_tokens g).
Lemma check_containers_ok (p : container -> bool) (P : container -> Prop) g : (forall c, p c = true -> P c) -> check_containers p g = true ->
  forall root chs, uses g (Grammar root chs) -> every_container P root.
Proof.
  intros H C root chs U t l c W I Ic. apply H. unfold check_containers in C. rewrite forallb_forall in C.
  specialize (C t (all_tokens_in _ _ _ _ U W)). rewrite forallb_forall in C. specialize (C l I). rewrite forallb_forall in C. auto.
Qed.

Definition cardb (c : container) : bool :=
  match c with
  | CElement _ min max => (0 <=? min)%Z && (min <? two63)%Z && match max with Some m => (0 <=? m)%Z | None => true end
  | CCompose _ _ => true
  end.
Lemma check_cards g : check_containers cardb g = true -> cards_ok g.
Proof.
  intros C root chs. apply (check_containers_ok cardb); auto. intros [e mi ma|n vs]; cbn [cardb card_ok]; auto.
  rewrite !andb_true_iff. intros [[A B] D]. apply Z.leb_le in A. apply Z.ltb_lt in B. refine (conj (conj A B) _). intros m ->. now apply Z.leb_le.
Qed.
Definition escapeb (c : container) : bool := match c with CElement (EEverything _ _ (Some _)) _ _ => false | _ => true end.
Lemma check_escape g : check_containers escapeb g = true -> no_escape g.
Proof. intros C root chs. apply (check_containers_ok escapeb); auto. intros [[| | |? ? []|] ? ?|]; cbn; auto; discriminate. Qed.

(** Every recursive reference comes after an element that cannot be absent. *)
Fixpoint guardb (l : list container) : bool :=
  match l with
  | [] => true
  | CElement (ERecursive _) _ _ :: _ => false
  | CElement _ min _ :: l' => if (1 <=? min)%Z && (min <? two63)%Z then true else guardb l'
  | CCompose _ _ :: l' => guardb l'
  end.
Lemma guardb_ok l : guardb l = true -> guarded_line l.
Proof.
  induction l as [|c l IH]; cbn [guardb]; intros H l1 l2 n mi ma E; [destruct l1; discriminate|].
  destruct l1 as [|d l1]; cbn [app] in E; injection E as -> ->; [discriminate|].
  assert (R : guardb (l1 ++ CElement (ERecursive n) mi ma :: l2) = true -> exists c min max, In (CElement c min max) (d :: l1) /\ (1 <= min < two63)%Z).
  { intros G. destruct (IH G l1 l2 n mi ma eq_refl) as (c & a & b & I & B). exists c, a, b. split; auto. now right. }
  destruct d as [e a b|nm vs]; [|auto].
  assert (E : (if (1 <=? a)%Z && (a <? two63)%Z then true else guardb (l1 ++ CElement (ERecursive n) mi ma :: l2)) = true) by (destruct e; auto; discriminate).
  destruct ((1 <=? a)%Z && (a <? two63)%Z) eqn:Q; [|auto]. apply andb_true_iff in Q as [Q1 Q2]. apply Z.leb_le in Q1. apply Z.ltb_lt in Q2.
  exists e, a, b. refine (conj (or_introl eq_refl) (conj Q1 Q2)).
Qed.
Definition check_guarded (g : grammar) : bool := forallb (fun t => forallb guardb (t_lines t)) (all_tokens g).
Lemma check_guarded_ok g : check_guarded g = true -> guarded g.
Proof.
  intros C root chs t l U W I. unfold check_guarded in C. rewrite forallb_forall in C.
  specialize (C t (all_tokens_in _ _ _ _ U W)). rewrite forallb_forall in C. apply guardb_ok. auto.
Qed.

(** The lists have nothing else. *)
Lemma tokens_within r t : In t (tok_tokens r) -> within r t.
Proof.
  assert (A : forall n r, tok_size r <= n -> forall t, In t (tok_tokens r) -> within r t).
  { induction n as [|n IH]; intros q Sz t0 I; [pose proof (tok_size_pos q); lia|].
    rewrite tok_tokens_eq in I. destruct I as [<-|I]; [constructor|].
    apply in_flat_map in I as (l & Il & I). apply in_flat_map in I as (c & Ic & I).
    assert (K : forall v, child q v -> In t0 (tok_tokens v) -> within q t0).
    { intros v Cv Iv. assert (W : within v t0) by (apply IH; auto; apply child_size in Cv; lia).
      clear -W Cv. induction W as [|a b W IHW C]; [apply (within_step q q v (within_refl q) Cv)|apply (within_step q a b IHW C)]. }
    destruct c as [[nm b|nm g'|v|nm v o|nm] mi ma|nm vs]; cbn [cont_tokens econ_tokens] in I; try contradiction.
    - apply (K v); auto. eapply child_token; eauto.
    - apply in_app_iff in I as [I|I]; [apply (K v); auto; eapply child_exception; eauto|].
      destruct o as [e|]; [|destruct I]. apply (K e); auto. eapply child_escape; eauto. }
  intros I. eapply A; eauto.
Qed.

Lemma grammars_uses g g' : In g' (gram_grammars g) -> uses g g'.
Proof.
  assert (A : forall n,
    (forall t, tok_size t <= n -> forall g', In g' (tok_grammars t) -> forall root chs, within root t -> uses (Grammar root chs) g') /\
    (forall g, gram_size g <= n -> forall g', In g' (gram_grammars g) -> uses g g')).
  { induction n as [|n [IT IG]].
    - split; [intros t L; pose proof (tok_size_pos t); lia|intros [root chs] L; cbn [gram_size] in L; lia].
    - split.
      + intros t L g1 I root chs W. rewrite tok_grammars_eq in I.
        apply in_flat_map in I as (l & Il & I). apply in_flat_map in I as (c & Ic & I).
        assert (K : forall v, child t v -> In g1 (tok_grammars v) -> uses (Grammar root chs) g1).
        { intros v Cv Iv. apply (IT v); auto; [apply child_size in Cv; lia|]. now apply (within_step root t v W). }
        pose proof (tok_size_container _ _ _ Il Ic) as Sz.
        destruct c as [[nm b|nm g2|v|nm v o|nm] mi ma|nm vs]; cbn [cont_grammars econ_grammars] in I; try contradiction.
        * eapply uses_trans; [|apply (IG g2); auto; cbn [cont_size econ_size] in Sz; lia]. eapply uses_external; eauto. apply uses_refl.
        * apply (K v); auto. eapply child_token; eauto.
        * apply in_app_iff in I as [I|I]; [apply (K v); auto; eapply child_exception; eauto|].
          destruct o as [e|]; [|destruct I]. apply (K e); auto. eapply child_escape; eauto.
      + intros [root chs] L g1 I. cbn [gram_size] in L. destruct I as [<-|I]; [constructor|]. apply in_app_iff in I as [I|I].
        * apply (IT root); auto; [lia|constructor].
        * apply in_flat_map in I as ([c cond] & Ic & I). pose proof (in_chan_size _ _ Ic) as Sz. cbn [chan_size] in Sz.
          assert (K : forall x, tok_size x <= n -> uses (Grammar root chs) (Grammar x []) -> g1 = Grammar x [] \/ In g1 (tok_grammars x) -> uses (Grammar root chs) g1).
          { intros x Lx Ux [->|Ix]; auto. eapply uses_trans; [exact Ux|]. apply (IT x); auto. constructor. }
          cbn [chan_grammars] in I. destruct I as [<-|I]; [eapply uses_channel; eauto using uses_refl|]. apply in_app_iff in I as [I|I].
          -- apply (K c); [lia|eapply uses_channel; eauto using uses_refl|auto].
          -- destruct cond as [[b a]|]; [|destruct I]. apply in_app_iff in I as [I|I].
             ++ destruct b as [b|]; [|destruct I]. apply (K b); [lia|eapply uses_before; eauto using uses_refl|]. destruct I as [<-|I]; auto.
             ++ destruct a as [a|]; [|destruct I]. apply (K a); [lia|eapply uses_after; eauto using uses_refl|]. destruct I as [<-|I]; auto. }
  intros I. eapply A; eauto.
Qed.
