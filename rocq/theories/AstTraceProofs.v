(** What follows from the trace of a successful run of the parser. *)
From Coq Require Import List ZArith Lia Bool.
From Coq Require Import Init.Byte Strings.Byte.
From Verif Require Import Base BaseLemmas AstModel SpecAst AstProofs.
Import ListNotations.

(** ** Lines and bytes *)
Lemma successful_last acc tl : Forall (fun x => line_ok x = false) acc -> line_ok tl = true ->
  successful (acc ++ [tl]) = Some tl.
Proof.
  unfold successful. intros F E. induction F as [|x acc Ex F IH]; cbn [find app]; [now rewrite E|now rewrite Ex].
Qed.
Lemma successful_none acc : Forall (fun x => line_ok x = false) acc -> successful acc = None.
Proof. unfold successful. intros F. induction F as [|x acc Ex F IH]; cbn [find]; [auto|now rewrite Ex]. Qed.

Lemma tree_bytes_eq inc g b s r : tree_bytes inc (Tree g b s r) =
  match successful b with
  | None => []
  | Some l => line_bytes inc l ++ (if inc then flat_map (tree_bytes inc) s else [])
  end.
Proof.
  cbn [tree_bytes]. set (x := if inc then flat_map (tree_bytes inc) s else []).
  unfold successful. induction b as [|l b IH]; cbn [find]; auto. destruct (line_ok l); auto.
Qed.

Lemma line_ok_elements l : line_ok l = true -> l_elements l <> [].
Proof. unfold line_ok. destruct (l_elements l); discriminate. Qed.

Lemma tree_bytes_successful inc t : tree_bytes inc t <> [] -> has_successful t = true.
Proof. destruct t as [g b s r]. rewrite tree_bytes_eq. unfold has_successful; cbn [tr_block]. now destruct (successful b). Qed.

Definition n_contents (es : list telement) : nat := list_sum (map (fun e => length (el_contents e)) es).

Lemma n_contents_cons g cs es : n_contents (TElement g cs :: es) = length cs + n_contents es.
Proof. reflexivity. Qed.

Lemma elements_bytes_cons inc g cs es : flat_map (element_bytes inc) (TElement g cs :: es) =
  flat_map (content_bytes inc) cs ++ flat_map (element_bytes inc) es.
Proof. reflexivity. Qed.

(** ** Consumption *)
Definition eats (cur rem : bytes) (n : nat) : Prop := exists w, cur = w ++ rem /\ n <= length w.

Lemma eats_0 cur : eats cur cur 0.
Proof. exists []. split; auto. Qed.
Lemma eats_trans a b c n m : eats a b n -> eats b c m -> eats a c (n + m).
Proof. intros (w & -> & L) (v & -> & M). exists (w ++ v). rewrite <- app_assoc, app_length. split; auto. lia. Qed.
Lemma eats_weaken a b n m : eats a b n -> m <= n -> eats a b m.
Proof. intros (w & -> & L) M. exists w. split; auto. lia. Qed.
Lemma eats_skipn cur n : n <= length cur -> eats cur (skipn n cur) n.
Proof. intros L. exists (firstn n cur). rewrite firstn_skipn, firstn_length. split; auto. lia. Qed.

Definition line_count (b : list tline) : nat :=
  match successful b with Some l => Nat.max 1 (n_contents (l_elements l)) | None => 0 end.

Lemma consumption :
  (forall r esc chs rev t cur x, p_token r esc chs rev t cur x -> eats cur (tr_remaining x) (line_count (tr_block x))) /\
  (forall r esc chs rev l cur i tl rem, p_line r esc chs rev l cur i tl rem ->
     eats cur rem (n_contents (l_elements tl)) /\ (l_elements tl <> [] -> 0 < n_contents (l_elements tl))) /\
  (forall r esc chs rev l cur es rem, p_containers r esc chs rev l cur es rem ->
     eats cur rem (n_contents es) /\ (es <> [] -> 0 < n_contents es)) /\
  (forall r esc chs rev c cur cs rem, p_times r esc chs rev c cur cs rem -> eats cur rem (length cs)) /\
  (forall r esc chs rev c cur x rem, p_content r esc chs rev c cur x rem -> eats cur rem 1) /\
  (forall chs cur ts rem, p_skip chs cur ts rem -> eats cur rem (length ts)) /\
  (forall r esc chs l cur cs rem, p_until r esc chs l cur cs rem -> eats cur rem (length cs) /\ (cs <> [] -> 0 < length cs)).
Proof.
  apply parse_ind; intros.
  - cbn [tr_remaining tr_block]. unfold line_count. rewrite successful_last by assumption.
    destruct H as [H Hp]. pose proof (line_ok_elements _ e0) as Ne. specialize (Hp Ne).
    eapply eats_weaken; [eapply eats_trans; eauto|]. lia.
  - cbn [tr_remaining tr_block]. unfold line_count. rewrite successful_none by assumption. eapply eats_weaken; eauto. lia.
  - cbn [tr_remaining tr_block]. unfold line_count. destruct H as [H Hp]. specialize (Hp n).
    eapply eats_weaken; [eapply eats_trans; eauto|]. cbn [successful find].
    unfold line_ok; cbn [l_elements forallb element_ok el_grammar andb l_reverse orb n_contents map el_contents list_sum fold_right].
    lia.
  - exact H.
  - split; [apply eats_0|congruence].
  - destruct H0 as [H0 Hp]. destruct cs as [|x cs].
    + split; auto. eapply eats_weaken; [eapply eats_trans; eauto|]. cbn [length]. lia.
    + rewrite n_contents_cons. split; [|intros _; cbn [length]; lia]. eapply eats_trans; eauto.
  - apply eats_0.
  - eapply eats_weaken; [eapply eats_trans; eauto|]. cbn. lia.
  - destruct H as (w & -> & L). exists (w ++ [b]). rewrite <- app_assoc, app_length. cbn. split; auto. lia.
  - destruct cur as [|b cur]; [congruence|]. exists (b :: cur). rewrite app_nil_r. cbn. split; auto. lia.
  - eapply eats_weaken; eauto. unfold has_successful in e. unfold line_count. destruct (successful _); [lia|discriminate].
  - eapply eats_weaken; eauto. unfold has_successful in e. unfold line_count. destruct (successful _); [lia|discriminate].
  - eapply eats_weaken; eauto. unfold has_successful in e. unfold line_count. destruct (successful _); [lia|discriminate].
  - apply eats_0.
  - eapply eats_weaken; [eapply eats_trans; [eapply eats_skipn|eassumption]; lia|]. cbn. lia.
  - split; [apply eats_0|congruence].
  - split; [|cbn; lia]. destruct H as ((w & -> & L) & _). exists (b :: w). cbn. split; auto. lia.
  - destruct H1 as [H1 _]. split; [|intros N; destruct (_ ++ cs); [congruence|cbn; lia]].
    eapply eats_weaken; [eapply eats_trans; [exact H|]; eapply eats_trans; [apply (eats_skipn _ n); lia|exact H1]|].
    rewrite app_length, map_length, firstn_length. lia.
Qed.

Lemma token_eats r esc chs rev t cur x : p_token r esc chs rev t cur x -> eats cur (tr_remaining x) (line_count (tr_block x)).
Proof. apply consumption. Qed.

Lemma times_eats r esc chs rev c cur cs rem : p_times r esc chs rev c cur cs rem -> eats cur rem (length cs).
Proof. apply consumption. Qed.
Lemma content_eats r esc chs rev c cur x rem : p_content r esc chs rev c cur x rem -> eats cur rem 1.
Proof. apply consumption. Qed.
Lemma skip_eats chs cur ts rem : p_skip chs cur ts rem -> eats cur rem (length ts).
Proof. apply consumption. Qed.

(** ** Bytes *)
Lemma every_in P r t l c : every_container P r -> within r t -> In l (t_lines t) -> In c l -> P c.
Proof. intros H. apply H. Qed.

Definition plain_token (r : token) : Prop := every_container plain_container r.
Definition plain_chs (chs : list channel) : Prop := forall t cond, In (Channel t cond) chs -> plain_token t.

Lemma fidelity :
  (forall r esc chs rev t cur x, p_token r esc chs rev t cur x -> plain_token r -> plain_chs chs -> within r t -> esc = None ->
     has_successful x = true -> cur = tree_bytes true x ++ tr_remaining x) /\
  (forall r esc chs rev l cur i tl rem, p_line r esc chs rev l cur i tl rem -> plain_token r -> plain_chs chs ->
     (exists t, within r t /\ In l (t_lines t)) -> esc = None -> cur = line_bytes true tl ++ rem) /\
  (forall r esc chs rev l cur es rem, p_containers r esc chs rev l cur es rem -> plain_token r -> plain_chs chs ->
     (exists t l0, within r t /\ In l0 (t_lines t) /\ incl l l0) -> esc = None -> cur = flat_map (element_bytes true) es ++ rem) /\
  (forall r esc chs rev c cur cs rem, p_times r esc chs rev c cur cs rem -> plain_token r -> plain_chs chs ->
     (exists t l0 min max, within r t /\ In l0 (t_lines t) /\ In (CElement c min max) l0) -> esc = None ->
     cur = flat_map (content_bytes true) cs ++ rem) /\
  (forall r esc chs rev c cur x rem, p_content r esc chs rev c cur x rem -> plain_token r -> plain_chs chs ->
     (exists t l0 min max, within r t /\ In l0 (t_lines t) /\ In (CElement c min max) l0) -> esc = None ->
     cur = content_bytes true x ++ rem) /\
  (forall chs cur ts rem, p_skip chs cur ts rem -> plain_chs chs -> cur = flat_map (tree_bytes true) ts ++ rem) /\
  (forall r esc chs l cur cs rem, p_until r esc chs l cur cs rem -> esc = None ->
     cur = flat_map (content_bytes true) cs ++ rem).
Proof.
  apply parse_ind; intros.
  - rewrite tree_bytes_eq, successful_last by assumption. cbn [tr_remaining].
    rewrite H by eauto using nth_error_In. rewrite H0 by auto. now rewrite <- app_assoc.
  - unfold has_successful in *; cbn [tr_block] in *. rewrite successful_none in * by assumption. discriminate.
  - rewrite tree_bytes_eq. cbn [successful find line_ok l_elements forallb element_ok el_grammar andb l_reverse orb tr_remaining].
    cbn [line_bytes flat_map element_bytes]. rewrite app_nil_r. rewrite H by auto. rewrite H0 by auto. now rewrite <- app_assoc.
  - cbn [line_bytes]. apply H; auto. destruct H2 as (t & W & I). exists t, l. repeat split; auto. apply incl_refl.
  - reflexivity.
  - destruct H3 as (t & l9 & W & I & Inc).
    rewrite H by (auto; exists t, l9, min, max; repeat split; auto; apply Inc; now left).
    rewrite H0 by (auto; exists t, l9; repeat split; auto; intros y Hy; apply Inc; now right).
    destruct cs; [reflexivity|]. rewrite elements_bytes_cons. now rewrite <- app_assoc.
  - reflexivity.
  - cbn [flat_map]. rewrite H by auto. rewrite H0 by auto. now rewrite app_assoc.
  - cbn [content_bytes]. rewrite H by auto. now rewrite <- app_assoc.
  - exfalso. destruct H2 as (t0 & l0 & min & max & W & I & Ic). exact (H0 _ _ _ W I Ic).
  - cbn [content_bytes]. eauto.
  - cbn [content_bytes]. eauto.
  - destruct H2 as (t0 & l0 & min & max & W & I & Ic). pose proof (H0 _ _ _ W I Ic) as Pc. cbn in Pc.
    destruct esc' as [e1|]; [contradiction|]. cbn [content_bytes]. apply H; auto. intros ? ? [].
  - reflexivity.
  - assert (Ne : tree_bytes true t <> []) by (intros E; rewrite E in *; cbn [length] in *; lia).
    assert (X : cur = tree_bytes true t ++ tr_remaining t).
    { apply H; eauto using within_refl, tree_bytes_successful. intros ? ? []. }
    cbn [flat_map]. rewrite <- app_assoc. rewrite <- H0 by auto.
    assert (Y : skipn (length (tree_bytes true t)) cur = tr_remaining t).
    { rewrite X at 1. rewrite skipn_app, skipn_all, Nat.sub_diag. reflexivity. }
    now rewrite Y.
  - reflexivity.
  - cbn [flat_map content_bytes app]. now rewrite <- H.
  - discriminate.
Qed.

(** ** Shape *)
Definition cards_tok (r : token) : Prop :=
  forall root chs, uses (Grammar r []) (Grammar root chs) -> every_container card_ok root.
Definition cards_chs (chs : list channel) : Prop := forall t cond, In (Channel t cond) chs -> cards_tok t.

Lemma uses_trans g g' g'' : uses g g' -> uses g' g'' -> uses g g''.
Proof. intros A B. induction B; auto; [eapply uses_external|eapply uses_channel|eapply uses_before|eapply uses_after]; eauto. Qed.
Lemma uses_nil r chs g : uses (Grammar r []) g -> uses (Grammar r chs) g \/ g = Grammar r [].
Proof.
  induction 1 as [|root chs' t l n g' min max U IH W I Ic|root chs' t cond U IH I|root chs' t b a U IH I|root chs' t b a U IH I]; auto.
  - left. destruct IH as [IH|[= -> ->]]; [eapply uses_external; eauto|]. eapply uses_external; eauto using uses_refl.
  - left. destruct IH as [IH|[= -> ->]]; [eapply uses_channel; eauto|]. destruct I.
  - left. destruct IH as [IH|[= -> ->]]; [eapply uses_before; eauto|]. destruct I.
  - left. destruct IH as [IH|[= -> ->]]; [eapply uses_after; eauto|]. destruct I.
Qed.

Lemma cards_tok_every r : cards_tok r -> every_container card_ok r.
Proof. intros H. apply (H r []). constructor. Qed.
Lemma cards_tok_external r t l n root chs min max : cards_tok r -> within r t -> In l (t_lines t) ->
  In (CElement (EExternal n (Grammar root chs)) min max) l -> cards_tok root /\ cards_chs chs.
Proof.
  intros H W I Ic. assert (U : uses (Grammar r []) (Grammar root chs)) by (eapply uses_external; eauto using uses_refl). split.
  - intros root' chs' U'. destruct (uses_nil _ chs _ U') as [V|[= -> ->]].
    + apply (H root' chs'). eapply uses_trans; eauto.
    + eapply H; eauto.
  - intros c cond Hc root' chs' U'. apply (H root' chs'). eapply uses_trans; eauto.
    eapply uses_trans; [|eauto]. eapply uses_channel; eauto using uses_refl.
Qed.
Lemma cards_ok_split root chs : cards_ok (Grammar root chs) -> cards_tok root /\ cards_chs chs.
Proof.
  intros H. split.
  - intros root' chs' U'. destruct (uses_nil _ chs _ U') as [V|[= -> ->]]; [eauto|]. eapply H; eauto using uses_refl.
  - intros c cond Hc root' chs' U'. apply (H root' chs'). eapply uses_trans; eauto. eapply uses_channel; eauto using uses_refl.
Qed.

Definition once (t : tree) : Prop :=
  forall l n, successful (tr_block t) = Some l -> recursions n (l_elements l) <= 1.
Definition all_shaped (t : tree) : Prop := forall u, nested t u -> shaped u /\ once u.
Definition content_shaped (x : tcontent) : Prop :=
  match x with TValue _ p => Forall all_shaped p | TTree t => all_shaped t end.

Lemma all_shaped_intro t : shaped t -> once t ->
  (forall l e x, successful (tr_block t) = Some l -> In e (l_elements l) -> In x (el_contents e) -> content_shaped x) ->
  Forall all_shaped (tr_suffix t) -> all_shaped t.
Proof.
  intros Hs Ho Hc Hf u N. destruct N as [|u v P N]; auto. destruct P as [l e v1 E I Ic|l e b p v1 E I Ic Ip|v1 I].
  - apply (Hc _ _ _ E I Ic _ N).
  - specialize (Hc _ _ _ E I Ic). cbn in Hc. rewrite Forall_forall in Hc. apply (Hc _ Ip _ N).
  - rewrite Forall_forall in Hf. apply (Hf _ I _ N).
Qed.

Definition element_shaped (e : telement) : Prop :=
  exists c min max, el_grammar e = Some (CElement c min max) /\ Forall (content_of c) (el_contents e) /\ Forall content_shaped (el_contents e).

Lemma shapes :
  (forall r esc chs rev t cur x, p_token r esc chs rev t cur x -> cards_tok r -> cards_chs chs -> within r t ->
     has_successful x = true -> all_shaped x /\ tr_grammar x = t) /\
  (forall r esc chs rev l cur i tl rem, p_line r esc chs rev l cur i tl rem -> cards_tok r -> cards_chs chs ->
     (exists t, within r t /\ In l (t_lines t)) ->
     l_index tl = i /\ l_grammar tl = l /\ l_reverse tl = false /\ fits l (l_elements tl) /\ Forall element_shaped (l_elements tl)) /\
  (forall r esc chs rev l cur es rem, p_containers r esc chs rev l cur es rem -> cards_tok r -> cards_chs chs ->
     (exists t l0, within r t /\ In l0 (t_lines t) /\ incl l l0) -> fits l es /\ Forall element_shaped es) /\
  (forall r esc chs rev c cur cs rem, p_times r esc chs rev c cur cs rem -> cards_tok r -> cards_chs chs ->
     (exists t l0 min max, within r t /\ In l0 (t_lines t) /\ In (CElement c min max) l0) ->
     Forall (content_of c) cs /\ Forall content_shaped cs) /\
  (forall r esc chs rev c cur x rem, p_content r esc chs rev c cur x rem -> cards_tok r -> cards_chs chs ->
     (exists t l0 min max, within r t /\ In l0 (t_lines t) /\ In (CElement c min max) l0) ->
     content_of c x /\ content_shaped x) /\
  (forall chs cur ts rem, p_skip chs cur ts rem -> cards_chs chs -> Forall all_shaped ts) /\
  (forall r esc chs l cur cs rem, p_until r esc chs l cur cs rem -> forall x, In x cs -> exists b, x = TValue b []).
Proof.
  apply parse_ind; intros.
  - destruct H as (Ei & Eg & Er & Ft & Fe); eauto using nth_error_In. split; [|reflexivity].
    apply all_shaped_intro; cbn [tr_block tr_suffix]; [| | |auto].
    2:{ intros l2 n2. cbn [tr_block]. rewrite successful_last by assumption. now intros [= <-]. }
    + exists tl. cbn [tr_block tr_grammar]. rewrite successful_last by assumption. rewrite Ei, Eg. repeat split; auto.
      left. repeat split; auto. intros e2 I. rewrite Forall_forall in Fe. destruct (Fe _ I) as (c & min & max & G & A & _).
      exists c, min, max. split; auto. now rewrite <- Forall_forall.
    + intros l2 e2 x. rewrite successful_last by assumption. intros [= <-] I Ix. rewrite Forall_forall in Fe.
      destruct (Fe _ I) as (c & min & max & _ & _ & B). rewrite Forall_forall in B. auto.
  - unfold has_successful in *; cbn [tr_block] in *. rewrite successful_none in * by assumption. discriminate.
  - split; [|reflexivity]. apply all_shaped_intro; cbn [tr_block tr_suffix]; [| | |auto].
    2:{ intros l2 n2. cbn. intros [= <-]. cbn. lia. }
    + eexists. cbn [tr_block tr_grammar successful find line_ok l_elements forallb element_ok el_grammar andb l_reverse orb].
      split; [reflexivity|]. cbn [l_index l_grammar l_reverse l_elements]. split; auto. right. split; auto. exists cs. auto.
    + cbn [successful find line_ok l_elements forallb element_ok el_grammar andb l_reverse orb].
      intros l2 e2 x [= <-]. cbn [l_elements In]. intros [<-|[]]. cbn [el_contents]. intros Ix.
      destruct (H _ Ix) as (b & ->). cbn. constructor.
  - cbn [l_index l_grammar l_reverse l_elements]. repeat split; auto; apply H; auto;
      destruct H2 as (t & W & I); exists t, l; repeat split; auto; apply incl_refl.
  - split; constructor.
  - destruct H3 as (t & l9 & W & I & Inc).
    destruct H as (A & B); auto. { exists t, l9, min, max. repeat split; auto. apply Inc. now left. }
    destruct H0 as (C & D); auto. { exists t, l9. repeat split; auto. intros y Hy; apply Inc; now right. }
    pose proof (cards_tok_every _ H1 _ _ _ W I (Inc _ (or_introl eq_refl))) as ((M0 & M1) & M2).
    match goal with L : (i64 min <= _)%Z |- _ => rewrite i64_small in L by (rewrite two63_val in *; lia); rename L into Lm end.
    destruct cs as [|x cs].
    + split; auto. constructor; auto.
    + split.
      * constructor; auto; [discriminate|]. intros m Em. destruct (o m Em) as [E|]; [discriminate|auto].
      * constructor; auto. exists c, min, max. auto.
  - split; constructor.
  - destruct H as (A & B); auto. destruct H0 as (C & D); auto.
  - cbn. split; auto.
  - destruct H2 as (t0 & l0 & min & max & W & I & Ic). destruct (cards_tok_external _ _ _ _ _ _ _ _ H0 W I Ic) as (Cr & Cc).
    cbn. split; auto. destruct (H Cr Cc (within_refl _) e) as (A & G).
    intros u N. destruct N as [|u v P N].
    + destruct (A t (nested_refl _)) as ((l1 & E1 & E2 & E3) & On). split; [exists l1; cbn; rewrite <- G; auto|exact On].
    + destruct P as [l1 e1 v1 E1 I1 Ic1|l1 e1 b p1 v1 E1 I1 Ic1 Ip|v1 I1]; cbn [tr_block tr_suffix] in *.
      * apply A. eapply nested_step; eauto. eapply part_content; eauto.
      * apply A. eapply nested_step; eauto. eapply part_prefix; eauto.
      * destruct I1.
  - cbn. destruct (H H0 H1 w e) as (A & G). auto.
  - cbn. destruct (H H0 H1 w e) as (A & G). rewrite G. auto.
  - cbn. destruct H as (A & G); auto. intros ? ? [].
  - constructor.
  - assert (Ne : tree_bytes true t <> []) by (intros E; rewrite E in *; cbn [length] in *; lia).
    constructor; auto. apply H; eauto using within_refl, tree_bytes_successful. intros ? ? [].
  - destruct H.
  - destruct H0 as [<-|I]; eauto.
  - rewrite in_app_iff in H2. destruct H2 as [I|I]; eauto. rewrite in_map_iff in I. destruct I as (b & <- & _). eauto.
Qed.

(** ** Language *)
Definition plain_tok (r : token) : Prop :=
  forall root chs t cond, uses (Grammar r []) (Grammar root chs) -> In (Channel t cond) chs -> plain_token t.

Lemma plain_tok_external r t l n root chs min max : plain_tok r -> within r t -> In l (t_lines t) ->
  In (CElement (EExternal n (Grammar root chs)) min max) l -> plain_tok root /\ plain_chs chs.
Proof.
  intros H W I Ic. assert (U : uses (Grammar r []) (Grammar root chs)) by (eapply uses_external; eauto using uses_refl). split.
  - intros root' chs' c cond U' Hc. destruct (uses_nil _ chs _ U') as [V|[= -> ->]]; [|destruct Hc].
    eapply H; [|eauto]. eapply uses_trans; eauto.
  - intros c cond Hc. eapply H; eauto.
Qed.
Lemma plain_channels_split root chs : plain_channels (Grammar root chs) -> plain_tok root /\ plain_chs chs.
Proof.
  intros H. split.
  - intros root' chs' c cond U' Hc. destruct (uses_nil _ chs _ U') as [V|[= -> ->]]; [|destruct Hc]. eapply H; eauto.
  - intros c cond Hc. eapply H; eauto using uses_refl.
Qed.
Lemma plain_token_tok r : plain_token r -> plain_tok r.
Proof.
  intros H root chs c cond U. enough (E : Grammar root chs = Grammar r []) by (injection E as -> ->; intros []).
  induction U as [|root' chs' t l n g' min max U IH W I Ic|root' chs' t cond' U IH I|root' chs' t b a U IH I|root' chs' t b a U IH I]; auto;
    injection IH as -> ->; try solve [destruct I]. destruct (H _ _ _ W I Ic).
Qed.
Lemma lang_skip_nil s : lang_skip [] s -> s = [].
Proof. inversion 1; subst; auto. destruct H0. Qed.

Lemma soundness :
  (forall r esc chs rev t cur x, p_token r esc chs rev t cur x -> rev = false -> plain_tok r -> plain_chs chs ->
     cards_tok r -> cards_chs chs -> within r t -> has_successful x = true ->
     exists v s, cur = v ++ s ++ tr_remaining x /\ lang_token r chs t v /\ lang_skip chs s) /\
  (forall r esc chs rev l cur i tl rem, p_line r esc chs rev l cur i tl rem -> rev = false -> plain_tok r -> plain_chs chs ->
     cards_tok r -> cards_chs chs -> (exists t, within r t /\ In l (t_lines t)) ->
     exists v, cur = v ++ rem /\ lang_line r chs l v) /\
  (forall r esc chs rev l cur es rem, p_containers r esc chs rev l cur es rem -> rev = false -> plain_tok r -> plain_chs chs ->
     cards_tok r -> cards_chs chs -> (exists t l0, within r t /\ In l0 (t_lines t) /\ incl l l0) ->
     exists v, cur = v ++ rem /\ lang_line r chs l v) /\
  (forall r esc chs rev c cur cs rem, p_times r esc chs rev c cur cs rem -> rev = false -> plain_tok r -> plain_chs chs ->
     cards_tok r -> cards_chs chs -> (exists t l0 min max, within r t /\ In l0 (t_lines t) /\ In (CElement c min max) l0) ->
     exists v, cur = v ++ rem /\ lang_times r chs c (length cs) v) /\
  (forall r esc chs rev c cur x rem, p_content r esc chs rev c cur x rem -> rev = false -> plain_tok r -> plain_chs chs ->
     cards_tok r -> cards_chs chs -> (exists t l0 min max, within r t /\ In l0 (t_lines t) /\ In (CElement c min max) l0) ->
     exists v, cur = v ++ rem /\ lang_content r chs c v) /\
  (forall chs cur ts rem, p_skip chs cur ts rem -> plain_chs chs -> cards_chs chs ->
     exists v, cur = v ++ rem /\ lang_skip chs v) /\
  (forall r esc chs l cur cs rem, p_until r esc chs l cur cs rem -> True).
Proof.
  apply parse_ind; intros; auto.
  - destruct H as (v & -> & Lv); eauto using nth_error_In. destruct H0 as (s & -> & Ls); auto.
    exists v, s. repeat split; auto. econstructor; eauto using nth_error_In.
  - unfold has_successful in *; cbn [tr_block] in *. rewrite successful_none in * by assumption. discriminate.
  - discriminate.
  - apply H; auto. destruct H5 as (t & W & I). exists t, l. repeat split; auto. apply incl_refl.
  - exists []. split; auto. constructor.
  - destruct H6 as (t & l9 & W & I & Inc).
    destruct H as (v & -> & Lv); auto. { exists t, l9, min, max. repeat split; auto. apply Inc. now left. }
    destruct H0 as (u & -> & Lu); auto. { exists t, l9. repeat split; auto. intros y Hy; apply Inc; now right. }
    pose proof (cards_tok_every _ H4 _ _ _ W I (Inc _ (or_introl eq_refl))) as ((M0 & M1) & M2).
    match goal with L : (i64 min <= _)%Z |- _ => rewrite i64_small in L by (rewrite two63_val in *; lia); rename L into Lm end.
    exists (v ++ u). rewrite <- app_assoc. split; auto. econstructor; eauto.
    intros m Em. destruct (o m Em) as [->|]; auto.
  - exists []. split; auto. constructor.
  - destruct H as (v & -> & Lv); auto. destruct H0 as (u & -> & Lu); auto.
    exists (v ++ u). rewrite <- app_assoc. split; auto. cbn [length]. now constructor.
  - destruct H as (v & -> & Lv); auto. exists (v ++ [b]). rewrite <- app_assoc. split; auto. now constructor.
  - destruct H5 as (t0 & l0 & min & max & W & I & Ic). destruct (cards_tok_external _ _ _ _ _ _ _ _ H3 W I Ic) as (Cr & Cc).
    destruct (plain_tok_external _ _ _ _ _ _ _ _ H1 W I Ic) as (Pr & Pc).
    destruct H as (v & s & -> & Lv & Ls); auto using within_refl. exists (v ++ s ++ tr_remaining t). rewrite app_nil_r.
    split; auto. now constructor.
  - destruct H as (v & s & E & Lv & Ls); auto. exists (v ++ s). rewrite <- app_assoc. split; auto. now constructor.
  - destruct H as (v & s & E & Lv & Ls); auto. exists (v ++ s). rewrite <- app_assoc. split; auto. econstructor; eauto.
  - match goal with P : p_token _ _ _ _ _ _ _ |- _ => destruct (token_eats _ _ _ _ _ _ _ P) as (w1 & E & L) end.
    exists w1. split; auto. constructor. intros ->. unfold has_successful in e. unfold line_count in L.
    destruct (successful _); [cbn [length] in L; lia|discriminate].
  - exists []. split; auto. constructor.
  - assert (Ne : tree_bytes true t <> []) by (intros E; rewrite E in *; cbn [length] in *; lia).
    assert (Hs := tree_bytes_successful _ _ Ne).
    assert (X : cur = tree_bytes true t ++ tr_remaining t).
    { eapply fidelity; eauto using within_refl. intros ? ? []. }
    destruct H as (v & s & E & Lv & Ls); eauto using within_refl, plain_token_tok; [intros ? ? []..|].
    apply lang_skip_nil in Ls as ->. cbn [app] in E. rewrite X in E. apply app_inv_tail in E.
    destruct H0 as (u & Eu & Lu); auto.
    exists (v ++ u). split; [|econstructor; eauto].
    rewrite <- app_assoc, <- Eu, <- E. symmetry. rewrite X at 1 2.
    rewrite skipn_app, skipn_all, Nat.sub_diag. reflexivity.
Qed.
