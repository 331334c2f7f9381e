(** The parser agrees with parsing expressions. *)
From Coq Require Import List ZArith Lia Bool.
From Coq Require Import Init.Byte Strings.Byte.
From Verif Require Import Base BaseLemmas AstModel SpecAst AstProofs AstTraceProofs AstFuelProofs AstListProofs SpecPeg.
Import ListNotations.

(** ** Parsing expressions *)
Definition skipper (chs : list channel) : bytes -> bytes :=
  peg_skip (map (fun c => let 'Channel t _ := c in peg_token (peg_skip []) t) chs).
Definition line_peg (sk : bytes -> bytes) (l : list container) : peg (list (bytes * list ast)) :=
  peg_seq (map (fun c => (c_name c, peg_container sk c)) l).

Lemma peg_token_eq sk t d : peg_token sk t d =
  match peg_first 0 (map (line_peg sk) (t_lines t)) d with
  | Some (i, es, d') => Some (Node (t_name t) i es, sk d')
  | None => None
  end.
Proof. now destruct t. Qed.
Lemma skipper_nil : skipper [] = peg_skip [].
Proof. reflexivity. Qed.
Lemma peg_skip_nil d : peg_skip [] d = d.
Proof. unfold peg_skip. generalize (length d) as n. induction n as [|n IH]; auto. Qed.
Lemma peg_of_eq root chs : peg_of (Grammar root chs) = peg_token (skipper chs) root.
Proof. reflexivity. Qed.
Lemma tree_ast_eq g b s r : tree_ast (Tree g b s r) =
  match successful b with
  | Some l => Node (t_name g) (l_index l) (map element_ast (l_elements l))
  | None => Node (t_name g) 0 []
  end.
Proof.
  cbn [tree_ast]. unfold successful. induction b as [|l b IH]; cbn [find]; auto. destruct (line_ok l); auto.
  now destruct l.
Qed.

Definition lessens (sk : bytes -> bytes) : Prop := forall d, length (sk d) <= length d.
Lemma lessens_id : lessens (peg_skip []).
Proof. intros d. now rewrite peg_skip_nil. Qed.

Lemma peg_first_shrinks {A} (l : list (peg A)) : forall i d a d', peg_first i l d = Some (a, d') -> length d' < length d.
Proof.
  induction l as [|p l IH]; intros i d a d'; cbn [peg_first]; [discriminate|]. destruct (p d) as [[x r]|]; [|apply IH].
  destruct (Nat.ltb_spec (length r) (length d)) as [L|L]; [|apply IH]. intros H. injection H as _ <-. exact L.
Qed.
Lemma peg_token_shrinks sk t d a d' : lessens sk -> peg_token sk t d = Some (a, d') -> length d' < length d.
Proof.
  intros Ls. rewrite peg_token_eq. destruct (peg_first 0 (map (line_peg sk) (t_lines t)) d) as [[[i es] x]|] eqn:E; [|discriminate].
  intros [= _ <-]. apply peg_first_shrinks in E. specialize (Ls x). lia.
Qed.
Lemma peg_round_lessens ps : Forall (fun p : peg ast => forall d a d', p d = Some (a, d') -> length d' < length d) ps -> lessens (peg_round ps).
Proof.
  unfold peg_round. induction 1 as [|p ps Hp F IH]; intros d; cbn [fold_left]; auto.
  destruct (p d) as [[a d']|] eqn:E; [|apply IH]. apply Hp in E. specialize (IH d'). lia.
Qed.
Lemma iter_lessens f n : lessens f -> lessens (Nat.iter n f).
Proof. intros L d. induction n as [|n IH]; auto. cbn [Nat.iter nat_rect]. specialize (L (Nat.iter n f d)). unfold Nat.iter in *. lia. Qed.
Lemma skipper_lessens chs : lessens (skipper chs).
Proof.
  intros d. unfold skipper, peg_skip. apply iter_lessens. apply peg_round_lessens. apply Forall_forall. intros p I.
  apply in_map_iff in I as ([t cond] & <- & _). intros x a x'. apply peg_token_shrinks. apply lessens_id.
Qed.
Lemma peg_of_shrinks g d a d' : peg_of g d = Some (a, d') -> length d' < length d.
Proof. destruct g as [root chs]. rewrite peg_of_eq. apply peg_token_shrinks, skipper_lessens. Qed.

Lemma before_length {A} (p : peg A) d : length (fst (before p d)) + length (snd (before p d)) = length d.
Proof. induction d as [|b d IH]; cbn [before]; auto. destruct (p (b :: d)); auto. destruct (before p d). cbn [fst snd length] in *. lia. Qed.

Lemma peg_content_shrinks sk e d a d' : lessens sk -> peg_content sk e d = Some (a, d') -> length d' < length d.
Proof.
  intros Ls. destruct e as [n b|n g|t|n u esc|n]; cbn [peg_content]; try discriminate.
  - unfold peg_byte. specialize (Ls d). destruct (sk d) as [|x r]; [discriminate|]. destruct (Byte.eqb b x); [|discriminate].
    intros [= _ <-]. cbn [length] in Ls. lia.
  - destruct (peg_of g d) as [[y x]|] eqn:E; [|discriminate]. intros [= _ <-]. apply peg_of_shrinks in E. cbn [length]. lia.
  - now apply peg_token_shrinks.
  - destruct u as [m [|l ls] ss]; [discriminate|]. destruct esc; [discriminate|]. unfold peg_until.
    pose proof (before_length (peg_seq (map (fun c => (c_name c, peg_container (peg_skip []) c)) l)) d) as B.
    destruct (before (peg_seq (map (fun c => (c_name c, peg_container (peg_skip []) c)) l)) d) as [[|x w] r]; [discriminate|].
    intros [= _ <-]. cbn [fst snd length] in B. lia.
Qed.
Lemma peg_content_nil sk e : lessens sk -> peg_content sk e [] = None.
Proof. intros Ls. destruct (peg_content sk e []) as [[a d]|] eqn:E; auto. apply peg_content_shrinks in E; auto. cbn in E. lia. Qed.

(** ** Lines *)
Lemma fits_elements l es : fits l es -> forallb element_ok es = true.
Proof.
  induction 1 as [|c mi ma l es M F IH|c mi ma l cs es Nc M1 M2 F IH]; cbn [forallb]; auto. rewrite IH, andb_true_r.
  unfold element_ok, amount; cbn [el_grammar el_contents]. destruct (Z.ltb_spec (zlen cs) mi); [lia|].
  destruct ma as [m|]; auto. specialize (M2 _ eq_refl). destruct (Z.ltb_spec m (zlen cs)); [lia|]. reflexivity.
Qed.

Lemma fits_in l es : fits l es -> forall e, In e es -> exists c mi ma cs, e = TElement (Some (CElement c mi ma)) cs /\
  In (CElement c mi ma) l /\ cs <> [] /\ (mi <= zlen cs)%Z.
Proof.
  induction 1 as [|c mi ma l es M F IH|c mi ma l cs es Nc M1 M2 F IH]; intros e I; [destruct I| |].
  - destruct (IH e I) as (c' & a & b & cs & ? & ? & ?). exists c', a, b, cs. split; auto. split; auto. now right.
  - destruct I as [<-|I]; [exists c, mi, ma, cs; split; auto; split; auto; now left|].
    destruct (IH e I) as (c' & a & b & cs' & ? & ? & ?). exists c', a, b, cs'. split; auto. split; auto. now right.
Qed.
Lemma fits_required l es c mi ma : fits l es -> In (CElement c mi ma) l -> (0 < mi)%Z ->
  exists cs, In (TElement (Some (CElement c mi ma)) cs) es /\ (mi <= zlen cs)%Z.
Proof.
  induction 1 as [|c' mi' ma' l es M F IH|c' mi' ma' l cs es Nc M1 M2 F IH]; cbn [In]; intros I Z; [tauto| |].
  - destruct I as [[= -> -> ->]|I]; [lia|auto].
  - destruct I as [[= -> -> ->]|I]; [exists cs; auto|]. destruct (IH I Z) as (cs' & ? & ?). eauto.
Qed.

Lemma fits_line_ok l es i : fits l es -> compatible l -> (forall c, In c l -> match c with CElement _ _ _ => True | CCompose _ _ => False end) ->
  es <> [] -> line_ok (TLine i l false es) = true.
Proof.
  intros F N Hc Ne. unfold line_ok. cbn [l_elements l_reverse l_grammar orb].
  enough (E : forallb element_ok es && forallb (container_ok es) l = true) by (destruct es; [congruence|exact E]).
  rewrite (fits_elements _ _ F). cbn [andb]. apply forallb_forall. intros c I. specialize (Hc _ I).
  destruct c as [e mi ma|]; [|contradiction]. cbn [container_ok]. destruct (Z.leb_spec mi 0); auto.
  destruct (fits_required _ _ _ _ _ F I) as (cs & Ie & L); auto. destruct (fetch_element es (e_name e)) as [x|] eqn:Ef.
  - unfold fetch_element in Ef. apply find_some in Ef as (Ix & En). apply in_rev in Ix.
    destruct (fits_in _ _ F _ Ix) as (c' & mi' & ma' & cs' & -> & Ic' & Nc & Lc). cbn [el_grammar c_name] in En. apply bytes_eqb_true in En.
    specialize (N _ _ _ _ _ _ I Ic' (eq_sym En)). unfold amount; cbn [el_contents].
    destruct (Z.ltb_spec (zlen cs') mi); [|reflexivity]. destruct cs'; [congruence|]. unfold zlen in *. cbn [length] in *. lia.
  - exfalso. unfold fetch_element in Ef. apply find_none with (x := TElement (Some (CElement e mi ma)) cs) in Ef; [|now apply -> in_rev].
    cbn [el_grammar c_name] in Ef. now rewrite bytes_eqb_refl in Ef.
Qed.

(** ** The parser *)
Definition same (s s' : smap) : Prop := forall n, s_get s' n = s_get s n.
Lemma same_refl s : same s s.
Proof. intros n. reflexivity. Qed.
Lemma same_trans a b c : same a b -> same b c -> same a c.
Proof. intros A B n. now rewrite B, A. Qed.

Definition agrees (p : option (ast * bytes)) (o : outcome tree) : Prop :=
  match o with
  | Ok x => p = if has_successful x then Some (tree_ast x, tr_remaining x) else None
  | Err => p = None
  | _ => False
  end.

Definition fresh (t : token) (s : smap) : Prop := forall v, within t v -> s_get s (t_name v) = None.
Definition inner (t : token) (s : smap) : Prop := forall u, child t u -> fresh u s.
Lemma inner_same t s s' : inner t s -> same s s' -> inner t s'.
Proof. intros A B u C v W. rewrite B. eapply A; eauto. Qed.

Definition peg_call (call : call_t) : Prop := forall r chs, peg_grammar (Grammar r chs) ->
  (forall t s prev cur s' o, within r t -> fresh t s -> call t s None chs false prev cur = (s', o) -> o <> Fuel ->
     same s s' /\ agrees (peg_token (skipper chs) t cur) o) /\
  (forall sk t s prev cur s' o n, within r t -> fresh t s -> peg_ok (EEverything n t None) ->
     call t s None [] true prev cur = (s', o) -> o <> Fuel ->
     same s s' /\ agrees (peg_content sk (EEverything n t None) cur) o).

Lemma peg_grammar_uses g g' : peg_grammar g -> uses g g' -> peg_grammar g'.
Proof. intros Q U root chs U'. apply (Q root chs). eapply uses_trans; eauto. Qed.

Section Step.
  Variable call : call_t.
  Variable bound : nat.
  Hypothesis Hc : peg_call call.
  Hypothesis Ht : traced call.

  Section Root.
    Variable r : token.
    Variable chs : list channel.
    Hypothesis Hp : peg_grammar (Grammar r chs).

    Let Hn : forall t u v, within r t -> child t u -> within u v -> t_name v <> t_name t.
    Proof. destruct (Hp r chs (uses_refl _)) as ((? & ? & ? & ?) & ?). assumption. Qed.
    Let Hd : forall t l, within r t -> In l (t_lines t) -> compatible l.
    Proof. destruct (Hp r chs (uses_refl _)) as ((? & ? & ? & ?) & ?). assumption. Qed.
    Let Hcard : every_container card_ok r.
    Proof. destruct (Hp r chs (uses_refl _)) as ((? & ? & ? & ?) & ?). assumption. Qed.
    Let Hok : every_container (fun c => match c with CElement e _ _ => peg_ok e | CCompose _ _ => True end) r.
    Proof. destruct (Hp r chs (uses_refl _)) as ((? & ? & ? & ?) & ?). assumption. Qed.

    (** Channels. *)
    Definition channel_peg (c : channel) : peg ast := let 'Channel t _ := c in peg_token (peg_skip []) t.

    Lemma channel_run_peg c prev cur o : In c chs -> channel_run call c prev cur = o -> o <> Fuel ->
      match o with
      | Ok x => length (tree_bytes true x) <= length cur /\
          match channel_peg c cur with
          | Some (_, d) => 0 < length (tree_bytes true x) /\ skipn (length (tree_bytes true x)) cur = d
          | None => tree_bytes true x = []
          end
      | Err => channel_peg c cur = None
      | _ => False
      end.
    Proof.
      destruct c as [t cond]. intros I E Nf. unfold channel_run in E. cbn [channel_peg].
      destruct (Hp r chs (uses_refl _)) as (_ & Pc). destruct (Pc _ _ I) as (-> & Pl). clear Pc.
      assert (Pt : peg_grammar (Grammar t [])) by (eapply peg_grammar_uses; [exact Hp|eapply uses_channel; eauto using uses_refl]).
      destruct (call t [] None [] false prev cur) as [s' o'] eqn:Ec. cbn [snd] in E.
      assert (No : o' <> Fuel) by (intros ->; cbn in E; congruence).
      destruct (proj1 (Hc t [] Pt) t [] prev cur s' o' (within_refl t) (fun v _ => eq_refl) Ec No) as (_ & A).
      rewrite skipper_nil in A. destruct o' as [x| | |]; cbn [agrees] in A; try contradiction; cbn [bind] in E; subst o; auto.
      assert (Tr : p_token t None [] false t cur x).
      { eapply (Ht t t [] None [] false prev cur); eauto using scoped_nil, within_refl. intros e [=]. }
      destruct (has_successful x) eqn:Hs; rewrite A.
      - assert (F : cur = tree_bytes true x ++ tr_remaining x) by (eapply fidelity; eauto using within_refl; intros ? ? []).
        assert (L : length (tr_remaining x) < length cur) by (eapply peg_token_shrinks; eauto using lessens_id).
        assert (L2 : length cur = length (tree_bytes true x) + length (tr_remaining x)) by (rewrite F at 1; apply app_length).
        split; [lia|]. split; [lia|]. rewrite F at 1. now rewrite skipn_app, skipn_all, Nat.sub_diag.
      - assert (F : tree_bytes true x = []).
        { destruct (tree_bytes true x) eqn:E; auto. assert (X : has_successful x = true); [|congruence].
          apply tree_bytes_successful with (inc := true). rewrite E. discriminate. }
        rewrite F. cbn [length]. split; [lia|auto].
    Qed.

    Lemma channels_round_peg : forall l, incl l chs -> forall ts prev rem, channels_round call l (ts, prev, rem) <> Fuel ->
      exists ts1 prev', channels_round call l (ts, prev, rem) = Ok (ts ++ ts1, prev', peg_round (map channel_peg l) rem) /\
        (ts1 = [] -> peg_round (map channel_peg l) rem = rem) /\
        length (peg_round (map channel_peg l) rem) + length ts1 <= length rem.
    Proof.
      induction l as [|c l IH]; intros Inc ts prev rem Nf; cbn [channels_round map] in *.
      - exists [], prev. rewrite app_nil_r. unfold peg_round. cbn. split; auto. split; auto. lia.
      - assert (Ic := Inc _ (or_introl eq_refl)). assert (Inc' : incl l chs) by (intros x Hx; apply Inc; now right).
        assert (No : channel_run call c prev rem <> Fuel) by (intros E; rewrite E in Nf; congruence).
        pose proof (channel_run_peg c prev rem _ Ic eq_refl No) as Q.
        assert (R : peg_round (channel_peg c :: map channel_peg l) rem =
          peg_round (map channel_peg l) (match channel_peg c rem with Some (_, d) => d | None => rem end)) by reflexivity.
        rewrite R. destruct (channel_run call c prev rem) as [x| | |]; try contradiction.
        + destruct Q as (L & Q). revert Nf. destruct (Nat.ltb_spec (length rem) (length (tree_bytes true x))); [lia|].
          destruct (channel_peg c rem) as [[a d]|].
          * destruct Q as (L0 & <-). destruct (Nat.eqb_spec (length (tree_bytes true x)) 0); [lia|]. intros Nf.
            destruct (IH Inc' _ _ _ Nf) as (ts1 & prev' & E & A & B). exists (x :: ts1), prev'.
            rewrite <- app_assoc in E. split; [exact E|]. split; [discriminate|]. rewrite skipn_length in B. cbn [length]. lia.
          * rewrite Q in *. cbn [length Nat.eqb] in *. intros Nf. apply IH; auto.
        + rewrite Q. apply IH; auto.
    Qed.

    Lemma iter_fixed {A} (f : A -> A) n x : f x = x -> Nat.iter n f x = x.
    Proof. intros E. induction n as [|n IH]; auto. cbn [Nat.iter nat_rect]. unfold Nat.iter in IH. now rewrite IH. Qed.

    Lemma iter_succ {A} (f : A -> A) n x : Nat.iter (S n) f x = Nat.iter n f (f x).
    Proof. induction n as [|n IH]; auto. unfold Nat.iter in *. cbn [nat_rect] in *. now rewrite IH. Qed.

    Lemma channels_loop_peg l : incl l chs -> forall f ts prev rem, channels_loop call f l (ts, prev, rem) <> Fuel ->
      exists ts1 prev' rem', channels_loop call f l (ts, prev, rem) = Ok (ts ++ ts1, prev', rem') /\
        (ts1 = [] -> rem' = rem) /\ forall n, length rem <= n -> Nat.iter n (peg_round (map channel_peg l)) rem = rem'.
    Proof.
      intros Inc. induction f as [|f IH]; intros ts prev rem Nf; cbn [channels_loop] in *; [congruence|].
      assert (N1 : channels_round call l (ts, prev, rem) <> Fuel) by (intros E; rewrite E in Nf; apply Nf; reflexivity).
      destruct (channels_round_peg l Inc _ _ _ N1) as (ts1 & prev1 & E & A & B). rewrite E in *. cbn [bind fst snd] in *.
      rewrite app_length in *. destruct ts1 as [|x ts1]; cbn [length] in *.
      - rewrite Nat.add_0_r in *. rewrite Nat.eqb_refl in *. exists [], prev1, (peg_round (map channel_peg l) rem).
        split; auto. split; auto. intros n _. rewrite A by auto. apply iter_fixed. auto.
      - destruct (Nat.eqb_spec (length ts) (length ts + S (length ts1))); [lia|].
        destruct (IH _ _ _ Nf) as (ts2 & prev2 & rem2 & E2 & A2 & B2). exists ((x :: ts1) ++ ts2), prev2, rem2.
        rewrite <- app_assoc in E2. split; [exact E2|]. split; [discriminate|]. intros k L.
        destruct k as [|k]; [lia|]. rewrite iter_succ. apply B2. lia.
    Qed.

    Lemma channels_try_peg l prev cur : incl l chs -> channels_try call bound l prev cur <> Fuel ->
      exists ts, channels_try call bound l prev cur = Ok (ts, skipper l cur).
    Proof.
      intros Inc Nf. unfold channels_try in *. destruct l as [|c l]; [exists []; now rewrite skipper_nil, peg_skip_nil|].
      set (l0 := c :: l) in *. clearbody l0. clear c l. unfold channels_run in *.
      assert (N1 : channels_loop call bound l0 ([], prev, cur) <> Fuel) by (intros E; rewrite E in Nf; apply Nf; reflexivity).
      destruct (channels_loop_peg l0 Inc _ _ _ _ N1) as (ts1 & prev' & rem' & E & A & B). rewrite E. cbn [bind fst snd app].
      assert (S1 : skipper l0 cur = rem') by (apply B; lia). rewrite S1.
      destruct ts1 as [|x ts1]; [exists []; now rewrite A|eexists; reflexivity].
    Qed.

    Section Line.
      Variable t : token.
      Variable l0 : list container.
      Hypothesis Wt : within r t.
      Hypothesis Il : In l0 (t_lines t).

      Variable ch : list channel.
      Hypothesis Hch : incl ch chs.
      Let sk := skipper ch.
      Let Ls : lessens sk := skipper_lessens ch.

      Definition usable (rev : bool) (c : container) : Prop := (rev = false /\ ch = chs) \/ value_container c.

      Lemma found_agrees x p rem : agrees p (Ok x) -> rem = tr_remaining x ->
        match found x rem with Ok (z, y) => p = Some (content_ast z, y) | Err => p = None | _ => False end.
      Proof. intros A ->. unfold found. cbn in A. destruct (has_successful x); auto. Qed.

      Lemma element_value_peg b prev cur : element_value call bound b ch prev cur <> Fuel ->
        match element_value call bound b ch prev cur with
        | Ok (Some (x, rem)) => peg_byte b (sk cur) = Some (content_ast x, rem)
        | Ok None => peg_byte b (sk cur) = None
        | Err => peg_byte b (sk cur) = None
        | _ => False
        end.
      Proof.
        intros Nf. unfold element_value in *.
        assert (N1 : channels_try call bound ch prev cur <> Fuel) by (intros E; rewrite E in Nf; apply Nf; reflexivity).
        destruct (channels_try_peg ch prev cur Hch N1) as (ts & E). fold sk in E. rewrite E in *. cbn [bind fst snd] in *.
        unfold peg_byte. destruct (sk cur) as [|x rem]; auto. destruct (Byte.eqb b x) eqn:Eb; auto.
        apply byte_eqb_true in Eb. now subst x.
      Qed.

      Lemma element_run_peg c mi ma s rev prev cur s' o : In (CElement c mi ma) l0 -> inner t s -> usable rev (CElement c mi ma) ->
        element_run call bound c s None ch rev prev cur = (s', o) -> o <> Fuel ->
        same s s' /\ match o with Ok (x, rem) => peg_content sk c cur = Some (content_ast x, rem) | Err => peg_content sk c cur = None | _ => False end.
      Proof.
        intros Ic In0 Us E Nf. unfold element_run in E. destruct cur as [|b0 cur0].
        { injection E as <- <-. split; [apply same_refl|]. apply peg_content_nil, Ls. }
        set (cur := b0 :: cur0) in *. pose proof (Hok _ _ _ Wt Il Ic) as Ok'. cbn beta iota in Ok'.
        destruct c as [n b|n g|u|n u esc|n]; try contradiction.
        - injection E as <- <-. split; [apply same_refl|].
          assert (N1 : element_value call bound b ch prev cur <> Fuel) by (intros E; rewrite E in Nf; apply Nf; reflexivity).
          pose proof (element_value_peg b prev cur N1) as V. cbn [peg_content].
          destruct (element_value call bound b ch prev cur) as [[[y rem]|]| | |]; cbn [bind]; auto.
        - destruct Us as [(-> & ->)|[]]. injection E as <- <-. split; [apply same_refl|]. destruct g as [root chs'].
          unfold external_run in *. cbn [peg_content]. rewrite peg_of_eq.
          assert (Pg : peg_grammar (Grammar root chs')) by (eapply peg_grammar_uses; [exact Hp|eapply uses_external; eauto using uses_refl]).
          destruct (call root [] None chs' false prev cur) as [s2 o2] eqn:Ec. cbn [snd] in *.
          assert (N2 : o2 <> Fuel) by (intros ->; apply Nf; reflexivity).
          destruct (proj1 (Hc root chs' Pg) root [] prev cur s2 o2 (within_refl root) (fun v _ => eq_refl) Ec N2) as (_ & Ag).
          destruct o2 as [x| | |]; cbn [bind] in *; try contradiction.
          + unfold found. cbn in Ag. change (has_successful (Tree _ (tr_block x) [] [])) with (has_successful x).
            destruct (has_successful x) eqn:Hs; rewrite Ag; [|reflexivity]. cbn [content_ast]. destruct x as [xg xb xs xr].
            rewrite !tree_ast_eq. cbn [tr_block t_name]. destruct (successful xb); reflexivity.
          + cbn in Ag. now rewrite Ag.
        - destruct Us as [(-> & ->)|[]]. assert (C : child t u) by (eapply child_token; eauto).
          assert (Wu : within r u) by (apply (within_step r t u Wt C)).
          destruct (call u s None chs false prev cur) as [s2 o2] eqn:Ec.
          assert (N2 : o2 <> Fuel) by (intros ->; cbn in E; injection E as <- <-; congruence).
          destruct (proj1 (Hc r chs Hp) u s prev cur s2 o2 Wu (In0 u C) Ec N2) as (Sm & Ag).
          destruct o2 as [x| | |]; cbn [sbind] in E; injection E as <- <-; split; auto; try exact Ag.
          + exact (found_agrees x _ _ Ag eq_refl).
        - destruct esc as [esc|]; [contradiction|]. destruct Us as [(-> & ->)|[]].
          assert (C : child t u) by (eapply child_exception; eauto).
          assert (Wu : within r u) by (apply (within_step r t u Wt C)). cbn [negb] in E.
          destruct (call u s None [] true prev cur) as [s2 o2] eqn:Ec.
          assert (N2 : o2 <> Fuel) by (intros ->; cbn in E; injection E as <- <-; congruence).
          destruct (proj2 (Hc r chs Hp) sk u s prev cur s2 o2 n Wu (In0 u C) Ok' Ec N2) as (Sm & Ag).
          destruct o2 as [x| | |]; cbn [sbind] in E; injection E as <- <-; split; auto; try exact Ag.
          + exact (found_agrees x _ _ Ag eq_refl).
      Qed.

      Lemma repeat_run_peg c mi ma rev : In (CElement c mi ma) l0 -> usable rev (CElement c mi ma) ->
        forall f s cs prev cur s' o, inner t s -> repeat_run call bound f c ma s None ch rev cs prev cur = (s', o) -> o <> Fuel ->
        same s s' /\ match o with
        | Ok (cs', _, cur') => exists cs1, cs' = cs ++ cs1 /\ (cs1 = [] -> cur' = cur) /\ length cur' + length cs1 <= length cur /\
            (forall m, ma = Some m -> cs1 = [] \/ (zlen cs' <= m)%Z) /\
            forall n, length cur <= n -> peg_greedy (peg_content sk c) ma n (zlen cs) cur = (map content_ast cs1, cur')
        | _ => False
        end.
      Proof.
        intros Ic Us.
        assert (Nil : forall cs n, peg_greedy (peg_content sk c) ma n (zlen (cs : list tcontent)) [] = ([], [])).
        { intros cs n. destruct n; cbn [peg_greedy]; auto. rewrite peg_content_nil by exact Ls. destruct (match ma with Some m => _ | None => _ end); auto. }
        induction f as [|f IH]; intros s cs prev cur s' o In0 E Nf; cbn [repeat_run] in E.
        - destruct cur as [|b cur0].
          + injection E as <- <-. split; [apply same_refl|]. exists []. rewrite app_nil_r. repeat split; auto; try (cbn [length]; lia).
          + destruct (match ma with Some m => _ | None => _ end) eqn:Em; injection E as <- <-; [|congruence].
            split; [apply same_refl|]. exists []. rewrite app_nil_r. repeat split; auto; try (cbn [length]; lia).
            intros n L. destruct n as [|n]; cbn [peg_greedy]; auto. now rewrite Em.
        - destruct cur as [|b cur0].
          + injection E as <- <-. split; [apply same_refl|]. exists []. rewrite app_nil_r. repeat split; auto; try (cbn [length]; lia).
          + set (cur := b :: cur0) in *. destruct (match ma with Some m => _ | None => _ end) eqn:Em.
            { injection E as <- <-. split; [apply same_refl|]. exists []. rewrite app_nil_r. repeat split; auto; try (cbn [length]; lia).
              intros n L. destruct n as [|n]; cbn [peg_greedy]; auto. now rewrite Em. }
            destruct (element_run call bound c s None ch rev prev cur) as [s1 o1] eqn:Ee.
            assert (N1 : o1 <> Fuel) by (intros ->; cbn in E; injection E as <- <-; congruence).
            destruct (element_run_peg c mi ma s rev prev cur s1 o1 Ic In0 Us Ee N1) as (Sm & Ag).
            destruct o1 as [[x rem]| | |]; cbn [stry] in E; try contradiction.
            * pose proof (peg_content_shrinks _ _ _ _ _ Ls Ag) as Sh.
              destruct (IH _ _ _ _ _ _ (inner_same _ _ _ In0 Sm) E Nf) as (Sm2 & P). split; [eapply same_trans; eauto|].
              destruct o as [[[cs' prev'] cur']| | |]; try contradiction.
              destruct P as (cs1 & -> & P1 & P2 & P3 & P4). exists (x :: cs1). rewrite <- app_assoc. repeat split; auto.
              -- discriminate.
              -- cbn [length] in *. lia.
              -- intros m ->. right. destruct (P3 m eq_refl) as [->|L]; [|now rewrite <- app_assoc in L].
                 apply Z.leb_gt in Em. rewrite app_nil_r, zlen_app. unfold zlen at 2. cbn [length]. lia.
              -- intros n L. destruct n as [|n]; [cbn [length] in L; unfold cur in L; cbn [length] in L; lia|]. cbn [peg_greedy].
                 rewrite Em, Ag. replace (zlen cs + 1)%Z with (zlen (cs ++ [x])) by (rewrite zlen_app; reflexivity).
                 rewrite P4 by lia. reflexivity.
            * injection E as <- <-. split; auto. exists []. rewrite app_nil_r. repeat split; auto; try (cbn [length]; lia).
              intros n L. destruct n as [|n]; cbn [peg_greedy]; auto. now rewrite Em, Ag.
      Qed.

      Lemma containers_run_peg rev prev0 : forall l, incl l l0 -> Forall (usable rev) l ->
        forall s es prev cur s' o, inner t s -> containers_run call bound l s None ch rev prev0 es prev cur = (s', o) -> o <> Fuel ->
        same s s' /\ match o with
        | Ok (es', rem) => exists es1, es' = es ++ es1 /\ line_peg sk l cur = Some (map element_ast es1, rem) /\ fits l es1 /\ (es1 = [] -> rem = cur) /\
            length rem + length es1 <= length cur
        | Err => line_peg sk l cur = None
        | _ => False
        end.
      Proof.
        unfold line_peg. induction l as [|[c mi ma|n vs] l IH]; intros Inc Us s es prev cur s' o In0 E Nf; cbn [containers_run] in E.
        - injection E as <- <-. split; [apply same_refl|]. exists []. rewrite app_nil_r. repeat split; auto. constructor. cbn; lia.
        - assert (Ic := Inc _ (or_introl eq_refl)). assert (Inc' : incl l l0) by (intros x Hx; apply Inc; now right).
          inversion Us as [|? ? Uc Ul]; subst. cbn [map peg_seq peg_container].
          destruct (repeat_run call bound bound c ma s None ch rev [] prev cur) as [s1 o1] eqn:Er.
          assert (N1 : o1 <> Fuel) by (intros ->; cbn in E; injection E as <- <-; congruence).
          destruct (repeat_run_peg c mi ma rev Ic Uc _ _ _ _ _ _ _ In0 Er N1) as (Sm & P).
          destruct o1 as [[[cs prev1] cur1]| | |]; try contradiction. cbn [sbind] in E.
          destruct P as (cs1 & -> & P1 & P2 & P3 & P4). cbn [app] in *.
          unfold peg_times. change 0%Z with (zlen (@nil tcontent)). rewrite P4 by lia.
          replace (zlen (map content_ast cs1)) with (zlen cs1) by (unfold zlen; now rewrite map_length).
          pose proof (Hcard _ _ _ Wt Il Ic) as ((M0 & M1) & M2).
          rewrite i64_small in E by (rewrite two63_val in *; lia).
          destruct (Z.ltb_spec (zlen cs1) mi) as [|Lm].
          { injection E as <- <-. auto. }
          destruct (IH Inc' Ul _ _ _ _ _ _ (inner_same _ _ _ In0 Sm) E Nf) as (Sm2 & Q). split; [eapply same_trans; eauto|].
          destruct o as [[es' rem]| | |]; auto; [|now rewrite Q]. destruct Q as (es1 & -> & Q0 & Q1 & Q2 & Q3). rewrite Q0.
          destruct cs1 as [|x cs1].
          + exists es1. repeat split; auto.
            * apply fits_absent; auto.
            * intros ->. rewrite Q2; auto.
            * cbn [length] in P2. lia.
          + exists (TElement (Some (CElement c mi ma)) (x :: cs1) :: es1). rewrite <- app_assoc. repeat split; auto.
            * apply fits_present; auto; [discriminate|]. intros m Em. destruct (P3 m Em) as [|]; [discriminate|auto].
            * discriminate.
            * cbn [length] in *. lia.
        - injection E as <- <-. split; [apply same_refl|]. cbn [map peg_seq peg_container].
          assert (K : forall l' cur', compose_run call bound l' ch prev0 cur' <> Panic).
          { induction l' as [|[b z] l' IHl]; intros cur'; cbn [compose_run]; [discriminate|].
            destruct (element_value call bound b ch prev0 cur') as [[[x y]|]| | |] eqn:Ev; cbn [bind]; auto; try discriminate.
            exfalso. assert (N1 : element_value call bound b ch prev0 cur' <> Fuel) by congruence.
            pose proof (element_value_peg b prev0 cur' N1) as V. now rewrite Ev in V. }
          specialize (K vs cur). destruct (compose_run call bound vs ch prev0 cur); cbn [bind] in *; auto; congruence.
      Qed.

      Lemma line_run_peg rev i s prev cur s' o : Forall (usable rev) l0 -> inner t s ->
        line_run call bound l0 i s None ch rev prev cur = (s', o) -> o <> Fuel ->
        same s s' /\ match o with
        | Ok (tl, rem) => line_peg sk l0 cur = Some (map element_ast (l_elements tl), rem) /\ l_index tl = i /\ line_ok tl = (length rem <? length cur)
        | Err => line_peg sk l0 cur = None
        | _ => False
        end.
      Proof.
        intros Us In0 E Nf. unfold line_run in E.
        destruct (containers_run call bound l0 s None ch rev prev [] prev cur) as [s1 o1] eqn:Ec.
        assert (N1 : o1 <> Fuel) by (intros ->; cbn in E; injection E as <- <-; congruence).
        destruct (containers_run_peg rev prev l0 (incl_refl _) Us _ _ _ _ _ _ In0 Ec N1) as (Sm & P).
        destruct o1 as [[es rem]| | |]; cbn [sbind] in E; injection E as <- <-; split; auto.
        cbn [fst snd]. destruct P as (es1 & -> & P0 & F & P1 & P2). split; [exact P0|]. split; auto. cbn [app].
        destruct es1 as [|e es1].
        - rewrite P1 by auto. rewrite Nat.ltb_irrefl. reflexivity.
        - destruct (Nat.ltb_spec (length rem) (length cur)); [|cbn [length] in P2; lia].
          apply fits_line_ok; auto; [eapply Hd; eauto| |discriminate].
          intros c Ic. destruct c; auto. apply (fun H => H Ic).
          clear - F. remember (e :: es1) as es2. clear Heqes2. intros I. induction F; [destruct I| |]; (destruct I as [I|I]; [discriminate|auto]).
      Qed.

      Lemma reverse_loop_peg i : Forall value_container l0 -> forall f s cs prev cur s' o, inner t s ->
        reverse_loop call bound f l0 i s None ch cs prev cur = (s', o) -> o <> Fuel ->
        same s s' /\ match o with
        | Ok (cs', cur') => exists w, cs' = cs ++ map (fun b => TValue b []) w /\ before (line_peg sk l0) cur = (w, cur')
        | _ => False
        end.
      Proof.
        intros V. assert (Us : Forall (usable true) l0) by (eapply Forall_impl; [|exact V]; intros c Hv; now right).
        induction f as [|f IH]; intros s cs prev cur s' o In0 E Nf; cbn [reverse_loop] in E; destruct cur as [|b cur0].
        - injection E as <- <-. split; [apply same_refl|]. exists []. cbn [map]. rewrite app_nil_r. auto.
        - injection E as <- <-. congruence.
        - injection E as <- <-. split; [apply same_refl|]. exists []. cbn [map]. rewrite app_nil_r. auto.
        - cbn [escape_run sbind] in E. set (cur := b :: cur0) in *.
          destruct (line_run call bound l0 i s None ch true prev cur) as [s1 o1] eqn:El.
          assert (N1 : o1 <> Fuel) by (intros ->; cbn in E; injection E as <- <-; congruence).
          destruct (line_run_peg true i s prev cur s1 o1 Us In0 El N1) as (Sm & P).
          destruct o1 as [[tl rem]| | |]; cbn [stry] in E; try contradiction.
          + injection E as <- <-. split; auto. destruct P as (P & _). exists []. cbn [map]. rewrite app_nil_r. split; auto.
            unfold cur. cbn [before]. fold cur. now rewrite P.
          + destruct (IH _ _ _ _ _ _ (inner_same _ _ _ In0 Sm) E Nf) as (Sm2 & Q). split; [eapply same_trans; eauto|].
            destruct o as [[cs' cur']| | |]; auto. destruct Q as (w & -> & Q). exists (b :: w). cbn [map]. rewrite <- app_assoc.
            split; auto. unfold cur. cbn [before]. fold cur. now rewrite P, Q.
      Qed.
    End Line.

    (** The map while a token is parsed. *)
    Definition doing (t : token) (i : nat) (s s1 : smap) : Prop :=
      (exists ls, s_get s1 (t_name t) = Some (t, ls) /\ forall j, i <= j -> line_get ls j = None) /\
      forall n, n <> t_name t -> s_get s1 n = s_get s n.

    Lemma doing_inner t i s s1 : within r t -> fresh t s -> doing t i s s1 -> inner t s1.
    Proof.
      intros W F (_ & D) u C v Wv. rewrite D by (eapply Hn; eauto). apply F.
      clear - C Wv. induction Wv as [|a b Wa IHa Cb]; [eapply within_step; eauto using within_refl|eapply within_step; eauto].
    Qed.
    Lemma doing_same t i s s1 s2 : doing t i s s1 -> same s1 s2 -> doing t i s s2.
    Proof. intros ((ls & G & L) & D) Sm. split; [exists ls; rewrite Sm; auto|]. intros n Nn. rewrite Sm. auto. Qed.
    Lemma doing_mark t i s s1 d : doing t i s s1 -> doing t (S i) s (s_mark s1 t i d).
    Proof.
      intros ((ls & G & L) & D). unfold s_mark. rewrite G. split.
      - exists ((i, d) :: ls). rewrite s_get_set, bytes_eqb_refl. split; auto. intros j Lj. cbn [line_get].
        destruct (Nat.eqb_spec i j); [lia|]. apply L. lia.
      - intros n Nn. rewrite s_get_set. destruct (bytes_eqb (t_name t) n) eqn:En; auto. apply bytes_eqb_true in En. congruence.
    Qed.
    Lemma doing_visited t i s s1 d : doing t i s s1 -> s_visited s1 (t_name t) i d = false.
    Proof. intros ((ls & G & L) & _). unfold s_visited. rewrite G, L; auto. Qed.
    Lemma doing_enter t s : fresh t s -> doing t 0 s (s_enter s t).
    Proof.
      intros F. unfold s_enter. rewrite F by constructor. split.
      - exists []. rewrite s_get_set, bytes_eqb_refl. auto.
      - intros n Nn. rewrite s_get_set. destruct (bytes_eqb (t_name t) n) eqn:En; auto. apply bytes_eqb_true in En. congruence.
    Qed.
    Lemma doing_del t i s s1 : fresh t s -> doing t i s s1 -> same s (s_del s1 (t_name t)).
    Proof.
      intros F (_ & D) n. rewrite s_get_del. destruct (bytes_eqb (t_name t) n) eqn:En.
      - apply bytes_eqb_true in En as <-. symmetry. apply F. constructor.
      - apply D. intros ->. rewrite bytes_eqb_refl in En. discriminate.
    Qed.

    Lemma block_run_peg t s : within r t -> fresh t s ->
      forall ls, incl ls (t_lines t) -> forall i s1 acc prev cur s' o, doing t i s s1 -> Forall (fun x => line_ok x = false) acc ->
      block_run call bound t ls i s1 None chs false acc prev cur = (s', o) -> o <> Fuel ->
      (exists j, doing t j s s') /\ match o with
      | Ok (b, rem) => peg_first i (map (line_peg (skipper chs)) ls) cur =
          match successful b with Some l => Some (l_index l, map element_ast (l_elements l), rem) | None => None end
      | _ => False
      end.
    Proof.
      intros W F. induction ls as [|l ls IH]; intros Inc i s1 acc prev cur s' o D Fa E Nf; cbn [block_run] in E.
      - injection E as <- <-. split; eauto. now rewrite successful_none.
      - assert (Il := Inc _ (or_introl eq_refl)). assert (Inc' : incl ls (t_lines t)) by (intros x Hx; apply Inc; now right).
        rewrite (doing_visited _ _ _ _ _ D) in E. assert (D1 := doing_mark _ _ _ _ cur D).
        destruct (line_run call bound l i (s_mark s1 t i cur) None chs false prev cur) as [s2 o2] eqn:El.
        assert (N2 : o2 <> Fuel) by (intros ->; cbn in E; injection E as <- <-; congruence).
        assert (Us : Forall (usable chs false) l) by (apply Forall_forall; intros; left; auto).
        destruct (line_run_peg t l W Il chs (incl_refl _) false i _ prev cur s2 o2 Us (doing_inner _ _ _ _ W F D1) El N2) as (Sm & P).
        assert (D2 := doing_same _ _ _ _ _ D1 Sm). cbn [map peg_first].
        destruct o2 as [[tl rem]| | |]; cbn [stry] in E; try contradiction.
        + destruct P as (-> & Li & Lk). destruct (line_ok tl) eqn:Eo; rewrite <- Lk.
          * injection E as <- <-. split; eauto. rewrite successful_last by auto. now rewrite Li.
          * apply (IH Inc' _ _ _ _ _ _ _ D2 (proj2 (Forall_app _ _ _) (conj Fa (Forall_cons _ Eo (Forall_nil _)))) E Nf).
        + rewrite P. eapply IH; eauto.
    Qed.

    Lemma token_step_peg :
      (forall t s prev cur s' o, within r t -> fresh t s -> token_step call bound t s None chs false prev cur = (s', o) -> o <> Fuel ->
         same s s' /\ agrees (peg_token (skipper chs) t cur) o) /\
      (forall sk t s prev cur s' o n, within r t -> fresh t s -> peg_ok (EEverything n t None) ->
         token_step call bound t s None [] true prev cur = (s', o) -> o <> Fuel ->
         same s s' /\ agrees (peg_content sk (EEverything n t None) cur) o).
    Proof.
      split.
      - intros t s prev cur s' o W F E Nf. unfold token_step in E.
        destruct (block_run call bound t (t_lines t) 0 (s_enter s t) None chs false [] prev cur) as [s1 o1] eqn:Eb.
        assert (N1 : o1 <> Fuel) by (intros ->; injection E as <- <-; congruence).
        destruct (block_run_peg t s W F (t_lines t) (incl_refl _) 0 _ [] _ _ _ _ (doing_enter _ _ F) (Forall_nil _) Eb N1) as ((j & D) & P).
        assert (Sm := doing_del _ _ _ _ F D). rewrite peg_token_eq.
        destruct o1 as [[b rem]| | |]; try contradiction. destruct b as [|tl b]; injection E as <- <-; split; auto.
        + cbn [agrees]. rewrite P. reflexivity.
        + assert (N2 : channels_try call bound chs prev rem <> Fuel) by (intros E; rewrite E in Nf; apply Nf; reflexivity).
          destruct (channels_try_peg chs prev rem (incl_refl _) N2) as (ts & ->). cbn [bind agrees fst snd]. rewrite P, tree_ast_eq.
          unfold has_successful; cbn [tr_block tr_remaining]. destruct (successful (tl :: b)); auto.
      - intros sk t s prev cur s' o n W F Ok' E Nf. unfold token_step in E. cbn in Ok'.
        destruct (t_lines t) as [|l ls] eqn:Et.
        + cbn in E. injection E as <- <-. split; [eapply doing_del; eauto using doing_enter|]. destruct t as [? ? ?]; cbn in Et; subst. reflexivity.
        + cbn [block_run] in E. specialize (Ok' l ls eq_refl).
          assert (D := doing_enter _ _ F). rewrite (doing_visited _ _ _ _ _ D) in E. assert (D1 := doing_mark _ _ _ _ cur D).
          assert (Il : In l (t_lines t)) by (rewrite Et; now left).
          destruct (reverse_loop call bound bound l 0 (s_mark (s_enter s t) t 0 cur) None [] [] prev cur) as [s2 o2] eqn:Er.
          assert (N2 : o2 <> Fuel) by (intros ->; cbn in E; injection E as <- <-; congruence).
          destruct (reverse_loop_peg t l W Il [] (incl_nil_l _) 0 Ok' _ _ _ _ _ _ _ (doing_inner _ _ _ _ W F D1) Er N2) as (Sm & P).
          assert (Sm' := doing_del _ _ _ _ F (doing_same _ _ _ _ _ D1 Sm)).
          destruct o2 as [[cs cur']| | |]; try contradiction. cbn [sbind fst snd app] in E. destruct P as (w & -> & P). cbn [app] in *.
          assert (Eq : peg_content sk (EEverything n t None) cur = match w with [] => None | _ => Some (Node (t_name t) 0 [([], map Leaf w)], cur') end).
          { destruct t as [m ls' ss]; cbn in Et; subst ls'. cbn [peg_content t_name]. unfold peg_until. rewrite skipper_nil in P.
            fold (line_peg (peg_skip []) l). rewrite P. now destruct w. }
          destruct w as [|x w]; injection E as <- <-; split; auto.
          unfold channels_try; cbn [bind agrees fst snd tr_remaining]. rewrite Eq, tree_ast_eq. cbn [successful find line_ok l_elements].
          cbn [forallb element_ok el_grammar andb l_reverse orb l_index l_elements map element_ast has_successful].
          unfold has_successful; cbn [tr_block successful find line_ok l_elements forallb element_ok el_grammar andb l_reverse orb].
          rewrite map_map. reflexivity.
    Qed.
  End Root.
End Step.

Lemma token_run_peg : forall f, peg_call (token_run f).
Proof.
  induction f as [|f IH]; intros r chs Hp; cbn [token_run].
  - split; [intros t s prev cur s' o _ _ [= <- <-]; congruence|intros sk t s prev cur s' o n _ _ _ [= <- <-]; congruence].
  - apply (token_step_peg _ f IH (token_run_trace f) r chs Hp).
Qed.

Lemma execute_peg f g data : peg_grammar g -> execute f g data <> Fuel -> agrees (peg_of g data) (execute f g data).
Proof.
  destruct g as [root chs]. intros Hp Nf. unfold execute in *. rewrite peg_of_eq.
  destruct (token_run f root [] None chs false [] data) as [s' o] eqn:E. cbn [snd] in *.
  eapply (proj1 (token_run_peg f root chs Hp)); eauto using within_refl. intros v _. reflexivity.
Qed.

Lemma peg_no_recursion g : peg_grammar g -> no_recursion g.
Proof.
  intros Hp root chs U t l c W I Ic. destruct (Hp root chs U) as ((_ & _ & _ & Hok) & _).
  specialize (Hok _ _ _ W I Ic). destruct c as [e ? ?|]; auto. destruct e; auto.
Qed.

(** ** Checking that a grammar is of the class *)
Definition check_names (root : token) : bool :=
  forallb (fun t => forallb (fun v => negb (bytes_eqb (t_name v) (t_name t))) (flat_map (flat_map cont_tokens) (t_lines t))) (tok_tokens root).
Lemma check_names_ok root : check_names root = true ->
  forall t u v, within root t -> child t u -> within u v -> t_name v <> t_name t.
Proof.
  unfold check_names. rewrite forallb_forall. intros C t u v W Ch Wv E. specialize (C t (within_tokens _ _ W)).
  rewrite forallb_forall in C. apply within_tokens in Wv.
  enough (I : In v (flat_map (flat_map cont_tokens) (t_lines t))).
  { specialize (C v I). rewrite E, bytes_eqb_refl in C. discriminate. }
  destruct Ch as [l u mi ma Il Ic|l n u e mi ma Il Ic|l n u e mi ma Il Ic]; apply in_flat_map; exists l; split; auto;
    apply in_flat_map; eexists; split; try exact Ic; cbn [cont_tokens econ_tokens]; auto; apply in_app_iff; auto.
Qed.

Definition compatibleb (l : list container) : bool :=
  forallb (fun c => forallb (fun c' => match c, c' with
    | CElement e mi _, CElement e' mi' _ => negb (bytes_eqb (e_name e) (e_name e')) || (mi <=? Z.max 1 mi')%Z
    | _, _ => true
    end) l) l.
Lemma compatibleb_ok l : compatibleb l = true -> compatible l.
Proof.
  unfold compatibleb. rewrite forallb_forall. intros C e mi ma e' mi' ma' I I' E. specialize (C _ I).
  rewrite forallb_forall in C. specialize (C _ I'). cbn in C. rewrite E, bytes_eqb_refl in C. cbn in C. now apply Z.leb_le.
Qed.

Definition valueb (c : container) : bool := match c with CElement (EValue _ _) _ _ => true | _ => false end.
Definition pegb (c : container) : bool :=
  match c with
  | CElement (EEverything _ u None) _ _ => match t_lines u with [] => true | l :: _ => forallb valueb l end
  | CElement (EEverything _ _ (Some _)) _ _ => false
  | CElement (ERecursive _) _ _ => false
  | _ => true
  end.
Lemma pegb_ok c : pegb c = true -> match c with CElement e _ _ => peg_ok e | CCompose _ _ => True end.
Proof.
  destruct c as [[n b|n g|u|n u [e|]|n] mi ma|n vs]; cbn [pegb peg_ok]; auto; try discriminate.
  intros H l ls E. rewrite E in H. rewrite forallb_forall in H. apply Forall_forall. intros c I. specialize (H c I).
  destruct c as [[| | | |] ? ?|]; cbn in *; auto; discriminate.
Qed.
Definition plainb (c : container) : bool :=
  match c with
  | CElement (EExternal _ _) _ _ => false
  | CElement (EEverything _ _ (Some _)) _ _ => false
  | _ => true
  end.
Lemma plainb_ok c : plainb c = true -> plain_container c.
Proof. destruct c as [[| | |? ? []|] ? ?|]; cbn; auto; discriminate. Qed.

Definition check_peg (g : grammar) : bool :=
  check_containers cardb g && check_containers pegb g &&
  forallb (fun t => forallb compatibleb (t_lines t)) (all_tokens g) &&
  forallb (fun g' => let 'Grammar root chs := g' in check_names root &&
    forallb (fun c => let 'Channel t cond := c in match cond with None => true | Some _ => false end &&
      forallb (fun u => forallb (forallb plainb) (t_lines u)) (tok_tokens t)) chs) (gram_grammars g).

Lemma check_peg_ok g : check_peg g = true -> peg_grammar g.
Proof.
  unfold check_peg. rewrite !andb_true_iff. intros (((C1 & C2) & C3) & C4) root chs U. rewrite forallb_forall in C3, C4.
  specialize (C4 _ (uses_grammars _ _ U)). cbn beta iota in C4. apply andb_true_iff in C4 as (C4 & C5). rewrite forallb_forall in C5.
  split.
  - refine (conj (check_names_ok _ C4) (conj _ (conj _ _))).
    + intros t l W I. specialize (C3 t (all_tokens_in _ _ _ _ U W)). rewrite forallb_forall in C3. apply compatibleb_ok. auto.
    + exact (check_cards _ C1 _ _ U).
    + exact (check_containers_ok pegb _ _ pegb_ok C2 _ _ U).
  - intros t cond I. specialize (C5 _ I). cbn beta iota in C5. apply andb_true_iff in C5 as (C5 & C6).
    split; [destruct cond; auto; discriminate|]. intros u l c W Il Ic. rewrite forallb_forall in C6.
    specialize (C6 u (within_tokens _ _ W)). rewrite forallb_forall in C6. specialize (C6 l Il). rewrite forallb_forall in C6.
    apply plainb_ok. auto.
Qed.

(** ** What is recognised *)
Lemma peg_recognises g d : peg_grammar g -> exists n, forall fuel, n <= fuel ->
  forall a rest, recognises fuel g d a rest <-> peg_of g d = Some (a, rest).
Proof.
  intros P. pose proof (no_recursion_guarded _ (peg_no_recursion _ P)) as G.
  exists (enough (gram_size g) (length d)). intros f L a rest.
  pose proof (execute_peg f g d P (guarded_terminates _ _ G f L)) as A. unfold agrees in A. unfold recognises.
  destruct (execute f g d) as [t| | |]; try contradiction; rewrite A.
  - destruct (has_successful t) eqn:Hs.
    + split; [intros (t' & [= <-] & _ & <- & <-); auto|]. intros [= <- <-]. exists t. auto.
    + split; [intros (t' & [= <-] & Hs' & _); congruence|discriminate].
  - split; [intros (t' & [=] & _)|discriminate].
Qed.
