(** What a successful run of the parser went through. *)
From Coq Require Import List ZArith Lia Bool.
From Coq Require Import Init.Byte Strings.Byte.
From Verif Require Import Base BaseLemmas AstModel SpecAst.
Import ListNotations.

(** ** The stack map *)
Lemma s_get_del s n m : s_get (s_del s n) m = if bytes_eqb n m then None else s_get s m.
Proof.
  unfold s_del. induction s as [|[k x] s IH]; cbn [filter s_get fst].
  - now destruct (bytes_eqb n m).
  - destruct (bytes_eqb k n) eqn:E; cbn [negb].
    + rewrite IH. apply bytes_eqb_true in E as ->. now destruct (bytes_eqb n m).
    + cbn [s_get]. rewrite IH. destruct (bytes_eqb n m) eqn:E2; auto.
      apply bytes_eqb_true in E2 as <-. now rewrite E.
Qed.

Lemma s_get_set s n x m : s_get (s_set s n x) m = if bytes_eqb n m then Some x else s_get s m.
Proof. unfold s_set; cbn [s_get]. destruct (bytes_eqb n m) eqn:E; auto. now rewrite s_get_del, E. Qed.

(** The tokens of the map are known under their names and are tokens of the root. *)
Definition scoped (r : token) (s : smap) : Prop :=
  forall n t ls, s_get s n = Some (t, ls) -> t_name t = n /\ within r t.

(** Nothing but the lines tried changes, and names may disappear. *)
Definition shrinks (s s' : smap) : Prop :=
  forall n t ls, s_get s' n = Some (t, ls) -> exists ls', s_get s n = Some (t, ls').

Lemma shrinks_refl s : shrinks s s.
Proof. intros n t ls E. eauto. Qed.
Lemma shrinks_trans s1 s2 s3 : shrinks s1 s2 -> shrinks s2 s3 -> shrinks s1 s3.
Proof. intros A B n t ls E. destruct (B _ _ _ E) as (ls' & E'). eauto. Qed.
Lemma scoped_shrinks r s s' : scoped r s -> shrinks s s' -> scoped r s'.
Proof. intros A B n t ls E. destruct (B _ _ _ E) as (ls' & E'). eauto. Qed.
Lemma scoped_nil r : scoped r [].
Proof. intros n t ls. discriminate. Qed.

Lemma scoped_enter r s t : scoped r s -> within r t -> scoped r (s_enter s t).
Proof.
  intros A W. unfold s_enter. destruct (s_get s (t_name t)); auto.
  intros n u ls. rewrite s_get_set. destruct (bytes_eqb (t_name t) n) eqn:E; [|apply A].
  intros [= <- <-]. apply bytes_eqb_true in E. auto.
Qed.

Lemma scoped_mark r s t i d : scoped r s -> within r t -> scoped r (s_mark s t i d).
Proof.
  intros A W. unfold s_mark. destruct (s_get s (t_name t)) as [[t' l']|] eqn:G;
    intros n u ls; rewrite s_get_set; destruct (bytes_eqb (t_name t) n) eqn:E; try apply A.
  - intros [= <- <-]. apply bytes_eqb_true in E. subst. eauto.
  - intros [= <- <-]. apply bytes_eqb_true in E. auto.
Qed.

(** What a call leaves: the names there before it, without its own. *)
Definition leaves (t : token) (s s' : smap) : Prop := shrinks s s' /\ s_get s' (t_name t) = None.

(** The map while a token is parsed: as before but for the token's own entry. *)
Definition inside (t : token) (s s' : smap) : Prop :=
  forall n u ls, s_get s' n = Some (u, ls) -> n = t_name t \/ exists ls', s_get s n = Some (u, ls').

Lemma inside_enter t s : inside t s (s_enter s t).
Proof.
  intros n u ls. unfold s_enter. destruct (s_get s (t_name t)) eqn:G; eauto.
  rewrite s_get_set. destruct (bytes_eqb (t_name t) n) eqn:E; eauto. apply bytes_eqb_true in E. auto.
Qed.
Lemma inside_mark t s s' i d : inside t s s' -> inside t s (s_mark s' t i d).
Proof.
  intros A n u ls. unfold s_mark. destruct (s_get s' (t_name t)) as [[t' l']|];
    rewrite s_get_set; destruct (bytes_eqb (t_name t) n) eqn:E; try apply A;
    apply bytes_eqb_true in E; auto.
Qed.
Lemma inside_shrinks t s s' s'' : inside t s s' -> shrinks s' s'' -> inside t s s''.
Proof. intros A B n u ls E. destruct (B _ _ _ E) as (ls' & E'). eauto. Qed.
Lemma leaves_del t s s' : inside t s s' -> leaves t s (s_del s' (t_name t)).
Proof.
  intros A. split.
  - intros n u ls. rewrite s_get_del. destruct (bytes_eqb (t_name t) n) eqn:E; [discriminate|].
    intros G. destruct (A _ _ _ G) as [->|]; auto. rewrite bytes_eqb_refl in E. discriminate.
  - now rewrite s_get_del, bytes_eqb_refl.
Qed.

(** Whether a name is there. *)
Definition left (s : smap) (n : bytes) : nat := match s_get s n with Some _ => 1 | None => 0 end.
Lemma left_shrinks s s' n : shrinks s s' -> left s' n <= left s n.
Proof.
  intros Sh. unfold left. destruct (s_get s' n) as [[t ls]|] eqn:E; [|lia]. destruct (Sh _ _ _ E) as (ls' & ->). auto.
Qed.
Lemma left_le s n : left s n <= 1.
Proof. unfold left. destruct (s_get s n); lia. Qed.

Lemma recursions_cons n g cs es : recursions n (TElement g cs :: es) =
  match g with Some (CElement (ERecursive m) _ _) => if bytes_eqb m n then length cs else 0 | _ => 0 end + recursions n es.
Proof. reflexivity. Qed.

(** ** Traces of successful runs *)
Inductive p_token : token -> option token -> list channel -> bool -> token -> bytes -> tree -> Prop :=
| p_forward r esc chs t i l acc tl cur rem sfx rem' :
    nth_error (t_lines t) i = Some l -> p_line r esc chs false l cur i tl rem -> line_ok tl = true ->
    Forall (fun x => line_ok x = false) acc -> (forall n, recursions n (l_elements tl) <= 1) -> p_skip chs rem sfx rem' ->
    p_token r esc chs false t cur (Tree t (acc ++ [tl]) sfx rem')
| p_unsuccessful r esc chs t acc cur sfx rem' :
    acc <> [] -> Forall (fun x => line_ok x = false) acc -> p_skip chs cur sfx rem' ->
    p_token r esc chs false t cur (Tree t acc sfx rem')
| p_reverse r esc chs t i l cs cur rem sfx rem' :
    nth_error (t_lines t) i = Some l -> p_until r esc chs l cur cs rem -> cs <> [] -> p_skip chs rem sfx rem' ->
    p_token r esc chs true t cur (Tree t [TLine i l true [TElement None cs]] sfx rem')
with p_line : token -> option token -> list channel -> bool -> list container -> bytes -> nat -> tline -> bytes -> Prop :=
| p_line_of r esc chs rev l cur i es rem :
    p_containers r esc chs rev l cur es rem -> p_line r esc chs rev l cur i (TLine i l false es) rem
with p_containers : token -> option token -> list channel -> bool -> list container -> bytes -> list telement -> bytes -> Prop :=
| p_end r esc chs rev cur : p_containers r esc chs rev [] cur [] cur
| p_cons r esc chs rev c min max l cur cs cur' es rem :
    p_times r esc chs rev c cur cs cur' -> (i64 min <= zlen cs)%Z ->
    (forall m, max = Some m -> cs = [] \/ (zlen cs <= m)%Z) ->
    p_containers r esc chs rev l cur' es rem ->
    p_containers r esc chs rev (CElement c min max :: l) cur
      (match cs with [] => es | _ => TElement (Some (CElement c min max)) cs :: es end) rem
with p_times : token -> option token -> list channel -> bool -> econtent -> bytes -> list tcontent -> bytes -> Prop :=
| p_zero r esc chs rev c cur : p_times r esc chs rev c cur [] cur
| p_succ r esc chs rev c cur x rem cs rem' :
    p_content r esc chs rev c cur x rem -> p_times r esc chs rev c rem cs rem' ->
    p_times r esc chs rev c cur (x :: cs) rem'
with p_content : token -> option token -> list channel -> bool -> econtent -> bytes -> tcontent -> bytes -> Prop :=
| p_value r esc chs rev n b cur ts rem :
    p_skip chs cur ts (b :: rem) -> p_content r esc chs rev (EValue n b) cur (TValue b ts) rem
| p_external r esc chs rev n root chs' cur t :
    cur <> [] -> p_token root None chs' rev root cur t -> has_successful t = true ->
    p_content r esc chs rev (EExternal n (Grammar root chs')) cur
      (TTree (Tree (Token n (t_lines root) (t_suites root)) (tr_block t) [] [])) []
| p_sub r esc chs rev u cur t :
    within r u -> p_token r esc chs rev u cur t -> has_successful t = true ->
    p_content r esc chs rev (EToken u) cur (TTree t) (tr_remaining t)
| p_recursive r esc chs rev u cur t :
    within r u -> p_token r esc chs rev u cur t -> has_successful t = true ->
    p_content r esc chs rev (ERecursive (t_name u)) cur (TTree t) (tr_remaining t)
| p_everything r esc chs rev n u esc' cur t :
    within r u -> (forall e, esc' = Some e -> within r e) ->
    p_token r esc' [] (negb rev) u cur t -> has_successful t = true ->
    p_content r esc chs rev (EEverything n u esc') cur (TTree t) (tr_remaining t)
with p_skip : list channel -> bytes -> list tree -> bytes -> Prop :=
| p_skip_end chs cur : p_skip chs cur [] cur
| p_skip_one chs c cond cur t ts rem :
    In (Channel c cond) chs -> p_token c None [] false c cur t ->
    0 < length (tree_bytes true t) <= length cur ->
    p_skip chs (skipn (length (tree_bytes true t)) cur) ts rem ->
    p_skip chs cur (t :: ts) rem
with p_until : token -> option token -> list channel -> list container -> bytes -> list tcontent -> bytes -> Prop :=
| p_stop r esc chs l cur : p_until r esc chs l cur [] cur
| p_byte r esc chs l b cur cs rem :
    p_until r esc chs l cur cs rem -> p_until r esc chs l (b :: cur) (TValue b [] :: cs) rem
| p_escape r e chs l cur t i tl rem1 n cs rem :
    p_token r None chs false e cur t -> has_successful t = true -> tr_remaining t <> [] ->
    p_line r (Some e) chs true l (tr_remaining t) i tl rem1 -> line_ok tl = true ->
    length rem1 <= length (tr_remaining t) -> n = length (tr_remaining t) - length rem1 ->
    p_until r (Some e) chs l (skipn n (tr_remaining t)) cs rem ->
    p_until r (Some e) chs l cur (map (fun b => TValue b []) (firstn n (tr_remaining t)) ++ cs) rem.

Scheme p_token_ind' := Induction for p_token Sort Prop
  with p_line_ind' := Induction for p_line Sort Prop
  with p_containers_ind' := Induction for p_containers Sort Prop
  with p_times_ind' := Induction for p_times Sort Prop
  with p_content_ind' := Induction for p_content Sort Prop
  with p_skip_ind' := Induction for p_skip Sort Prop
  with p_until_ind' := Induction for p_until Sort Prop.
Combined Scheme parse_ind from p_token_ind', p_line_ind', p_containers_ind', p_times_ind', p_content_ind', p_skip_ind', p_until_ind'.

Lemma p_skip_app chs cur ts mid : p_skip chs cur ts mid -> forall ts' rem,
  p_skip chs mid ts' rem -> p_skip chs cur (ts ++ ts') rem.
Proof. induction 1; intros; cbn [app]; [assumption|]. econstructor; eauto. Qed.

Lemma p_times_app r esc chs rev c cur cs mid : p_times r esc chs rev c cur cs mid ->
  forall cs' rem, p_times r esc chs rev c mid cs' rem -> p_times r esc chs rev c cur (cs ++ cs') rem.
Proof. induction 1; intros; cbn [app]; [assumption|]. econstructor; eauto. Qed.

Lemma p_until_app r esc chs l cur cs mid : p_until r esc chs l cur cs mid ->
  forall cs' rem, p_until r esc chs l mid cs' rem -> p_until r esc chs l cur (cs ++ cs') rem.
Proof.
  induction 1; intros; cbn [app]; auto.
  - constructor; auto.
  - rewrite <- app_assoc. econstructor; eauto.
Qed.

(** ** From runs to traces *)
Definition esc_in (r : token) (esc : option token) : Prop := forall e, esc = Some e -> within r e.

Definition traced (call : call_t) : Prop :=
  forall r t s esc chs rev prev cur s' o,
    call t s esc chs rev prev cur = (s', o) -> scoped r s -> within r t -> esc_in r esc ->
    (o = Err \/ exists x, o = Ok x) ->
    leaves t s s' /\ forall x, o = Ok x -> p_token r esc chs rev t cur x.

Section Trace.
  Variable call : call_t.
  Variable bound : nat.
  Hypothesis Hc : traced call.

  Lemma channel_run_trace c prev cur t : channel_run call c prev cur = Ok t ->
    exists u cond, c = Channel u cond /\ p_token u None [] false u cur t.
  Proof.
    destruct c as [u cond]. unfold channel_run. intros E. exists u, cond. split; auto.
    destruct (call u [] None [] false prev cur) as [s' o] eqn:Ec. cbn [snd] in E.
    destruct o as [tr| | |]; try discriminate. cbn [bind] in E.
    assert (t = tr) as -> by (destruct cond as [cd|]; [destruct (channel_condition _ _ _ _); cbn [bind] in E|]; congruence).
    edestruct (Hc u) as (_ & X); eauto using scoped_nil, within_refl. discriminate.
  Qed.

  Lemma channels_round_trace l chs : incl l chs -> forall ts prev cur ts' prev' cur',
    channels_round call l (ts, prev, cur) = Ok (ts', prev', cur') ->
    exists ts1, ts' = ts ++ ts1 /\ p_skip chs cur ts1 cur'.
  Proof.
    induction l as [|c l IH]; intros I ts prev cur ts' prev' cur' E; cbn [channels_round] in E.
    - injection E as <- <- <-. exists []. rewrite app_nil_r. split; auto. constructor.
    - assert (I' : incl l chs) by (intros x; specialize (I x); cbn in I; auto).
      destruct (channel_run call c prev cur) as [t| | |] eqn:Ec; try discriminate; [|eauto].
      destruct (Nat.ltb_spec (length cur) (length (tree_bytes true t))) as [|L]; [discriminate|].
      destruct (Nat.eqb_spec (length (tree_bytes true t)) 0) as [|N]; [eauto|].
      destruct (channel_run_trace _ _ _ _ Ec) as (u & cond & -> & P).
      destruct (IH I' _ _ _ _ _ _ E) as (ts1 & -> & S). exists (t :: ts1). rewrite <- app_assoc. split; auto.
      econstructor; eauto; [apply I; now left|lia].
  Qed.

  Lemma channels_loop_trace chs : forall fuel ts prev cur ts' prev' cur',
    channels_loop call fuel chs (ts, prev, cur) = Ok (ts', prev', cur') ->
    exists ts1, ts' = ts ++ ts1 /\ p_skip chs cur ts1 cur'.
  Proof.
    induction fuel as [|f IH]; intros ts prev cur ts' prev' cur' E; cbn [channels_loop] in E; [discriminate|].
    destruct (channels_round call chs (ts, prev, cur)) as [[[ts2 prev2] cur2]| | |] eqn:Er; try discriminate.
    destruct (channels_round_trace chs chs (incl_refl _) _ _ _ _ _ _ Er) as (ts1 & -> & S).
    cbn [bind fst] in E. destruct (_ =? _).
    - injection E as <- <- <-. eauto.
    - destruct (IH _ _ _ _ _ _ E) as (ts3 & -> & S3). exists (ts1 ++ ts3). rewrite <- app_assoc. split; auto.
      eapply p_skip_app; eauto.
  Qed.

  Lemma channels_try_trace chs prev cur ts rem : channels_try call bound chs prev cur = Ok (ts, rem) ->
    p_skip chs cur ts rem.
  Proof.
    unfold channels_try. destruct chs as [|c chs']; [intros [= <- <-]; constructor|].
    set (chs := c :: chs'). unfold channels_run.
    destruct (channels_loop call bound chs ([], prev, cur)) as [[[ts2 prev2] cur2]| | |] eqn:E; cbn [bind fst snd]; try discriminate.
    - destruct (channels_loop_trace _ _ _ _ _ _ _ _ E) as (ts1 & -> & S). cbn [app].
      destruct ts1; intros [= <- <-]; [constructor|exact S].
    - intros [= <- <-]. constructor.
  Qed.

  Lemma element_value_trace b chs prev cur x rem : element_value call bound b chs prev cur = Ok (Some (x, rem)) ->
    exists ts, x = TValue b ts /\ p_skip chs cur ts (b :: rem).
  Proof.
    unfold element_value. destruct (channels_try call bound chs prev cur) as [[ts rem1]| | |] eqn:E; cbn [bind fst snd]; try discriminate.
    destruct rem1 as [|b' rem1]; [discriminate|]. destruct (Byte.eqb b b') eqn:Eb; [|discriminate].
    apply byte_eqb_true in Eb as <-. intros [= <- <-]. exists ts. split; auto. eapply channels_try_trace; eauto.
  Qed.

  Lemma element_run_trace r t l c s esc chs rev prev cur s' o :
    element_run call bound c s esc chs rev prev cur = (s', o) ->
    scoped r s -> within r t -> In l (t_lines t) -> (exists min max, In (CElement c min max) l) -> esc_in r esc ->
    (o = Err \/ exists x, o = Ok x) ->
    shrinks s s' /\ (forall x rem, o = Ok (x, rem) -> p_content r esc chs rev c cur x rem /\ cur <> []) /\
    (forall n x, c = ERecursive n -> o = Ok x -> s_get s n <> None /\ s_get s' n = None).
  Proof.
    intros E Sc W Il (min & max & Ic) Ie Ho. unfold element_run in E. destruct cur as [|b0 cur0].
    { injection E as <- <-. split; [apply shrinks_refl|]. split; [discriminate|]. discriminate. }
    set (cur := b0 :: cur0) in *. assert (Nc : cur <> []) by discriminate.
    destruct c as [n b|n g|u|n u esc'|n].
    - injection E as <- <-. split; [apply shrinks_refl|]. split; [|discriminate]. intros x rem E.
      destruct (element_value call bound b chs prev cur) as [[[y rem1]|]| | |] eqn:Ev; try discriminate. cbn [bind] in E.
      injection E as -> ->. destruct (element_value_trace _ _ _ _ _ _ Ev) as (ts & -> & S). split; auto. now constructor.
    - injection E as <- <-. split; [apply shrinks_refl|]. split; [|discriminate]. intros x rem E.
      destruct g as [root chs']. unfold external_run in E.
      destruct (call root [] None chs' rev prev cur) as [s2 [tr| | |]] eqn:Ec; try discriminate. cbn [snd bind] in E.
      unfold found, has_successful in E. cbn [tr_block] in E. destruct (successful (tr_block tr)) eqn:Es; [|discriminate].
      injection E as <- <-. split; auto. constructor; auto.
      + edestruct (Hc root) as (_ & X); eauto using scoped_nil, within_refl. discriminate.
      + unfold has_successful. now rewrite Es.
    - assert (Wu : within r u) by (apply (within_step r t u W); eapply child_token; eauto).
      destruct (call u s esc chs rev prev cur) as [s2 [tr| | |]] eqn:Ec; cbn [sbind] in E; injection E as <- <-.
      + destruct (Hc r u _ _ _ _ _ _ _ _ Ec Sc Wu Ie) as (L & X); eauto. split; [apply L|]. split; [|discriminate].
        intros x rem E. unfold found in E. destruct (has_successful tr) eqn:Eh; [|discriminate]. injection E as <- <-.
        split; auto. constructor; auto.
      + destruct (Hc r u _ _ _ _ _ _ _ _ Ec Sc Wu Ie) as (L & X); eauto. split; [apply L|]. split; discriminate.
      + destruct Ho as [|[? ?]]; discriminate.
      + destruct Ho as [|[? ?]]; discriminate.
    - assert (Wu : within r u) by (apply (within_step r t u W); eapply child_exception; eauto).
      assert (We : esc_in r esc').
      { intros e ->. apply (within_step r t e W). eapply child_escape; eauto. }
      destruct (call u s esc' [] (negb rev) prev cur) as [s2 [tr| | |]] eqn:Ec; cbn [sbind] in E; injection E as <- <-.
      + destruct (Hc r u _ _ _ _ _ _ _ _ Ec Sc Wu We) as (L & X); eauto. split; [apply L|]. split; [|discriminate].
        intros x rem E. unfold found in E. destruct (has_successful tr) eqn:Eh; [|discriminate]. injection E as <- <-.
        split; auto. constructor; auto.
      + destruct (Hc r u _ _ _ _ _ _ _ _ Ec Sc Wu We) as (L & X); eauto. split; [apply L|]. split; discriminate.
      + destruct Ho as [|[? ?]]; discriminate.
      + destruct Ho as [|[? ?]]; discriminate.
    - destruct (s_get s n) as [[u ls]|] eqn:Eg.
      2:{ injection E as <- <-. split; [apply shrinks_refl|]. split; discriminate. }
      destruct (Sc _ _ _ Eg) as (<- & Wu).
      destruct (call u s esc chs rev prev cur) as [s2 [tr| | |]] eqn:Ec; cbn [sbind] in E; injection E as <- <-.
      + destruct (Hc r u _ _ _ _ _ _ _ _ Ec Sc Wu Ie) as ((L1 & L2) & X); eauto. split; [apply L1|]. split.
        * intros x rem E. unfold found in E. destruct (has_successful tr) eqn:Eh; [|discriminate]. injection E as <- <-.
          split; auto. constructor; auto.
        * intros n x [= <-] _. split; [congruence|exact L2].
      + destruct (Hc r u _ _ _ _ _ _ _ _ Ec Sc Wu Ie) as (L & X); eauto. split; [apply L|]. split; [discriminate|].
        intros ? ? ? ?; discriminate.
      + destruct Ho as [|[? ?]]; discriminate.
      + destruct Ho as [|[? ?]]; discriminate.
  Qed.

  Lemma repeat_run_trace r t l c min max esc chs rev : within r t -> In l (t_lines t) -> In (CElement c min max) l -> esc_in r esc ->
    forall fuel s cs prev cur s' o, repeat_run call bound fuel c max s esc chs rev cs prev cur = (s', o) ->
    scoped r s -> (o = Err \/ exists x, o = Ok x) ->
    shrinks s s' /\ (forall cs' prev' cur', o = Ok (cs', prev', cur') ->
      exists cs1, cs' = cs ++ cs1 /\ p_times r esc chs rev c cur cs1 cur' /\
        (forall m, max = Some m -> cs1 = [] \/ (zlen cs' <= m)%Z) /\
        (forall n, c = ERecursive n -> length cs1 + left s' n <= left s n)).
  Proof.
    intros W Il Ic Ie. induction fuel as [|f IH]; intros s cs prev cur s' o E Sc Ho.
    - cbn [repeat_run] in E. destruct cur as [|b cur0].
      { injection E as <- <-. split; [apply shrinks_refl|]. intros ? ? ? [= <- <- <-]. exists []. rewrite app_nil_r.
        split; auto. split; [constructor|]. split; [auto|]. intros; cbn [length]; lia. }
      destruct (match max with Some m => (m <=? zlen cs)%Z | None => false end).
      { injection E as <- <-. split; [apply shrinks_refl|]. intros ? ? ? [= <- <- <-]. exists []. rewrite app_nil_r.
        split; auto. split; [constructor|]. split; [auto|]. intros; cbn [length]; lia. }
      injection E as <- <-. destruct Ho as [|[? ?]]; discriminate.
    - cbn [repeat_run] in E. destruct cur as [|b cur0].
      { injection E as <- <-. split; [apply shrinks_refl|]. intros ? ? ? [= <- <- <-]. exists []. rewrite app_nil_r.
        split; auto. split; [constructor|]. split; [auto|]. intros; cbn [length]; lia. }
      set (cur := b :: cur0) in *.
      destruct (match max with Some m => (m <=? zlen cs)%Z | None => false end) eqn:Em.
      { injection E as <- <-. split; [apply shrinks_refl|]. intros ? ? ? [= <- <- <-]. exists []. rewrite app_nil_r.
        split; auto. split; [constructor|]. split; [auto|]. intros; cbn [length]; lia. }
      destruct (element_run call bound c s esc chs rev prev cur) as [s1 [[x rem]| | |]] eqn:Ee; cbn [stry] in E.
      + destruct (element_run_trace r t l c _ _ _ _ _ _ _ _ Ee Sc W Il) as (S1 & P & Rc); eauto.
        destruct (P _ _ eq_refl) as (P1 & _).
        destruct (IH _ _ _ _ _ _ E (scoped_shrinks _ _ _ Sc S1) Ho) as (S2 & Q). split; [eapply shrinks_trans; eauto|].
        intros cs' prev' cur' Eo. destruct (Q _ _ _ Eo) as (cs1 & -> & T & M & Rq). exists (x :: cs1). rewrite <- app_assoc.
        split; auto. split; [econstructor; eauto|]. split.
        2:{ intros n ->. specialize (Rq n eq_refl). destruct (Rc n _ eq_refl eq_refl) as (A & B). unfold left in *. rewrite B in Rq.
            destruct (s_get s n); [|congruence]. cbn [length]. lia. }
        intros m ->. right. destruct (M m eq_refl) as [->|Lm].
        * cbn in Em. apply Z.leb_gt in Em. rewrite app_nil_r, zlen_app. unfold zlen at 2. cbn. lia.
        * rewrite <- app_assoc in Lm. exact Lm.
      + injection E as <- <-. destruct (element_run_trace r t l c _ _ _ _ _ _ _ _ Ee Sc W Il) as (S1 & _); eauto.
        split; auto. intros ? ? ? [= <- <- <-]. exists []. rewrite app_nil_r. split; auto. split; [constructor|]. split; [auto|].
        intros n _. cbn [length]. now apply left_shrinks.
      + injection E as <- <-. destruct Ho as [|[? ?]]; discriminate.
      + injection E as <- <-. destruct Ho as [|[? ?]]; discriminate.
  Qed.

  Lemma containers_run_trace r t l0 esc chs rev prev0 : within r t -> In l0 (t_lines t) -> esc_in r esc ->
    forall l, incl l l0 -> forall s es prev cur s' o,
    containers_run call bound l s esc chs rev prev0 es prev cur = (s', o) ->
    scoped r s -> (o = Err \/ exists x, o = Ok x) ->
    shrinks s s' /\ (forall es' cur', o = Ok (es', cur') ->
      exists es1, es' = es ++ es1 /\ p_containers r esc chs rev l cur es1 cur' /\
        forall n, recursions n es1 + left s' n <= left s n).
  Proof.
    intros W Il Ie. induction l as [|[c min max|n vs] l IH]; intros I s es prev cur s' o E Sc Ho; cbn [containers_run] in E.
    - injection E as <- <-. split; [apply shrinks_refl|]. intros ? ? [= <- <-]. exists []. rewrite app_nil_r. split; auto. split; [constructor|]. intros n. cbn. lia.
    - assert (I' : incl l l0) by (intros x Hx; apply I; now right).
      destruct (repeat_run call bound bound c max s esc chs rev [] prev cur) as [s1 [[[cs prev1] cur1]| | |]] eqn:Er; cbn [sbind] in E.
      + destruct (repeat_run_trace r t l0 c min max esc chs rev W Il (I _ (or_introl eq_refl)) Ie _ _ _ _ _ _ _ Er Sc) as (S1 & Q); eauto.
        destruct (Q _ _ _ eq_refl) as (cs1 & -> & T & M & Rq). cbn [app] in *.
        destruct (Z.ltb_spec (zlen cs1) (i64 min)) as [|L].
        { injection E as <- <-. split; auto. discriminate. }
        destruct (IH I' _ _ _ _ _ _ E (scoped_shrinks _ _ _ Sc S1) Ho) as (S2 & Q2). split; [eapply shrinks_trans; eauto|].
        intros es' cur' Eo. destruct (Q2 _ _ Eo) as (es1 & -> & P & R2).
        exists (match cs1 with [] => es1 | _ => TElement (Some (CElement c min max)) cs1 :: es1 end). split.
        * destruct cs1; [reflexivity|]. now rewrite <- app_assoc.
        * split; [econstructor; eauto|]. intros n. specialize (R2 n). pose proof (left_shrinks _ _ n S1) as Ls.
          destruct cs1 as [|x cs1]; [lia|]. rewrite recursions_cons.
          destruct c as [| | | |m]; try lia. destruct (bytes_eqb m n) eqn:Em; [|lia]. apply bytes_eqb_true in Em as ->.
          specialize (Rq n eq_refl). lia.
      + injection E as <- <-. destruct (repeat_run_trace r t l0 c min max esc chs rev W Il (I _ (or_introl eq_refl)) Ie _ _ _ _ _ _ _ Er Sc) as (S1 & Q); eauto.
        split; auto. discriminate.
      + injection E as <- <-. destruct Ho as [|[? ?]]; discriminate.
      + injection E as <- <-. destruct Ho as [|[? ?]]; discriminate.
    - injection E as <- <-. split; [apply shrinks_refl|]. intros es' cur' E.
      destruct (compose_run call bound vs chs prev0 cur); discriminate.
  Qed.

  Lemma line_run_trace r t l i esc chs rev s prev cur s' o : within r t -> In l (t_lines t) -> esc_in r esc ->
    line_run call bound l i s esc chs rev prev cur = (s', o) -> scoped r s -> (o = Err \/ exists x, o = Ok x) ->
    shrinks s s' /\ (forall tl rem, o = Ok (tl, rem) -> p_line r esc chs rev l cur i tl rem /\ forall n, recursions n (l_elements tl) <= 1).
  Proof.
    intros W Il Ie E Sc Ho. unfold line_run in E.
    destruct (containers_run call bound l s esc chs rev prev [] prev cur) as [s1 [[es rem]| | |]] eqn:Ec; cbn [sbind] in E; injection E as <- <-.
    - destruct (containers_run_trace r t l esc chs rev prev W Il Ie l (incl_refl _) _ _ _ _ _ _ Ec Sc) as (S1 & Q); eauto.
      split; auto. intros tl rem0 [= <- <-]. destruct (Q _ _ eq_refl) as (es1 & -> & P & R). split; [now constructor|]. intros n. specialize (R n). cbn [l_elements fst app]. pose proof (left_le s n). lia.
    - destruct (containers_run_trace r t l esc chs rev prev W Il Ie l (incl_refl _) _ _ _ _ _ _ Ec Sc) as (S1 & Q); eauto.
      split; auto. discriminate.
    - destruct Ho as [|[? ?]]; discriminate.
    - destruct Ho as [|[? ?]]; discriminate.
  Qed.

  Lemma escape_run_trace r t l i esc chs s cs prev cur s' o : within r t -> In l (t_lines t) -> esc_in r esc ->
    escape_run call bound l i s esc chs cs prev cur = (s', o) -> scoped r s -> (o = Err \/ exists x, o = Ok x) ->
    shrinks s s' /\ (forall cs' prev' cur', o = Ok (cs', prev', cur') ->
      exists cs1, cs' = cs ++ cs1 /\ (forall cs2 rem, p_until r esc chs l cur' cs2 rem -> p_until r esc chs l cur (cs1 ++ cs2) rem)).
  Proof.
    intros W Il Ie E Sc Ho. unfold escape_run in E.
    assert (Same : forall s1, shrinks s s1 -> (s1, Ok (cs, prev, cur)) = (s', o) ->
      shrinks s s' /\ (forall cs' prev' cur', o = Ok (cs', prev', cur') ->
      exists cs1, cs' = cs ++ cs1 /\ (forall cs2 rem, p_until r esc chs l cur' cs2 rem -> p_until r esc chs l cur (cs1 ++ cs2) rem))).
    { intros s1 S1 [= <- <-]. split; auto. intros ? ? ? [= <- <- <-]. exists []. rewrite app_nil_r. auto. }
    destruct esc as [e|]; [|eapply Same; eauto; apply shrinks_refl].
    destruct (call e s None chs false prev cur) as [s1 [tr| | |]] eqn:Ec; cbn [stry] in E.
    - destruct (Hc r e _ _ _ _ _ _ _ _ Ec Sc (Ie _ eq_refl)) as ((L & _) & X); eauto; [discriminate|].
      specialize (X _ eq_refl). destruct (has_successful tr) eqn:Eh; [|eapply Same; eauto].
      destruct (tr_remaining tr) as [|b0 er0] eqn:Er; [eapply Same; eauto|]. set (er := b0 :: er0) in *.
      destruct (line_run call bound l i s1 (Some e) chs true cur er) as [s2 [[tl rem]| | |]] eqn:El; cbn [stry] in E.
      + assert (Sc1 := scoped_shrinks _ _ _ Sc L).
        destruct (line_run_trace r t l i (Some e) chs true _ _ _ _ _ W Il Ie El Sc1) as (S2 & P); eauto.
        destruct (P _ _ eq_refl) as (P' & _). clear P; rename P' into P. pose proof (shrinks_trans _ _ _ L S2) as S3.
        destruct (line_ok tl) eqn:Eo; [|eapply Same; eauto].
        destruct (Nat.ltb_spec (length er) (length rem)) as [|Le].
        { injection E as <- <-. destruct Ho as [|[? ?]]; discriminate. }
        injection E as <- <-. split; auto. intros ? ? ? [= <- <- <-]. eexists. split; [reflexivity|].
        intros cs2 rem2 U. change (match length rem with 0 => S (length er0) | S k => length er0 - k end) with (length er - length rem) in U |- *.
        rewrite <- Er in *. eapply p_escape; eauto. rewrite Er; discriminate.
      + apply (Same s2); auto. eapply shrinks_trans; [exact L|].
        assert (Sc1 := scoped_shrinks _ _ _ Sc L).
        destruct (line_run_trace r t l i (Some e) chs true _ _ _ _ _ W Il Ie El Sc1) as (S2 & _); eauto.
      + injection E as <- <-. destruct Ho as [|[? ?]]; discriminate.
      + injection E as <- <-. destruct Ho as [|[? ?]]; discriminate.
    - apply (Same s1); auto. destruct (Hc r e _ _ _ _ _ _ _ _ Ec Sc (Ie _ eq_refl)) as ((L & _) & X); eauto. discriminate.
    - injection E as <- <-. destruct Ho as [|[? ?]]; discriminate.
    - injection E as <- <-. destruct Ho as [|[? ?]]; discriminate.
  Qed.

  Lemma reverse_loop_trace r t l i esc chs : within r t -> In l (t_lines t) -> esc_in r esc ->
    forall fuel s cs prev cur s' o,
    reverse_loop call bound fuel l i s esc chs cs prev cur = (s', o) -> scoped r s -> (o = Err \/ exists x, o = Ok x) ->
    shrinks s s' /\ (forall cs' cur', o = Ok (cs', cur') -> exists cs1, cs' = cs ++ cs1 /\ p_until r esc chs l cur cs1 cur').
  Proof.
    intros W Il Ie. induction fuel as [|f IH]; intros s cs prev cur s' o E Sc Ho; cbn [reverse_loop] in E.
    - destruct cur.
      + injection E as <- <-. split; [apply shrinks_refl|]. intros ? ? [= <- <-]. exists []. rewrite app_nil_r. split; auto. constructor.
      + injection E as <- <-. destruct Ho as [|[? ?]]; discriminate.
    - destruct cur as [|b0 cur0].
      { injection E as <- <-. split; [apply shrinks_refl|]. intros ? ? [= <- <-]. exists []. rewrite app_nil_r. split; auto. constructor. }
      set (cur := b0 :: cur0) in *.
      destruct (escape_run call bound l i s esc chs cs prev cur) as [s1 [[[cs1 prev1] cur1]| | |]] eqn:Ee; cbn [sbind] in E.
      2:{ injection E as <- <-. destruct (escape_run_trace r t l i esc chs _ _ _ _ _ _ W Il Ie Ee Sc) as (S1 & _); eauto.
          split; auto. discriminate. }
      2-3: injection E as <- <-; destruct Ho as [|[? ?]]; discriminate.
      destruct (escape_run_trace r t l i esc chs _ _ _ _ _ _ W Il Ie Ee Sc) as (S1 & Q); eauto.
      destruct (Q _ _ _ eq_refl) as (cs2 & -> & K). pose proof (scoped_shrinks _ _ _ Sc S1) as Sc1.
      destruct (line_run call bound l i s1 esc chs true prev1 cur1) as [s2 [[tl rem]| | |]] eqn:El; cbn [stry] in E.
      + injection E as <- <-. destruct (line_run_trace r t l i esc chs true _ _ _ _ _ W Il Ie El Sc1) as (S2 & _); eauto.
        split; [eapply shrinks_trans; eauto|]. intros ? ? [= <- <-]. eexists. split; [reflexivity|].
        rewrite <- (app_nil_r cs2). apply K. constructor.
      + destruct (line_run_trace r t l i esc chs true _ _ _ _ _ W Il Ie El Sc1) as (S2 & _); eauto.
        destruct cur1 as [|b cur2].
        { injection E as <- <-. destruct Ho as [|[? ?]]; discriminate. }
        destruct (IH _ _ _ _ _ _ E (scoped_shrinks _ _ _ Sc1 S2) Ho) as (S3 & R).
        split; [eapply shrinks_trans; [exact S1|]; eapply shrinks_trans; eauto|].
        intros cs' cur' Eo. destruct (R _ _ Eo) as (cs3 & -> & U). exists (cs2 ++ TValue b [] :: cs3).
        split; [now rewrite <- !app_assoc|]. apply K. now constructor.
      + injection E as <- <-. destruct Ho as [|[? ?]]; discriminate.
      + injection E as <- <-. destruct Ho as [|[? ?]]; discriminate.
  Qed.

  Lemma block_run_trace r t esc chs rev s0 : within r t -> esc_in r esc ->
    forall ls done, t_lines t = done ++ ls -> forall s acc prev cur s' o,
    block_run call bound t ls (length done) s esc chs rev acc prev cur = (s', o) ->
    scoped r s -> inside t s0 s -> Forall (fun x => line_ok x = false) acc -> (rev = true -> acc = []) ->
    (o = Err \/ exists x, o = Ok x) ->
    inside t s0 s' /\ (forall b rem, o = Ok (b, rem) -> b <> [] ->
      forall sfx rem', p_skip chs rem sfx rem' -> p_token r esc chs rev t cur (Tree t b sfx rem')).
  Proof.
    intros W Ie. induction ls as [|l ls IH]; intros done El s acc prev cur s' o E Sc In0 Fa Ra Ho; cbn [block_run] in E.
    - injection E as <- <-. split; auto. intros b rem [= <- <-] Nb sfx rem' P. destruct rev.
      + rewrite Ra in Nb; congruence.
      + now constructor.
    - assert (Il : In l (t_lines t)) by (rewrite El; apply in_elt).
      assert (Nt : nth_error (t_lines t) (length done) = Some l).
      { rewrite El, nth_error_app2 by lia. now rewrite Nat.sub_diag. }
      assert (El' : t_lines t = (done ++ [l]) ++ ls) by now rewrite <- app_assoc.
      assert (Ld : S (length done) = length (done ++ [l])) by (rewrite app_length; cbn; lia).
      rewrite Ld in E.
      destruct (s_visited s (t_name t) (length done) cur); [eapply IH; eauto|].
      set (s1 := s_mark s t (length done) cur) in *.
      assert (Sc1 : scoped r s1) by now apply scoped_mark.
      assert (In1 : inside t s0 s1) by now apply inside_mark.
      destruct rev.
      + rewrite (Ra eq_refl) in *. cbn [app] in E.
        destruct (reverse_loop call bound bound l (length done) s1 esc chs [] prev cur) as [s2 [[cs rem]| | |]] eqn:Er; cbn [sbind fst snd] in E.
        * destruct (reverse_loop_trace r t l _ esc chs W Il Ie _ _ _ _ _ _ _ Er Sc1) as (S2 & Q); eauto.
          destruct (Q _ _ eq_refl) as (cs1 & -> & U). cbn [app] in *.
          assert (In2 := inside_shrinks _ _ _ _ In1 S2).
          destruct cs1 as [|c0 cs1]; injection E as <- <-; split; auto; try discriminate.
          intros b rem0 [= <- <-] Nb sfx rem' P. econstructor; eauto. discriminate.
        * injection E as <- <-. destruct (reverse_loop_trace r t l _ esc chs W Il Ie _ _ _ _ _ _ _ Er Sc1) as (S2 & Q); eauto.
          split; [eapply inside_shrinks; eauto|discriminate].
        * injection E as <- <-. destruct Ho as [|[? ?]]; discriminate.
        * injection E as <- <-. destruct Ho as [|[? ?]]; discriminate.
      + destruct (line_run call bound l (length done) s1 esc chs false prev cur) as [s2 [[tl rem]| | |]] eqn:Er; cbn [stry] in E.
        * destruct (line_run_trace r t l _ esc chs false _ _ _ _ _ W Il Ie Er Sc1) as (S2 & P); eauto.
          destruct (P _ _ eq_refl) as (P' & Rn). clear P; rename P' into P. assert (In2 := inside_shrinks _ _ _ _ In1 S2).
          assert (Sc2 := scoped_shrinks _ _ _ Sc1 S2).
          destruct (line_ok tl) eqn:Eo.
          -- injection E as <- <-. split; auto. intros b rem0 [= <- <-] _ sfx rem' Ps. econstructor; eauto.
          -- eapply (IH (done ++ [l])); eauto. apply Forall_app; auto. discriminate.
        * destruct (line_run_trace r t l _ esc chs false _ _ _ _ _ W Il Ie Er Sc1) as (S2 & P); eauto.
          eapply (IH (done ++ [l])); eauto using inside_shrinks, scoped_shrinks.
        * injection E as <- <-. destruct Ho as [|[? ?]]; discriminate.
        * injection E as <- <-. destruct Ho as [|[? ?]]; discriminate.
  Qed.

  Lemma token_step_trace : traced (token_step call bound).
  Proof.
    intros r t s esc chs rev prev cur s' o E Sc W Ie Ho. unfold token_step in E.
    destruct (block_run call bound t (t_lines t) 0 (s_enter s t) esc chs rev [] prev cur) as [s1 ob] eqn:Eb.
    assert (K : (ob = Err \/ (exists x, ob = Ok x)) -> leaves t s (s_del s1 (t_name t)) /\
       (forall b rem, ob = Ok (b, rem) -> b <> [] -> forall sfx rem', p_skip chs rem sfx rem' -> p_token r esc chs rev t cur (Tree t b sfx rem'))).
    { intros Hb. destruct (block_run_trace r t esc chs rev s W Ie (t_lines t) [] eq_refl _ _ _ _ _ _ Eb) as (I & P); auto.
      - now apply scoped_enter.
      - apply inside_enter.
      - split; auto. now apply leaves_del. }
    destruct ob as [[b rem]| | |].
    - destruct K as (L & P); eauto. destruct b as [|l b].
      + injection E as <- <-. split; auto. discriminate.
      + injection E as <- <-. split; auto. intros x E.
        destruct (channels_try call bound chs prev rem) as [[sfx rem']| | |] eqn:Ec; try discriminate. cbn [bind fst snd] in E.
        injection E as <-. eapply P; eauto. discriminate. eapply channels_try_trace; eauto.
    - destruct K as (L & P); eauto. injection E as <- <-. split; auto. discriminate.
    - injection E as <- <-. destruct Ho as [|[? ?]]; discriminate.
    - injection E as <- <-. destruct Ho as [|[? ?]]; discriminate.
  Qed.
End Trace.

Lemma token_run_trace : forall fuel, traced (token_run fuel).
Proof.
  induction fuel as [|f IH]; cbn [token_run].
  - intros r t s esc chs rev prev cur s' o [= <- <-] _ _ _ [|[? ?]]; discriminate.
  - now apply token_step_trace.
Qed.

Lemma execute_trace fuel root chs data t : execute fuel (Grammar root chs) data = Ok t ->
  p_token root None chs false root data t.
Proof.
  unfold execute. destruct (token_run fuel root [] None chs false [] data) as [s' o] eqn:E. cbn [snd]. intros ->.
  edestruct token_run_trace as (_ & X); eauto using scoped_nil, within_refl. discriminate.
Qed.
