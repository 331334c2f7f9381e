(** Property theorems for the conditions of channels (C119 - C121). *)
From Coq Require Import List ZArith Lia Bool.
From Coq Require Import Init.Byte Strings.Byte.
From Verif Require Import Base BaseLemmas AstModel SpecAst AstFuelProofs SpecPeg AstListProofs AstPegProofs SpecCond AstCondProofs.
Import ListNotations.

(** The line of the named bytes [l], each once. *)
Definition once_each (l : list (bytes * byte)) : list container := map (fun x => CElement (EValue (fst x) (snd x)) 1 (Some 1%Z)) l.
(** A token for one byte, and for at most one. *)
Definition a_byte (n : bytes) (b : byte) : token := Token n [[CElement (EValue n b) 1 (Some 1%Z)]] [].
Definition at_most_a_byte (n : bytes) (b : byte) : token := Token n [[CElement (EValue n b) 0 (Some 1%Z)]] [].

(** Execute finds the line and leaves [rest]. *)
Definition leaves (fuel : nat) (g : grammar) (d rest : bytes) : Prop :=
  exists t, execute fuel g d = Ok t /\ has_successful t = true /\ tr_remaining t = rest.

(** ** C119 *)
Theorem C119_channel_conditions : forall n l su chs d,
  let g := Grammar (Token n [once_each l] su) chs in
  l <> [] -> channels_peg chs -> no_escape g -> guarded g ->
  exists enough, forall fuel, enough <= fuel -> forall rest,
    leaves fuel g d rest <-> exists r, bytes_between chs (map snd l) [] d r /\ rounds chs [] r rest.
Proof.
  intros n l su chs d g Nl Hp Ne G. exists (enough (gram_size g) (length d)). intros f L rest.
  exact (conditional_line n l su chs d Nl Hp Ne f (guarded_terminates g d G f L) rest).
Qed.
Print Assumptions C119_channel_conditions.

(** 'a' 'b'; a space is skipped after 'a', a dot before 'b'. *)
Definition ex_cond : grammar :=
  Grammar (Token [x72] [once_each [([x61], x61); ([x62], x62)]] [])
    [Channel (a_byte [x73] x20) (Some (Some (a_byte [x61] x61), None));
     Channel (a_byte [x64] x2e) (Some (None, Some (a_byte [x62] x62)))].

Example C119_ex : channels_peg [Channel (a_byte [x73] x20) (Some (Some (a_byte [x61] x61), None));
     Channel (a_byte [x64] x2e) (Some (None, Some (a_byte [x62] x62)))] /\ no_escape ex_cond /\ guarded ex_cond.
Proof.
  refine (conj _ (conj _ _)).
  - intros t cond I.
    assert (K : forall n b, every_container plain_container (a_byte n b)).
    { intros n b u l c W Il Ic. apply within_tokens in W. cbn in W. destruct W as [<-|[]]. cbn in Il. destruct Il as [<-|[]].
      destruct Ic as [<-|[]]. exact Logic.I. }
    destruct I as [[= <- <-]|[[= <- <-]|[]]]; (split; [apply check_peg_ok; vm_compute; reflexivity|apply K]).
  - apply check_escape. vm_compute. reflexivity.
  - apply check_guarded_ok. vm_compute. reflexivity.
Qed.

(** "a b", "a .b" and "a.b" match, "a  b", "a. b" and "a..b" do not. *)
Example C119_ex_run :
  map (fun d => match execute 20 ex_cond d with Ok t => Some (has_successful t, tr_remaining t) | _ => None end)
    [[x61; x20; x62]; [x61; x20; x2e; x62]; [x61; x20; x20; x62]; [x61; x2e; x62]; [x61; x2e; x20; x62]; [x61; x2e; x2e; x62]] =
  [Some (true, []); Some (true, []); None; Some (true, []); None; None].
Proof. vm_compute. reflexivity. Qed.

(** ** C120 *)
Theorem C120_previous_condition_fails_at_the_end_refuted : forall n l su chs d,
  let g := Grammar (Token n [once_each l] su) chs in
  l <> [] -> channels_peg chs -> no_escape g -> guarded g ->
  (forall t cond, In (Channel t cond) chs -> exists b a, cond = Some (Some b, a) /\ ~ tolerated b []) ->
  exists enough, forall fuel, enough <= fuel -> forall rest,
    leaves fuel g d rest <-> bytes_between chs (map snd l) [] d rest.
Proof.
  intros n l su chs d g Nl Hp Ne G H. destruct (C119_channel_conditions n l su chs d Nl Hp Ne G) as (e & E).
  exists e. intros f L rest. unfold g. rewrite (E f L rest). split.
  - intros (r & B & R). apply rounds_conditioned in R; auto. now subst r.
  - intros B. exists rest. split; auto.
    eapply rounds_end. assert (K : forall l', incl l' chs -> round l' [] rest [] rest).
    { induction l' as [|c l' IH]; intros Inc; [constructor|]. apply round_passes.
      - intros r T. destruct c as [t cond]. destruct (H t cond (Inc _ (or_introl eq_refl))) as (b & a & -> & N).
        destruct T as (_ & C & _). apply N. auto.
      - apply IH. intros x Hx. apply Inc. now right. }
    apply K, incl_refl.
Qed.
Print Assumptions C120_previous_condition_fails_at_the_end_refuted.

(** Spaces are skipped after 'b': "b " leaves the space, which is skipped when an 'a' follows. *)
Definition ex_after (l : list (bytes * byte)) : grammar :=
  Grammar (Token [x72] [once_each l] []) [Channel (a_byte [x73] x20) (Some (Some (a_byte [x62] x62), None))].
Lemma a_byte_not_empty n b : ~ tolerated (a_byte n b) [].
Proof.
  intros (f & t & E). assert (X : execute (2 + f) (Grammar (a_byte n b) []) [] = Ok t).
  { rewrite <- E. apply execute_mono; [lia|]. rewrite E. discriminate. }
  cbn in X. unfold execute in X. cbn [token_run] in X. unfold token_step at 1 in X. cbn [t_lines a_byte block_run] in X.
  destruct (s_visited _ _ _ _); [discriminate|]. cbn in X. discriminate.
Qed.
Example C120_ex :
  (exists b a, Some (Some (a_byte [x62] x62), @None token) = Some (Some b, a) /\ ~ tolerated b []) /\
  match execute 20 (ex_after [([x62], x62)]) [x62; x20] with Ok t => Some (has_successful t, tr_remaining t) | _ => None end = Some (true, [x20]) /\
  match execute 20 (ex_after [([x62], x62); ([x61], x61)]) [x62; x20; x61] with Ok t => Some (has_successful t, tr_remaining t) | _ => None end = Some (true, []).
Proof.
  refine (conj _ (conj _ _)).
  - eexists; eexists. split; [reflexivity|]. apply a_byte_not_empty.
  - vm_compute. reflexivity.
  - vm_compute. reflexivity.
Qed.

(** ** C121 *)
Definition with_condition (cond : option (option token * option token)) (c : channel) : channel :=
  let 'Channel t _ := c in Channel t cond.

Theorem C121_optional_tokens_are_no_condition_refuted : forall n l su chs n1 b1 n2 b2 d,
  let cond := Some (Some (at_most_a_byte n1 b1), Some (at_most_a_byte n2 b2)) in
  let g := Grammar (Token n [once_each l] su) (map (with_condition cond) chs) in
  let g' := Grammar (Token n [once_each l] su) (map (with_condition None) chs) in
  l <> [] -> channels_peg chs -> no_escape g -> guarded g -> no_escape g' -> guarded g' ->
  exists enough, forall fuel, enough <= fuel -> forall rest, leaves fuel g d rest <-> leaves fuel g' d rest.
Proof.
  intros n l su chs n1 b1 n2 b2 d cond g g' Nl Hp Ne G Ne' G'.
  assert (P : forall cd, channels_peg (map (with_condition cd) chs)).
  { intros cd t c I. apply in_map_iff in I as ([t0 c0] & [= <- <-] & I). eapply Hp; eauto. }
  destruct (C119_channel_conditions n l su _ d Nl (P cond) Ne G) as (e1 & E1).
  destruct (C119_channel_conditions n l su _ d Nl (P None) Ne' G') as (e2 & E2).
  exists (Nat.max e1 e2). intros f L rest. unfold g, g'. rewrite (E1 f ltac:(lia) rest), (E2 f ltac:(lia) rest).
  assert (F : Forall2 (fun c c' => forall prev x r, takes c prev x r <-> takes c' prev x r)
                (map (with_condition cond) chs) (map (with_condition None) chs)).
  { clear. induction chs as [|[t c] chs IH]; cbn [map]; constructor; auto. intros prev x r. cbn [with_condition takes condition_holds cond].
    split; [tauto|]. intros (R & _). split; auto. split; intros t' [= <-]; apply optional_tolerated. }
  assert (F' : Forall2 (fun c c' => forall prev x r, takes c prev x r <-> takes c' prev x r)
                (map (with_condition None) chs) (map (with_condition cond) chs)).
  { clear - F. induction F; constructor; auto. intros. symmetry. auto. }
  split; intros (r & B & R); exists r; eauto using between_ext, rounds_ext.
Qed.
Print Assumptions C121_optional_tokens_are_no_condition_refuted.

(** A space is skipped although no 'x' follows it. *)
Example C121_ex :
  match execute 20 (Grammar (Token [x72] [once_each [([x61], x61); ([x62], x62)]] [])
      [Channel (a_byte [x73] x20) (Some (None, Some (at_most_a_byte [x78] x78)))]) [x61; x20; x62] with
  | Ok t => Some (has_successful t, tr_remaining t) | _ => None end = Some (true, []) /\
  match execute 20 (Grammar (at_most_a_byte [x78] x78) []) [x62] with
  | Ok t => Some (has_successful t) | _ => None end = Some false.
Proof. refine (conj _ _); vm_compute; reflexivity. Qed.
