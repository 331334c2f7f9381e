(** Property theorems for the memory of the hash tree builder (C128, C129). *)
From Coq Require Import List ZArith NArith Lia Bool Arith.
From Coq Require Import Init.Byte Strings.Byte.
From Verif Require Import Base BaseLemmas HashModel HashProofs SpecHash HashTreeModel HashTreeProofs
  HashBuilderModel HashBuilderProofs PropHash.
Import ListNotations.

(** A slice lies inside its array. *)
Definition inside (m : arrays) (s : slice) : Prop :=
  sl_arr s < length m /\ sl_off s + sl_len s <= length (arr_at m (sl_arr s)).

(** *** C128 *)
(** With at most one block and room behind the slice, the block behind it becomes the empty block.
    Nothing else changes, and the tree is that of the blocks given. *)
Theorem C128_building_leaves_the_caller_s_blocks_refuted : forall H, sha_ok H ->
  forall m s, inside m s -> sl_len s <= 1 -> sl_off s + sl_len s < length (arr_at m (sl_arr s)) ->
  exists m' b', tb_now H m (tb_with_blocks tb_new (Some s)) = (m', b', build_tree H (Some (sl_blocks m s))) /\
    length m' = length m /\
    forall i j, nth j (arr_at m' i) [x00] =
      if (i =? sl_arr s) && (j =? sl_off s + sl_len s) then [] else nth j (arr_at m i) [x00].
Proof.
  intros H HL m s K L R. destruct (tb_now H m (tb_with_blocks tb_new (Some s))) as [[m' b'] r] eqn:E.
  destruct (now_blocks H m (tb_with_blocks tb_new (Some s)) s m' b' r (or_introl eq_refl) eq_refl K E) as (-> & s' & _ & _ & _ & Ea).
  exists m', b'. split; [reflexivity|]. apply Nat.leb_le in L. rewrite L in Ea.
  unfold append_block in Ea. apply Nat.ltb_lt in R as R'. rewrite R' in Ea. injection Ea as <- <-.
  destruct K as (K & _). split; [now apply list_set_length|]. intros i j. rewrite arr_list_set by auto.
  destruct (Nat.eqb_spec i (sl_arr s)) as [->|N]; [|reflexivity]. cbn [andb]. now apply nth_list_set.
Qed.
Print Assumptions C128_building_leaves_the_caller_s_blocks_refuted.

(** In all other cases the arrays of the caller are kept, and in all cases the tree is that of the blocks. *)
Theorem C128_otherwise_blocks_are_kept : forall H, sha_ok H ->
  forall m s, inside m s -> 2 <= sl_len s \/ sl_off s + sl_len s = length (arr_at m (sl_arr s)) ->
  exists m' b', tb_now H m (tb_with_blocks tb_new (Some s)) = (m', b', build_tree H (Some (sl_blocks m s))) /\
    forall i, i < length m -> arr_at m' i = arr_at m i.
Proof.
  intros H HL m s K L. destruct (tb_now H m (tb_with_blocks tb_new (Some s))) as [[m' b'] r] eqn:E.
  destruct (now_blocks H m (tb_with_blocks tb_new (Some s)) s m' b' r (or_introl eq_refl) eq_refl K E) as (-> & s' & _ & _ & _ & Ea).
  exists m', b'. split; [reflexivity|]. intros i Li. destruct (Nat.leb_spec (sl_len s) 1) as [Le|Gt].
  - destruct L as [L|L]; [lia|]. unfold append_block in Ea. rewrite L, Nat.ltb_irrefl in Ea. injection Ea as <- _.
    unfold arr_at. now apply app_nth1.
  - now injection Ea as <- _.
Qed.
Print Assumptions C128_otherwise_blocks_are_kept.

(** The first of two blocks of an array: the second is lost. *)
Example C128_ex : match tb_now toy_sha [[[x01]; [x02]; [x03]]] (tb_with_blocks tb_new (Some (Slice 0 0 1))) with
  | (m, _, r) => m = [[[x01]; []; [x03]]] /\ r = build_tree toy_sha (Some [[x01]])
  end.
Proof. vm_compute. split; reflexivity. Qed.
Example C128_ex_kept : match tb_now toy_sha [[[x01]; [x02]; [x03]]] (tb_with_blocks tb_new (Some (Slice 0 0 2))) with
  | (m, _, r) => m = [[[x01]; [x02]; [x03]]] /\ r = build_tree toy_sha (Some [[x01]; [x02]])
  end.
Proof. vm_compute. split; reflexivity. Qed.

(** *** C129 *)
(** The calls on one builder, in any order and number. *)
Inductive builder_call : Type :=
  GiveBlocks (s : option slice) | GiveHead (h : bytes) | GiveParent (p : option (leaf * leaf)) | Build.
Definition call_on (H : bytes -> bytes) (x : arrays * tree_builder) (c : builder_call) : arrays * tree_builder :=
  match c with
  | GiveBlocks s => (fst x, tb_with_blocks (snd x) s)
  | GiveHead h => (fst x, tb_with_head (snd x) h)
  | GiveParent p => (fst x, tb_with_parent (snd x) p)
  | Build => fst (tb_now H (fst x) (snd x))
  end.
Definition calls_on (H : bytes -> bytes) (m : arrays) (cs : list builder_call) : arrays * tree_builder :=
  fold_left (call_on H) cs (m, tb_new).
(** [o] is the argument of the last call that [f] selects. *)
Definition last_given {A} (f : builder_call -> option A) (cs : list builder_call) (o : option A) : Prop :=
  match o with
  | Some v => exists c pre post, cs = pre ++ c :: post /\ f c = Some v /\ Forall (fun c => f c = None) post
  | None => Forall (fun c => f c = None) cs
  end.
Definition a_head (c : builder_call) : option bytes := match c with GiveHead h => Some h | _ => None end.
Definition a_parent (c : builder_call) : option (option (leaf * leaf)) := match c with GiveParent p => Some p | _ => None end.

Lemma last_given_snoc {A} (f : builder_call -> option A) cs c o : last_given f (cs ++ [c]) o ->
  (f c = o /\ o <> None) \/ (f c = None /\ last_given f cs o).
Proof.
  destruct o as [v|]; cbn [last_given].
  - intros (c' & pre & post & E & F & N). destruct post as [|y post _] using rev_ind.
    + apply app_inj_tail in E as (<- & <-). left. split; [exact F|discriminate].
    + rewrite app_comm_cons, app_assoc in E. apply app_inj_tail in E as (-> & ->). right.
      apply Forall_app in N as (N & N1). inversion N1; subst. split; [auto|].
      exists c', pre, post. auto.
  - intros N. apply Forall_app in N as (N & N1). inversion N1; subst. right. auto.
Qed.

Lemma last_ex {A} (f : builder_call -> option A) cs : exists o, last_given f cs o.
Proof.
  induction cs as [|c cs (o & IH)] using rev_ind; [exists None; constructor|].
  destruct (f c) as [v|] eqn:E.
  - exists (Some v), c, cs, []. auto.
  - exists o. destruct o as [v|].
    + destruct IH as (c' & pre & post & -> & F & N). exists c', pre, (post ++ [c]). rewrite <- app_assoc. split; [reflexivity|].
      split; [exact F|]. apply Forall_app. auto.
    + apply Forall_app. auto.
Qed.

(** What a builder remembers: the last head and the last parent. *)
Lemma calls_fields H m cs : forall h p, last_given a_head cs h -> last_given a_parent cs p ->
  tb_head (snd (calls_on H m cs)) = h /\ tb_parent (snd (calls_on H m cs)) = match p with Some q => q | None => None end.
Proof.
  induction cs as [|c cs IH] using rev_ind; intros h p Lh Lp.
  - destruct h as [h|]; [destruct Lh as (? & [|? ?] & ? & E & _); discriminate E|].
    destruct p as [p|]; [destruct Lp as (? & [|? ?] & ? & E & _); discriminate E|]. split; reflexivity.
  - unfold calls_on. rewrite fold_left_app. fold (calls_on H m cs). cbn [fold_left].
    assert (T : forall x, tb_head (snd (call_on H x Build)) = tb_head (snd x) /\ tb_parent (snd (call_on H x Build)) = tb_parent (snd x)).
    { intros [m0 [bl hd pa]]. cbn [call_on fst snd]. unfold tb_now. cbn [tb_head tb_parent tb_blocks].
      destruct hd, pa as [[? ?]|]; try (split; reflexivity); (destruct bl as [s0|]; [|split; reflexivity]);
        destruct (if sl_len s0 <=? 1 then append_block m0 s0 [] else (m0, s0)) as [m1 s1]; split; reflexivity. }
    apply last_given_snoc in Lh. apply last_given_snoc in Lp.
    destruct Lh as [(Lh & Nh)|(Lh & Lh')]; destruct Lp as [(Lp & Np)|(Lp & Lp')]; destruct c; cbn in Lh, Lp; try discriminate;
      try congruence.
    + subst h. split; [reflexivity|]. destruct (last_ex a_head cs) as (h' & Lh). exact (proj2 (IH h' p Lh Lp')).
    + subst p. split; [|reflexivity]. destruct (last_ex a_parent cs) as (p' & Lp). exact (proj1 (IH h p' Lh' Lp)).
    + now apply IH.
    + now rewrite (proj1 (T _)), (proj2 (T _)); apply IH.
Qed.

(** Once a head and a parent have been given, they are what is built, unchecked, whatever else was given and
    built before, between or after; and memory is left alone. *)
Theorem C129_given_heads_are_checked_refuted : forall H m cs head l r,
  last_given a_head cs (Some head) -> last_given a_parent cs (Some (Some (l, r))) ->
  let '(m1, b) := calls_on H m cs in tb_now H m1 b = (m1, b, Ok (HashTree head l r)).
Proof.
  intros H m cs head l r Lh Lp. destruct (calls_fields H m cs _ _ Lh Lp) as (Eh & Ep).
  destruct (calls_on H m cs) as [m1 b]. cbn [snd] in *. unfold tb_now. now rewrite Eh, Ep.
Qed.
Print Assumptions C129_given_heads_are_checked_refuted.

(** A head that is not that of the parent, given before and after blocks and builds. *)
Example C129_ex_heads : forall s,
  let cs := [GiveParent (Some (LHead [x01], LHead [x02])); Build; GiveHead [x07]; GiveBlocks s; GiveHead [x08]; Build] in
  last_given a_head cs (Some [x08]) /\ last_given a_parent cs (Some (Some (LHead [x01], LHead [x02]))).
Proof.
  intros s cs. split.
  - exists (GiveHead [x08]), [GiveParent (Some (LHead [x01], LHead [x02])); Build; GiveHead [x07]; GiveBlocks s], [Build].
    repeat split. repeat constructor.
  - eexists _, [], _. repeat split. repeat constructor.
Qed.

(** A second Now on the same builder gives the same tree and changes nothing, if there was a block. *)
Theorem C129_building_again_gives_the_same : forall H, sha_ok H ->
  forall m b s m' b' r, tb_head b = None \/ tb_parent b = None -> tb_blocks b = Some s -> inside m s -> 1 <= sl_len s ->
  tb_now H m b = (m', b', r) -> tb_now H m' b' = (m', b', r).
Proof.
  intros H HL m b s m' b' r N Es K L E.
  destruct (now_blocks H m b s m' b' r N Es K E) as (Er & s' & -> & K' & B & _).
  destruct (tb_now H m' (tb_with_blocks b (Some s'))) as [[m2 b2] r2] eqn:E2.
  destruct (now_blocks H m' (tb_with_blocks b (Some s')) s' m2 b2 r2 N eq_refl K' E2) as (Er2 & s2 & -> & _ & _ & Ea).
  pose proof (sl_blocks_length m s K) as Lb. pose proof (sl_blocks_length m' s' K') as Lb'. rewrite B, Lb in Lb'.
  assert (Ls : 2 <= sl_len s').
  { rewrite <- Lb'. destruct (Nat.leb_spec (sl_len s) 1); [rewrite app_length; cbn [length]|]; lia. }
  destruct (Nat.leb_spec (sl_len s') 1) as [?|_]; [lia|]. injection Ea as <- <-.
  repeat f_equal. rewrite Er, Er2. rewrite !tree_of_blocks_build, !sl_blocks_length by auto.
  destruct (Nat.leb_spec (sl_len s') 1) as [?|_]; [lia|]. now rewrite B, Lb.
Qed.
Print Assumptions C129_building_again_gives_the_same.

(** Without a block the first Now panics, and the second gives the tree of one empty block. *)
Theorem C129_building_again_after_a_panic : forall H, sha_ok H ->
  forall m b s, tb_head b = None \/ tb_parent b = None -> tb_blocks b = Some s -> inside m s -> sl_len s = 0 ->
  exists m' b' m2 b2 t, tb_now H m b = (m', b', Panic) /\ tb_now H m' b' = (m2, b2, Ok t) /\
    build_tree H (Some [[]]) = Ok t.
Proof.
  intros H HL m b s N Es K L. destruct (tb_now H m b) as [[m' b'] r] eqn:E.
  destruct (now_blocks H m b s m' b' r N Es K E) as (Er & s' & -> & K' & B & _).
  destruct (tb_now H m' (tb_with_blocks b (Some s'))) as [[m2 b2] r2] eqn:E2.
  destruct (now_blocks H m' (tb_with_blocks b (Some s')) s' m2 b2 r2 N eq_refl K' E2) as (Er2 & _).
  pose proof (sl_blocks_length m s K) as Lb. rewrite L in Lb. apply length_zero_iff_nil in Lb.
  rewrite Lb in *. cbn [length Nat.leb app] in B. rewrite B in Er2.
  destruct (build_tree_spec H HL [[]]) as (t & _ & _ & Et & _); [discriminate|].
  exists m', (tb_with_blocks b (Some s')), m2, b2, t. split; [now rewrite Er|]. split; [now rewrite E2, Er2, Et|exact Et].
Qed.
Print Assumptions C129_building_again_after_a_panic.

Example C129_ex : let b := tb_with_blocks tb_new (Some (Slice 0 1 0)) in
  match tb_now toy_sha [[[x01]]] b with
  | (m, b', r) => r = Panic /\ match tb_now toy_sha m b' with (_, _, r) => r = build_tree toy_sha (Some [[]]) end
  end.
Proof. vm_compute. split; reflexivity. Qed.
