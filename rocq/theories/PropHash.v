(** Property theorems for hashes and hash trees (C01 - C15, C73 - C75). *)
From Coq Require Import List ZArith NArith Lia Bool Permutation.
From Coq Require Import Init.Byte.
From Verif Require Import Base BaseLemmas HashModel HashProofs SpecHash HashTreeModel HashTreeProofs.
Import ListNotations.

(** What is assumed of SHA-512 everywhere: it returns 64 bytes. *)
Definition sha_ok (H : bytes -> bytes) : Prop := forall x, length (H x) = 64.

(** A concrete function with that property, used in the examples only. *)
Definition toy_sha (x : bytes) : bytes := firstn 64 (put_u64 (zlen x) ++ x ++ repeat x00 64).

Example toy_sha_ok : sha_ok toy_sha.
Proof.
  intros x. unfold toy_sha. rewrite firstn_length, !app_length, put_u64_length, repeat_length. lia.
Qed.

(** *** C01 *)
Theorem C01_hash_is_64_bytes_and_idempotent : forall H, sha_ok H ->
  (forall x, block_hash H x (from_bytes H x)) /\
  (forall x, length (from_bytes H x) = 64) /\
  (forall x, from_bytes H (from_bytes H x) = from_bytes H x) /\
  (forall xs, block_hash H (concat xs) (from_multi H xs)).
Proof.
  intros H HL.
  assert (B : forall x, block_hash H x (from_bytes H x)).
  { intros x. unfold block_hash. destruct (Nat.eq_dec (length x) 64) as [E|E].
    - left. split; auto. now apply from_bytes_64.
    - right. split; auto. now apply from_bytes_other. }
  repeat split; auto.
  - intros; now apply from_bytes_length.
  - intros; now apply from_bytes_idem.
  - intros xs. apply B.
Qed.
Print Assumptions C01_hash_is_64_bytes_and_idempotent.

Example C01_example : from_bytes toy_sha (from_bytes toy_sha [x61; x62]) = from_bytes toy_sha [x61; x62].
Proof. reflexivity. Qed.

(** *** C02: false as stated; what is left of it. *)
Theorem C02_hash_identifies_content_refuted : forall H, sha_ok H ->
  forall x, length x <> 64 ->
  exists y, y <> x /\ from_bytes H y = from_bytes H x.
Proof.
  intros H HL x Hx. exists (H x). split.
  - intros E. apply Hx. rewrite <- E. apply HL.
  - rewrite from_bytes_64 by apply HL. now rewrite from_bytes_other.
Qed.
Print Assumptions C02_hash_identifies_content_refuted.

Theorem C02_hash_identifies_content_same_kind : forall H,
  forall x y, (length x = 64 <-> length y = 64) ->
  from_bytes H x = from_bytes H y -> x = y \/ (x <> y /\ H x = H y).
Proof.
  intros H x y Hxy E. destruct (bytes_eq_dec x y) as [->|N]; auto.
  destruct (Nat.eq_dec (length x) 64) as [Ex|Ex].
  - assert (Ey : length y = 64) by tauto.
    rewrite !from_bytes_64 in E by auto. auto.
  - assert (Ey : length y <> 64) by tauto.
    rewrite !from_bytes_other in E by auto. auto.
Qed.
Print Assumptions C02_hash_identifies_content_same_kind.

Example C02_example : from_bytes toy_sha [x61] = from_bytes toy_sha (toy_sha [x61]).
Proof. reflexivity. Qed.

(** *** C03 *)
Theorem C03_hash_text_is_faithful : forall H,
  (forall h, length h = 64 -> from_string H (hash_string h) = Ok h) /\
  (forall h, length h = 64 -> length (hash_string h) = 128) /\
  (forall h c, In c (hash_string h) ->
     (48 <= Z_of_byte c <= 57 \/ 97 <= Z_of_byte c <= 102)%Z) /\
  (forall a b, hash_compare a b = true <-> a = b) /\
  (forall a b, hash_string a = hash_string b <-> hash_compare a b = true).
Proof.
  intros H. repeat split.
  - intros; now apply from_string_string.
  - intros h E. rewrite hash_string_length. lia.
  - apply hash_string_lower.
  - apply bytes_eqb_true.
  - apply bytes_eqb_true.
  - intros E. apply bytes_eqb_true. now apply hash_string_inj.
  - intros E. apply bytes_eqb_true in E. now subst.
Qed.
Print Assumptions C03_hash_text_is_faithful.

Example C03_example :
  hash_string [x0f; xa0] = [x30; x66; x61; x30].
Proof. reflexivity. Qed.

(** *** C04 *)
Theorem C04_tree_keeps_blocks_in_order : forall H, sha_ok H ->
  forall blocks, blocks <> [] ->
  exists t hs pad k,
    build_tree H (Some blocks) = Ok t /\
    ht_leaves t = map LHead (hs ++ repeat (H []) pad) /\
    Forall2 (block_hash H) blocks hs /\
    length (hs ++ repeat (H []) pad) = 2 ^ k /\
    pad_exponent (length blocks) k.
Proof.
  intros H HL blocks Hne.
  destruct (build_tree_spec H HL blocks Hne) as (t & k & pad & E & P & Hp & Hl & Hlv & _).
  exists t, (map (from_bytes H) blocks), pad, (S k).
  repeat split; auto; try apply Hp.
  - clear - HL. induction blocks; cbn; constructor; auto.
    apply (C01_hash_is_64_bytes_and_idempotent H HL).
  - rewrite app_length, map_length, repeat_length. exact Hl.
Qed.
Print Assumptions C04_tree_keeps_blocks_in_order.

Example C04_example :
  match build_tree toy_sha (Some [[x01]; [x02]; [x03]]) with
  | Ok t => ht_leaves t = map LHead (map toy_sha [[x01]; [x02]; [x03]; []])
  | _ => False
  end.
Proof. vm_compute. reflexivity. Qed.

(** *** C05: false; exactly which inputs panic. *)
Theorem C05_build_never_panics_refuted : forall H,
  exists blocks, build_tree H (Some blocks) = Panic.
Proof. intros H. exists []. reflexivity. Qed.
Print Assumptions C05_build_never_panics_refuted.

Theorem C05_build_panics_only_on_empty : forall H, sha_ok H ->
  forall blocks,
    (build_tree H (Some blocks) = Panic <-> blocks = []) /\
    (blocks <> [] -> exists t, build_tree H (Some blocks) = Ok t) /\
    build_tree H None = Err.
Proof.
  intros H HL blocks. repeat split.
  - intros E. destruct blocks as [|b bl]; auto.
    destruct (build_tree_spec H HL (b :: bl)) as (t & k & pad & E' & _); congruence.
  - intros ->. reflexivity.
  - intros Hne. destruct (build_tree_spec H HL blocks Hne) as (t & k & pad & E' & _); eauto.
Qed.
Print Assumptions C05_build_panics_only_on_empty.

Example C05_example : exists t, build_tree toy_sha (Some [[]]) = Ok t.
Proof. eexists. vm_compute. reflexivity. Qed.

(** *** C06 *)
Theorem C06_head_is_merkle_root : forall H, sha_ok H ->
  forall blocks t, build_tree H (Some blocks) = Ok t ->
  merkle H (map leaf_head (ht_leaves t)) (ht_head t).
Proof.
  intros H HL blocks t E. destruct blocks as [|b bl]; [discriminate|].
  destruct (build_tree_spec H HL (b :: bl)) as (t' & k & pad & E' & P & _); [congruence|].
  rewrite E in E'. inversion E'; subst. eapply perfect_ht_merkle; eauto.
Qed.
Print Assumptions C06_head_is_merkle_root.

(** The Merkle root over given hashes is unique, so the theorem above fixes the head. *)
Theorem C06_merkle_root_unique : forall H l r1 r2,
  merkle H l r1 -> merkle H l r2 -> r1 = r2.
Proof.
  intros H l r1 r2 M1; revert r2.
  induction M1 as [h|l r a b L M1 IH1 M2 IH2]; intros r2 M.
  - inversion M as [|l' r' a' b' L' M1' M2' E]; auto.
    apply merkle_nonempty in M1'. apply merkle_nonempty in M2'.
    destruct l' as [|? [|? ?]], r'; cbn in E; try congruence; inversion E.
  - inversion M as [h E|l' r' a' b' L' M1' M2' E].
    + apply merkle_nonempty in M1. apply merkle_nonempty in M2.
      destruct l as [|? [|? ?]], r; cbn in E; try congruence; inversion E.
    + assert (Hlen : length l' = length l).
      { apply (f_equal (@length bytes)) in E. rewrite !app_length in E. lia. }
      apply app_eq_len in E as [-> ->]; auto.
      now rewrite (IH1 a'), (IH2 b').
Qed.
Print Assumptions C06_merkle_root_unique.

Example C06_example :
  match build_tree toy_sha (Some [[x01]; [x02]; [x03]]) with
  | Ok t => ht_head t =
      toy_sha (toy_sha (toy_sha [x01] ++ toy_sha [x02]) ++ toy_sha (toy_sha [x03] ++ toy_sha []))
  | _ => False
  end.
Proof. vm_compute. reflexivity. Qed.

(** *** C07 *)
Theorem C07_head_binds_leaves : forall H, sha_ok H ->
  forall b1 t1 b2 t2,
    build_tree H (Some b1) = Ok t1 -> build_tree H (Some b2) = Ok t2 ->
    length (ht_leaves t1) = length (ht_leaves t2) ->
    ht_head t1 = ht_head t2 ->
    ht_leaves t1 = ht_leaves t2 \/
    collide H (merkle_input H (map leaf_head (ht_leaves t1))) (merkle_input H (map leaf_head (ht_leaves t2))).
Proof.
  intros H HL b1 t1 b2 t2 E1 E2 EL EH.
  destruct b1 as [|x1 b1]; [discriminate|]. destruct b2 as [|x2 b2]; [discriminate|].
  destruct (build_tree_spec H HL (x1 :: b1)) as (t1' & k1 & p1 & E1' & P1 & _ & _ & L1 & _); [congruence|].
  destruct (build_tree_spec H HL (x2 :: b2)) as (t2' & k2 & p2 & E2' & P2 & _ & _ & L2 & _); [congruence|].
  assert (t1' = t1) by congruence. assert (t2' = t2) by congruence. subst t1' t2'.
  destruct (merkle_binding H HL _ _ (perfect_ht_merkle H k1 t1 P1) _ _ (perfect_ht_merkle H k2 t2 P2))
    as [E|C]; auto.
  - now rewrite !map_length.
  - eapply perfect_ht_heads64; eauto.
  - eapply perfect_ht_heads64; eauto.
  - left. rewrite L1, L2 in *. rewrite !map_map in E. cbn [leaf_head] in E.
    rewrite !map_id in E. now rewrite E.
Qed.
Print Assumptions C07_head_binds_leaves.

(** With the same number of blocks of sizes other than 64, the head fixes the blocks themselves. *)
Theorem C07_head_binds_blocks : forall H, sha_ok H ->
  forall b1 t1 b2 t2,
    build_tree H (Some b1) = Ok t1 -> build_tree H (Some b2) = Ok t2 ->
    length b1 = length b2 ->
    Forall (fun b => length b <> 64) b1 -> Forall (fun b => length b <> 64) b2 ->
    ht_head t1 = ht_head t2 ->
    b1 = b2 \/ collide H (fun x => In x b1) (fun y => In y b2) \/
    collide H (merkle_input H (map leaf_head (ht_leaves t1))) (merkle_input H (map leaf_head (ht_leaves t2))).
Proof.
  intros H HL b1 t1 b2 t2 E1 E2 EL F1 F2 EH.
  destruct b1 as [|x1 b1]; [discriminate|]. destruct b2 as [|x2 b2]; [discriminate|].
  destruct (build_tree_spec H HL (x1 :: b1)) as (t1' & k1 & p1 & E1' & P1 & Q1 & S1 & L1 & _); [congruence|].
  destruct (build_tree_spec H HL (x2 :: b2)) as (t2' & k2 & p2 & E2' & P2 & Q2 & S2 & L2 & _); [congruence|].
  assert (t1' = t1) by congruence. assert (t2' = t2) by congruence. subst t1' t2'.
  assert (k1 = k2).
  { rewrite EL in Q1. destruct Q1 as (A1 & B1 & C1), Q2 as (A2 & B2 & C2).
    pose proof (C1 _ A2 B2). pose proof (C2 _ A1 B1). lia. }
  subst k2. assert (p1 = p2) by lia. subst p2.
  destruct (C07_head_binds_leaves H HL _ _ _ _ E1 E2) as [E|C]; auto.
  { rewrite L1, L2, !map_length, !app_length, !map_length, !repeat_length. lia. }
  rewrite L1, L2 in E.
  assert (E' : map (from_bytes H) (x1 :: b1) = map (from_bytes H) (x2 :: b2)).
  { apply (f_equal (map leaf_head)) in E. rewrite !map_map in E. cbn [leaf_head] in E.
    rewrite !map_id in E. apply app_eq_len in E; [tauto|]. now rewrite !map_length. }
  enough (X : x1 :: b1 = x2 :: b2 \/ collide H (fun x => In x (x1 :: b1)) (fun y => In y (x2 :: b2)))
    by (destruct X; auto).
  clear - E' F1 F2. revert E' F1 F2. generalize (x1 :: b1) (x2 :: b2).
  induction l as [|x l IH]; intros [|y m] E F1 F2; try discriminate; auto.
  inversion F1; subst. inversion F2; subst. cbn [map] in E. inversion E as [[Exy Elm]].
  rewrite !from_bytes_other in Exy by auto.
  destruct (bytes_eq_dec x y) as [->|N].
  - destruct (IH m Elm) as [->|(u & v & U & V & N & C)]; auto.
    right. exists u, v. repeat split; auto; now right.
  - right. exists x, y. repeat split; auto; now left.
Qed.
Print Assumptions C07_head_binds_blocks.

Example C07_example :
  match build_tree toy_sha (Some [[x01]; [x02]]), build_tree toy_sha (Some [[x01]; [x03]]) with
  | Ok a, Ok b => ht_leaves a <> ht_leaves b /\ length (ht_leaves a) = length (ht_leaves b)
  | _, _ => False
  end.
Proof. vm_compute. split; [discriminate|reflexivity]. Qed.

(** *** C08: false, with two families of counterexamples. *)
Theorem C08_padding_is_ambiguous_refuted : forall H, sha_ok H ->
  forall a b c, exists t1 t2,
    build_tree H (Some [a; b; c]) = Ok t1 /\ build_tree H (Some [a; b; c; []]) = Ok t2 /\
    [a; b; c] <> [a; b; c; []] /\ ht_head t1 = ht_head t2.
Proof.
  intros H HL a b c. do 2 eexists. repeat split; try reflexivity. congruence.
Qed.
Print Assumptions C08_padding_is_ambiguous_refuted.

Theorem C08_no_domain_separation_refuted : forall H, sha_ok H ->
  forall a b c d, exists x y t1 t2,
    build_tree H (Some [a; b; c; d]) = Ok t1 /\ build_tree H (Some [x; y]) = Ok t2 /\
    [a; b; c; d] <> [x; y] /\ ht_head t1 = ht_head t2.
Proof.
  intros H HL a b c d.
  exists (from_bytes H a ++ from_bytes H b), (from_bytes H c ++ from_bytes H d).
  eexists. eexists. split; [reflexivity|]. split; [reflexivity|]. split; [congruence|].
  cbn [ht_head]. unfold pair_head. cbn [leaf_head]. unfold pair_head. cbn [leaf_head].
  unfold from_multi. cbn [concat]. rewrite !app_nil_r. reflexivity.
Qed.
Print Assumptions C08_no_domain_separation_refuted.

(** *** C09 *)
Theorem C09_height_and_length : forall H, sha_ok H ->
  forall blocks t, build_tree H (Some blocks) = Ok t ->
  exists k, pad_exponent (length blocks) k /\ ht_length t = 2 ^ k /\
            cp_length (ht_compact t) = 2 ^ k /\ ht_height t = k + 1.
Proof.
  intros H HL blocks t E. destruct blocks as [|b bl]; [discriminate|].
  destruct (build_tree_spec H HL (b :: bl)) as (t' & k & pad & E' & P & Hp & Hl & Hlv & _); [congruence|].
  rewrite E in E'. inversion E'; subst t'. exists (S k).
  assert (L : length (ht_leaves t) = 2 ^ S k).
  { rewrite Hlv, map_length, app_length, map_length, repeat_length. exact Hl. }
  repeat split; try apply Hp; auto.
  unfold ht_height. destruct P as (_ & Pa & _). rewrite (perfect_height H k) by exact Pa. lia.
Qed.
Print Assumptions C09_height_and_length.

Example C09_example :
  match build_tree toy_sha (Some (repeat [x01] 5)) with
  | Ok t => ht_length t = 8 /\ ht_height t = 4
  | _ => False
  end.
Proof. vm_compute. auto. Qed.

(** *** C10 *)
Theorem C10_compact_loses_nothing : forall H, sha_ok H ->
  forall blocks t, build_tree H (Some blocks) = Ok t ->
  leaves_ht H (cp_leaves (ht_compact t)) = Ok t /\ cp_head (ht_compact t) = ht_head t.
Proof.
  intros H HL blocks t E. destruct blocks as [|b bl]; [discriminate|].
  destruct (build_tree_spec H HL (b :: bl)) as (t' & k & pad & E' & P & Hp & Hl & Hlv & R); [congruence|].
  rewrite E in E'. inversion E'; subst t'. split; auto.
Qed.
Print Assumptions C10_compact_loses_nothing.

Example C10_example :
  match build_tree toy_sha (Some [[x01]; [x02]; [x03]]) with
  | Ok t => leaves_ht toy_sha (cp_leaves (ht_compact t)) = Ok t
  | _ => False
  end.
Proof. vm_compute. reflexivity. Qed.

(** *** C11 *)
Theorem C11_order_restores_blocks : forall H, sha_ok H ->
  forall blocks t mixed,
    build_tree H (Some blocks) = Ok t ->
    Permutation mixed blocks ->
    (forall a b, In a blocks -> In b blocks -> from_bytes H a = from_bytes H b -> a = b) ->
    ((forall b, In b blocks -> from_bytes H b <> H []) \/ (exists k, 1 <= k /\ length blocks = 2 ^ k)) ->
    ht_order H t mixed = Ok blocks.
Proof.
  intros H HL blocks t mixed E Hperm Hinj Hpad.
  destruct blocks as [|b0 bl]; [discriminate|]. set (blocks := b0 :: bl) in *.
  destruct (build_tree_spec H HL blocks) as (t' & k & pad & E' & P & Hp & Hl & Hlv & R);
    [unfold blocks; congruence|].
  rewrite E in E'. inversion E'; subst t'.
  assert (Hin : forall b, In b mixed <-> In b blocks).
  { intros b. split; apply Permutation_in; auto using Permutation_sym. }
  unfold ht_order. rewrite Hlv, map_app, order_out_app.
  rewrite order_out_blocks.
  2:{ intros b Hb. now apply Hin. }
  2:{ intros a b Ha Hb. apply Hinj; now apply Hin. }
  assert (Ep : order_out H mixed (map LHead (repeat (H []) pad)) = []).
  { destruct Hpad as [Hpad|(j & Hj & Ej)].
    - apply order_out_pad. intros b Hb. apply Hpad. now apply Hin.
    - assert (pad = 0).
      { destruct Hp as (Ha & Hb & Hc). specialize (Hc j Hj ltac:(lia)).
        assert (2 ^ S k <= 2 ^ j) by (apply Nat.pow_le_mono_r; lia). lia. }
      subst pad. reflexivity. }
  rewrite Ep, app_nil_r.
  apply Permutation_length in Hperm. rewrite Hperm, Nat.eqb_refl. reflexivity.
Qed.
Print Assumptions C11_order_restores_blocks.

Example C11_example :
  match build_tree toy_sha (Some [[x01]; [x02]; [x03]]) with
  | Ok t => ht_order toy_sha t [[x03]; [x01]; [x02]] = Ok [[x01]; [x02]; [x03]]
  | _ => False
  end.
Proof. vm_compute. reflexivity. Qed.

(** *** C12: false when a block is the padding block. *)
Theorem C12_order_of_any_blocks_refuted : forall H, sha_ok H ->
  (exists t, build_tree H (Some [[]]) = Ok t /\ ht_order H t [[]] = Err) /\
  (forall a b, exists t, build_tree H (Some [[]; a; b]) = Ok t /\ ht_order H t [[]; a; b] = Err).
Proof.
  intros H HL.
  assert (He : from_bytes H [] = H []) by reflexivity.
  split.
  - destruct (build_tree_spec H HL [[]]) as (t & k & pad & E & P & Hp & Hl & Hlv & R); [congruence|].
    exists t. split; auto. unfold ht_order.
    rewrite order_out_all.
    + replace (length (ht_leaves t) =? length ([[]] : list bytes)) with false; auto.
      symmetry. apply Nat.eqb_neq. rewrite Hlv, map_length, app_length, map_length, repeat_length.
      cbn [length] in *. pose proof (Nat.pow_nonzero 2 k). cbn [Nat.pow] in Hl. lia.
    + intros l Hin. exists []. split; [now left|]. rewrite Hlv in Hin.
      apply in_map_iff in Hin as (h & <- & Hin). apply in_app_or in Hin as [Hin|Hin].
      * cbn in Hin. destruct Hin as [<-|[]]. reflexivity.
      * apply repeat_spec in Hin. subst. reflexivity.
  - intros a b.
    destruct (build_tree_spec H HL [[]; a; b]) as (t & k & pad & E & P & Hp & Hl & Hlv & R); [congruence|].
    exists t. split; auto. unfold ht_order.
    rewrite order_out_all.
    + replace (length (ht_leaves t) =? length ([[]; a; b] : list bytes)) with false; auto.
      symmetry. apply Nat.eqb_neq. rewrite Hlv, map_length, app_length, map_length, repeat_length.
      cbn [length] in *. intros E3. assert (pad = 0) by lia. subst pad. cbn [Nat.pow] in Hl. lia.
    + intros l Hin. rewrite Hlv in Hin.
      apply in_map_iff in Hin as (h & <- & Hin). cbn [leaf_head]. apply in_app_or in Hin as [Hin|Hin].
      * apply in_map_iff in Hin as (x & <- & Hx). eauto.
      * apply repeat_spec in Hin. subst. exists []. split; [now left|reflexivity].
Qed.
Print Assumptions C12_order_of_any_blocks_refuted.

(** *** C13 *)
Theorem C13_hashtree_encoding_roundtrip : forall H, sha_ok H ->
  forall blocks t behind,
    build_tree H (Some blocks) = Ok t -> (zlen (ht_content t) < two63)%Z ->
    ht_of_content H (GSlice (ht_content t) behind) = Ok t.
Proof.
  intros H HL blocks t e E L. apply ht_roundtrip; auto. eapply build_tree_wf; eauto.
Qed.
Print Assumptions C13_hashtree_encoding_roundtrip.

(** The same for any leaf and any tree with 64-byte heads, not only built ones. *)
Theorem C13_leaf_encoding_roundtrip : forall H l behind,
  wf_leaf l -> (zlen (leaf_content l) < two63)%Z ->
  leaf_of_content H (GSlice (leaf_content l) behind) = Ok l.
Proof. intros; now apply leaf_of_content_roundtrip. Qed.
Print Assumptions C13_leaf_encoding_roundtrip.

Example C13_example :
  match build_tree toy_sha (Some [[x01]; [x02]; [x03]]) with
  | Ok t => ht_of_content toy_sha (GSlice (ht_content t) [xff; xff]) = Ok t
            /\ length (ht_content t) = 64 + 8 + (64 + 8 + 64 + 64) * 2
  | _ => False
  end.
Proof. vm_compute. auto. Qed.

(** *** C14 *)
Theorem C14_leaves_and_compact_roundtrip : forall H, sha_ok H ->
  forall blocks t behind,
    build_tree H (Some blocks) = Ok t ->
    (zlen (cp_content (ht_compact t)) < two63)%Z ->
    content_leaves H (GSlice (leaves_content (ht_leaves t)) behind) = Ok (ht_leaves t) /\
    content_cp H (GSlice (cp_content (ht_compact t)) behind) = Ok (ht_compact t).
Proof.
  intros H HL blocks t e E L. destruct blocks as [|b bl]; [discriminate|].
  destruct (build_tree_spec H HL (b :: bl)) as (t' & k & pad & E' & P & Hp & Hl & Hlv & R); [congruence|].
  rewrite E in E'. inversion E'; subst t'.
  assert (Hne : ht_leaves t <> []) by (rewrite Hlv; cbn; congruence).
  assert (Hwf : Forall wf_leaf (ht_leaves t)).
  { pose proof (perfect_ht_heads64 H HL k t P) as F. rewrite Hlv in *.
    rewrite map_map in F. rewrite Forall_map in F |- *. exact F. }
  split.
  - apply leaves_roundtrip; auto. unfold cp_content, ht_compact in L; cbn [cp_head cp_leaves] in L.
    rewrite zlen_app in L. pose proof (zlen_nonneg (ht_head t)). lia.
  - apply cp_roundtrip; auto. cbn [ht_compact cp_head].
    apply (build_tree_wf H HL (b :: bl) t E).
Qed.
Print Assumptions C14_leaves_and_compact_roundtrip.

(** The same for any non-empty list of leaves with 64-byte heads. *)
Theorem C14_any_leaves_roundtrip : forall H ls behind,
  ls <> [] -> Forall wf_leaf ls -> (zlen (leaves_content ls) < two63)%Z ->
  content_leaves H (GSlice (leaves_content ls) behind) = Ok ls.
Proof. intros; now apply leaves_roundtrip. Qed.
Print Assumptions C14_any_leaves_roundtrip.

Example C14_example :
  match build_tree toy_sha (Some [[x01]; [x02]; [x03]]) with
  | Ok t => content_cp toy_sha (GSlice (cp_content (ht_compact t)) [x00]) = Ok (ht_compact t)
  | _ => False
  end.
Proof. vm_compute. auto. Qed.

(** *** C15 (hash tree part): false. *)
Theorem C15_hashtree_decoding_never_panics_refuted : forall H,
  exists b1 b2 b3,
    ht_of_content H (sl b1) = Panic /\
    content_leaves H (sl b2) = Panic /\
    content_cp H (sl b3) = Panic.
Proof.
  intros H. exists (repeat xff 200), (put_u64 3 ++ repeat xff 100), (repeat xff 64 ++ put_u64 3 ++ repeat xff 100).
  repeat split; vm_compute; reflexivity.
Qed.
Print Assumptions C15_hashtree_decoding_never_panics_refuted.

(** Decoding never runs forever: the model's fuel is never the limit. *)
Theorem C15_hashtree_decoding_terminates : forall H s,
  leaf_of_content H s <> Fuel /\ ht_of_content H s <> Fuel /\
  content_leaves H s <> Fuel /\ content_cp H s <> Fuel.
Proof.
  intros H s. assert (L : forall s, content_leaves H s <> Fuel).
  { intros s'. unfold content_leaves. destruct (_ <? _)%Z; [discriminate|].
    apply bind_Fuel; [apply s_slice_fuel|]. intros.
    apply bind_Fuel; [apply get_u64_fuel|]. intros.
    apply bind_Fuel; [apply content_leaves_loop_total|]. intros ls _.
    unfold leaves_now. destruct ls; discriminate. }
  repeat split; auto.
  - apply leaf_of_content_total.
  - apply ht_of_content_total.
  - unfold content_cp. destruct (_ <? _)%Z; [discriminate|].
    apply bind_Fuel; [apply s_slice_fuel|]. intros.
    apply bind_Fuel; [apply s_from_fuel|]. intros.
    apply bind_Fuel; [apply L|]. discriminate.
Qed.
Print Assumptions C15_hashtree_decoding_terminates.

(** A list that announces no leaf, or as many as no int64 can count, is an error and not an empty list. *)
Theorem C15_no_leaves_is_an_error : forall H n rest behind,
  (n = 0 \/ two63 <= n < two64)%Z -> (72 <= zlen rest)%Z ->
  content_leaves H (GSlice (put_u64 n ++ rest) behind) = Err.
Proof.
  intros H n rest behind N L. unfold content_leaves, s_len, min_leaves_size. cbn [vis].
  pose proof (zlen_put_u64 n) as Pz. rewrite zlen_app, Pz. rewrite (proj2 (Z.ltb_ge (8 + zlen rest) 80)) by lia.
  pose proof (zlen_nonneg behind) as B.
  assert (Sl : s_slice (GSlice (put_u64 n ++ rest) behind) 0 8 = Ok (GSlice (put_u64 n) (rest ++ behind))).
  { unfold s_slice, s_cap. cbn [vis ext]. rewrite zlen_app, Pz. rewrite (proj2 (Z.leb_le 8 (8 + zlen rest + zlen behind))) by lia.
    cbn [Z.leb Z.compare andb]. rewrite <- app_assoc. change (Z.to_nat (8 - 0)) with 8. change (Z.to_nat 0) with 0. change (Z.to_nat 8) with 8.
    rewrite skipn_O, firstn_app_exact by apply put_u64_length. rewrite skipn_app_exact by apply put_u64_length. reflexivity. }
  rewrite Sl. cbn [bind]. rewrite get_u64_put_only. cbn [bind].
  assert (I : (i64 (n mod two64) <= 0)%Z).
  { destruct N as [->|N]; [vm_compute; discriminate|]. unfold i64. rewrite Z.mod_mod by (unfold two64; lia).
    rewrite Z.mod_small by (unfold two63, two64 in *; lia). rewrite (proj2 (Z.ltb_ge n two63)) by lia. unfold two63, two64 in *. lia. }
  replace (Z.to_nat (Z.min _ _)) with 0; [reflexivity|]. symmetry.
  match goal with |- Z.to_nat (Z.min _ ?c) = _ => set (cap := c) in * end.
  destruct (Z.to_nat (Z.min (i64 (n mod two64)) cap)) eqn:E; [reflexivity|]. exfalso.
  assert (0 < Z.min (i64 (n mod two64)) cap)%Z by lia. lia.
Qed.
Print Assumptions C15_no_leaves_is_an_error.

Example C15_no_leaves_example : zlen (repeat x01 72) = 72%Z /\
  content_leaves toy_sha (sl (put_u64 0 ++ repeat x01 72)) = Err /\ content_leaves toy_sha (sl (repeat xff 80)) = Err.
Proof. repeat split. Qed.

(** *** C73: decoding accepts encodings only. *)
Theorem C73_tree_decoding_is_canonical : forall H s,
  (s_len s < two63)%Z ->
  (forall t, ht_of_content H s = Ok t ->
     ht_content t = vis s /\ forall behind, ht_of_content H (GSlice (vis s) behind) = Ok t) /\
  (forall l, leaf_of_content H s = Ok l ->
     leaf_content l = vis s /\ forall behind, leaf_of_content H (GSlice (vis s) behind) = Ok l).
Proof.
  intros H s L. split.
  - intros t E. destruct (ht_canonical H _ s t E L) as [W C]. split; auto.
    intros e. rewrite <- C. apply ht_roundtrip; auto. rewrite C. exact L.
  - intros l E. destruct (content_leaf_canonical H _ s l E L) as [W C]. split; auto.
    intros e. rewrite <- C. apply leaf_of_content_roundtrip; auto. rewrite C. exact L.
Qed.
Print Assumptions C73_tree_decoding_is_canonical.

Example C73_example :
  leaf_of_content toy_sha (GSlice (repeat x01 64) [xff]) = Ok (LHead (repeat x01 64)).
Proof. reflexivity. Qed.

(** *** C74: the leaves decoder reads behind the end of its input. *)
Theorem C74_leaves_decoding_depends_only_on_input_refuted : forall H,
  exists v e1 e2 l1 l2,
    content_leaves H (GSlice v e1) = Ok l1 /\ content_leaves H (GSlice v e2) = Ok l2 /\ l1 <> l2.
Proof.
  intros H.
  exists (put_u64 2 ++ put_u64 64 ++ repeat x01 64 ++ put_u64 64), (repeat x02 64), (repeat x03 64).
  do 2 eexists. split; [vm_compute; reflexivity|]. split; [vm_compute; reflexivity|].
  discriminate.
Qed.
Print Assumptions C74_leaves_decoding_depends_only_on_input_refuted.

(** The list of leaves may be cut off anywhere behind its first leaf: whatever is missing is read from behind the
    end, if it is there. *)
Theorem C74_missing_leaves_are_read_behind_the_end : forall H ls front back behind,
  ls <> [] -> Forall wf_leaf ls -> (zlen (leaves_content ls) < two63)%Z ->
  leaves_content ls = front ++ back -> (80 <= zlen front)%Z ->
  content_leaves H (GSlice front (back ++ behind)) = Ok ls.
Proof.
  intros H ls front back behind Ne W L E F.
  rewrite <- (leaves_roundtrip H ls behind Ne W L). rewrite E.
  assert (A : forall v e v' e', v ++ e = v' ++ e' -> forall n last,
    content_leaves_loop H n (GSlice v e) last = content_leaves_loop H n (GSlice v' e') last).
  { intros v e v' e' Ev. assert (Sl : forall lo hi, s_slice (GSlice v e) lo hi = s_slice (GSlice v' e') lo hi).
    { intros lo hi. unfold s_slice, s_cap. cbn [vis ext]. rewrite <- !zlen_app, Ev. reflexivity. }
    induction n as [|n IH]; intros last; cbn [content_leaves_loop]; [reflexivity|]. rewrite Sl.
    destruct (s_slice (GSlice v' e') last (i64 (last + 8))) as [lb| | |]; cbn [bind]; try reflexivity.
    destruct (get_u64 lb) as [z| | |]; cbn [bind]; try reflexivity. rewrite Sl.
    destruct (s_slice (GSlice v' e') (i64 (last + 8)) (i64 (i64 (last + 8) + i64 z))) as [l| | |]; cbn [bind]; try reflexivity.
    now rewrite IH. }
  unfold content_leaves. unfold s_len at 1 2. cbn [vis]. unfold min_leaves_size.
  rewrite zlen_app. pose proof (zlen_nonneg back) as B.
  rewrite (proj2 (Z.ltb_ge (zlen front) 80)) by lia. rewrite (proj2 (Z.ltb_ge (zlen front + zlen back) 80)) by lia.
  assert (Ev : front ++ back ++ behind = (front ++ back) ++ behind) by now rewrite app_assoc.
  unfold s_slice at 1 2. unfold s_cap. cbn [vis ext]. rewrite <- !zlen_app, Ev.
  destruct (_ && _)%bool; cbn [bind]; [|reflexivity].
  destruct (get_u64 _) as [z| | |]; cbn [bind]; try reflexivity. now rewrite (A _ _ _ _ Ev).
Qed.
Print Assumptions C74_missing_leaves_are_read_behind_the_end.

(** Two leaves, of which the input has the first and no byte of the second. *)
Definition two_leaves : list leaf := [LHead (repeat x01 64); LHead (repeat x02 64)].
Example C74_example : Forall wf_leaf two_leaves /\
  zlen (leaves_content two_leaves) = 152%Z /\ zlen (firstn 80 (leaves_content two_leaves)) = 80%Z /\
  content_leaves toy_sha (GSlice (firstn 80 (leaves_content two_leaves)) (skipn 80 (leaves_content two_leaves))) = Ok two_leaves.
Proof. split; [repeat constructor|]. split; [reflexivity|]. split; [reflexivity|vm_compute; reflexivity]. Qed.

(** *** C75: which leaves make a tree. *)
Theorem C75_leaves_make_a_tree_iff_power_of_two : forall H, sha_ok H ->
  forall ls, ls <> [] ->
    (leaves_ht H ls = Panic \/ exists t, leaves_ht H ls = Ok t) /\
    (forall t, leaves_ht H ls = Ok t -> exists k, 1 <= k /\ length ls = 2 ^ k) /\
    (forall k, 1 <= k -> length ls = 2 ^ k -> Forall (fun l => exists h, l = LHead h /\ length h = 64) ls ->
       exists t, leaves_ht H ls = Ok t /\ ht_leaves t = ls).
Proof.
  intros H HL ls Hne. repeat split.
  - destruct (leaves_ht_outcome H (length ls) ls Hne (Nat.le_refl _)); auto.
  - intros t E. apply leaves_ht_pow2 in E as [k Ek]. exists (S k). split; [lia|exact Ek].
  - intros k Hk Ek F. destruct k as [|k]; [lia|].
    assert (Em : exists hs, ls = map LHead hs /\ Forall (fun h => length h = 64) hs).
    { clear - F. induction F as [|l ls (h & -> & Eh) F (hs & -> & Fh)].
      - exists []. split; auto.
      - exists (h :: hs). split; auto. }
    destruct Em as (hs & -> & Fh). rewrite map_length in Ek.
    destruct (leaves_ht_heads H HL k hs Ek Fh) as (t & Et & _ & Lt). eauto.
Qed.
Print Assumptions C75_leaves_make_a_tree_iff_power_of_two.

Example C75_example : leaves_ht toy_sha (map LHead (repeat (repeat x01 64) 6)) = Panic.
Proof. vm_compute. reflexivity. Qed.
