(** Lemmas on the hash tree model. *)
From Coq Require Import List ZArith NArith Lia Bool Permutation.
From Coq Require Import Init.Byte.
From Verif Require Import Base BaseLemmas HashModel HashProofs HashTreeModel SpecHash.
Import ListNotations.

Lemma find_app' {A} (f : A -> bool) a b :
  find f (a ++ b) = match find f a with Some x => Some x | None => find f b end.
Proof. induction a as [|x a IH]; cbn; auto. destruct (f x); auto. Qed.

Lemma skipn_skipn' {A} a : forall b (l : list A), skipn a (skipn b l) = skipn (a + b) l.
Proof.
  induction b as [|b IH]; intros l.
  - now rewrite Nat.add_0_r.
  - rewrite Nat.add_succ_r. destruct l as [|x l]; cbn [skipn].
    + now rewrite skipn_nil.
    + apply IH.
Qed.

(** All heads have 64 bytes. *)
Fixpoint wf_leaf (l : leaf) : Prop :=
  match l with
  | LHead h => length h = 64
  | LNode h a b => length h = 64 /\ wf_leaf a /\ wf_leaf b
  end.

Fixpoint leaf_depth (l : leaf) : nat :=
  match l with
  | LHead _ => 0
  | LNode _ a b => S (Nat.max (leaf_depth a) (leaf_depth b))
  end.

Lemma leaf_content_length l : wf_leaf l -> 64 <= length (leaf_content l).
Proof.
  induction l as [h|h a IHa b IHb]; cbn [wf_leaf leaf_content].
  - lia.
  - intros (Eh & _ & _). rewrite app_length. lia.
Qed.

Lemma leaf_depth_le l : wf_leaf l -> leaf_depth l < length (leaf_content l).
Proof.
  induction l as [h|h a IHa b IHb]; cbn [wf_leaf leaf_content leaf_depth].
  - lia.
  - intros (Eh & Wa & Wb). specialize (IHa Wa). specialize (IHb Wb).
    rewrite !app_length, put_u64_length. lia.
Qed.

Lemma wf_leaf_head l : wf_leaf l -> length (leaf_head l) = 64.
Proof. destruct l; cbn; tauto. Qed.

Section WithSha.
  Variable H : bytes -> bytes.

  Lemma content_leaf_roundtrip l : forall fuel e,
    wf_leaf l -> (zlen (leaf_content l) < two63)%Z -> leaf_depth l < fuel ->
    content_leaf H fuel (GSlice (leaf_content l) e) = Ok l.
  Proof.
    induction l as [h|h a IHa b IHb]; intros fuel e W L F; (destruct fuel as [|fuel]; [lia|]).
    - cbn [wf_leaf leaf_content] in *.
      cbn [content_leaf]. unfold s_len; cbn [vis]. unfold min_leaf_size.
      assert (Eh : zlen h = 64%Z) by (unfold zlen; lia). rewrite Eh.
      change (64 <? 64)%Z with false. cbv iota.
      rewrite <- (app_nil_r h) at 1.
      rewrite s_slice_pre by (symmetry; exact Eh). cbn [bind].
      rewrite <- (app_nil_r h) at 1.
      rewrite s_from_app by (symmetry; exact Eh). cbn [bind vis].
      change (0 <? zlen (@nil byte))%Z with false. cbv iota.
      now rewrite from_bytes_64.
    - cbn [wf_leaf] in W. destruct W as (Eh & Wa & Wb).
      cbn [leaf_depth] in F. cbn [leaf_content] in *.
      assert (Zh : zlen h = 64%Z) by (unfold zlen; lia).
      set (ca := leaf_content a) in *. set (cb := leaf_content b) in *.
      rewrite !zlen_app, zlen_put_u64 in L.
      pose proof (leaf_content_length a Wa) as La. pose proof (leaf_content_length b Wb) as Lb.
      fold ca in La. fold cb in Lb.
      assert (Za : (64 <= zlen ca)%Z) by (unfold zlen; lia).
      assert (Zb : (64 <= zlen cb)%Z) by (unfold zlen; lia).
      cbn [content_leaf]. unfold s_len, min_leaf_size; cbn [vis].
      rewrite !zlen_app, zlen_put_u64.
      replace ((zlen h + (8 + (zlen ca + zlen cb)) <? 64)%Z) with false
        by (symmetry; apply Z.ltb_ge; lia).
      rewrite s_slice_pre by (symmetry; exact Zh). cbn [bind vis].
      rewrite s_from_app by (symmetry; exact Zh). cbn [bind vis].
      rewrite !zlen_app, zlen_put_u64. unfold min_parent_leaf.
      replace ((0 <? 8 + (zlen ca + zlen cb))%Z) with true
        by (symmetry; apply Z.ltb_lt; lia).
      replace ((8 + (zlen ca + zlen cb) <? 128)%Z) with false
        by (symmetry; apply Z.ltb_ge; lia).
      rewrite s_slice_pre by (symmetry; apply zlen_put_u64). cbn [bind].
      rewrite get_u64_put_only. cbn [bind].
      rewrite i64_mod. rewrite !(i64_small (zlen ca)) by lia.
      rewrite (i64_small (8 + zlen ca)) by lia.
      rewrite s_slice_mid by (rewrite zlen_put_u64; reflexivity).
      cbn [bind]. unfold ca. rewrite IHa by (auto; fold ca; lia). cbn [bind]. fold ca.
      rewrite (i64_small (zlen ca + 8)) by lia.
      rewrite app_assoc. rewrite s_from_app by (rewrite zlen_app, zlen_put_u64; lia).
      cbn [bind]. unfold cb. rewrite IHb by (auto; fold cb; lia). cbn [bind].
      now rewrite from_bytes_64.
  Qed.

  Lemma leaf_of_content_roundtrip l e :
    wf_leaf l -> (zlen (leaf_content l) < two63)%Z ->
    leaf_of_content H (GSlice (leaf_content l) e) = Ok l.
  Proof.
    intros W L. unfold leaf_of_content. apply content_leaf_roundtrip; auto.
    unfold slice_fuel; cbn [vis ext]. pose proof (leaf_depth_le l W). lia.
  Qed.

  Lemma content_parent_roundtrip a b fuel e :
    wf_leaf a -> wf_leaf b -> (zlen (parent_content a b) < two63)%Z ->
    leaf_depth a < fuel -> leaf_depth b < fuel ->
    content_parent H fuel (GSlice (parent_content a b) e) = Ok (a, b).
  Proof.
    intros Wa Wb L Fa Fb. unfold parent_content in *.
    set (ca := leaf_content a) in *. set (cb := leaf_content b) in *.
    rewrite !zlen_app, zlen_put_u64 in L.
    pose proof (leaf_content_length a Wa) as La. pose proof (leaf_content_length b Wb) as Lb.
    fold ca in La. fold cb in Lb.
    assert (Za : (64 <= zlen ca)%Z) by (unfold zlen; lia).
    assert (Zb : (64 <= zlen cb)%Z) by (unfold zlen; lia).
    unfold content_parent, s_len, min_parent_leaf; cbn [vis].
    rewrite !zlen_app, zlen_put_u64.
    replace ((8 + (zlen ca + zlen cb) <? 128)%Z) with false
      by (symmetry; apply Z.ltb_ge; lia).
    rewrite s_slice_pre by (symmetry; apply zlen_put_u64). cbn [bind].
    rewrite get_u64_put_only. cbn [bind].
    rewrite i64_mod. rewrite !(i64_small (zlen ca)) by lia.
    rewrite (i64_small (8 + zlen ca)) by lia.
    rewrite s_slice_mid by (rewrite zlen_put_u64; reflexivity).
    cbn [bind]. unfold ca. rewrite content_leaf_roundtrip by (auto; fold ca; lia). cbn [bind]. fold ca.
    rewrite (i64_small (zlen ca + 8)) by lia.
    rewrite app_assoc. rewrite s_from_app by (rewrite zlen_app, zlen_put_u64; lia).
    cbn [bind]. unfold cb. rewrite content_leaf_roundtrip by (auto; fold cb; lia). reflexivity.
  Qed.

  Definition wf_ht (t : hashtree) : Prop :=
    length (ht_head t) = 64 /\ wf_leaf (ht_left t) /\ wf_leaf (ht_right t).

  Lemma ht_content_length t : wf_ht t -> 200 <= length (ht_content t).
  Proof.
    intros (Eh & Wa & Wb). unfold ht_content, parent_content.
    pose proof (leaf_content_length _ Wa). pose proof (leaf_content_length _ Wb).
    rewrite !app_length, put_u64_length. lia.
  Qed.

  Lemma ht_roundtrip_fuel t fuel e :
    wf_ht t -> (zlen (ht_content t) < two63)%Z -> length (ht_content t) <= fuel ->
    content_ht H fuel (GSlice (ht_content t) e) = Ok t.
  Proof.
    intros W L F. pose proof (ht_content_length t W) as L2.
    destruct W as (Eh & Wa & Wb). destruct t as [h a b]; cbn [ht_head ht_left ht_right] in *.
    unfold ht_content in *; cbn [ht_head ht_left ht_right] in *.
    unfold content_ht, s_len, min_hashtree_size; cbn [vis].
    assert (Zh : zlen h = 64%Z) by (unfold zlen; lia).
    replace ((zlen (h ++ parent_content a b) <? 192)%Z) with false
      by (symmetry; apply Z.ltb_ge; unfold zlen; lia).
    rewrite s_slice_pre by (symmetry; exact Zh). cbn [bind vis].
    rewrite s_from_app by (symmetry; exact Zh). cbn [bind].
    rewrite zlen_app in L. rewrite app_length in F.
    assert (leaf_depth a < fuel /\ leaf_depth b < fuel) as [Fa Fb].
    { pose proof (leaf_depth_le a Wa). pose proof (leaf_depth_le b Wb).
      unfold parent_content in F. rewrite !app_length, put_u64_length in F. lia. }
    rewrite content_parent_roundtrip by (auto; lia). cbn [bind fst snd].
    now rewrite from_bytes_64.
  Qed.

  Lemma ht_roundtrip t e :
    wf_ht t -> (zlen (ht_content t) < two63)%Z ->
    ht_of_content H (GSlice (ht_content t) e) = Ok t.
  Proof.
    intros W L. unfold ht_of_content. apply ht_roundtrip_fuel; auto.
    unfold slice_fuel; cbn [vis ext]; lia.
  Qed.

  (** The loop of ToLeaves over encoded leaves. *)
  Lemma leaves_loop_roundtrip ls : forall p q e last,
    Forall wf_leaf ls ->
    last = zlen p ->
    let enc := concat (map (fun l => put_u64 (zlen (leaf_content l)) ++ leaf_content l) ls) in
    (zlen (p ++ enc ++ q) < two63)%Z ->
    content_leaves_loop H (length ls) (GSlice (p ++ enc ++ q) e) last = Ok ls.
  Proof.
    induction ls as [|l ls IH]; intros p q e last W E enc L; cbn [length content_leaves_loop]; auto.
    inversion W as [|? ? Wl Wls]; subst.
    unfold enc in *; clear enc. cbn [map concat] in *.
    set (cl := leaf_content l) in *.
    set (enc := concat (map (fun l => put_u64 (zlen (leaf_content l)) ++ leaf_content l) ls)) in *.
    rewrite !zlen_app, zlen_put_u64 in L.
    pose proof (zlen_nonneg p). pose proof (zlen_nonneg q). pose proof (zlen_nonneg enc).
    pose proof (zlen_nonneg cl).
    rewrite !(i64_small (zlen p + 8)) by lia.
    rewrite <- !app_assoc.
    rewrite s_slice_mid by (rewrite ?zlen_put_u64; reflexivity).
    cbn [bind]. rewrite get_u64_put_only. cbn [bind]. rewrite i64_mod.
    rewrite (i64_small (zlen cl)) by lia.
    rewrite (i64_small (zlen p + 8 + zlen cl)) by lia.
    rewrite (app_assoc p).
    rewrite s_slice_mid by (rewrite zlen_app, zlen_put_u64; lia).
    cbn [bind]. unfold cl. rewrite leaf_of_content_roundtrip by (auto; fold cl; lia).
    cbn [bind]. fold cl.
    rewrite (app_assoc _ cl).
    specialize (IH ((p ++ put_u64 (zlen cl)) ++ cl) q e (zlen p + 8 + zlen cl)%Z Wls).
    rewrite IH.
    - reflexivity.
    - rewrite !zlen_app, zlen_put_u64. lia.
    - fold enc. rewrite !zlen_app, zlen_put_u64. lia.
  Qed.

  Lemma leaves_enc_length ls : Forall wf_leaf ls ->
    72 * length ls <=
    length (concat (map (fun l => put_u64 (zlen (leaf_content l)) ++ leaf_content l) ls)).
  Proof.
    induction 1 as [|l ls W Ws IH]; cbn [map concat length]; auto.
    rewrite !app_length, put_u64_length. pose proof (leaf_content_length l W). lia.
  Qed.

  Lemma leaves_roundtrip ls e :
    ls <> [] -> Forall wf_leaf ls -> (zlen (leaves_content ls) < two63)%Z ->
    content_leaves H (GSlice (leaves_content ls) e) = Ok ls.
  Proof.
    intros Hne W L. unfold leaves_content in *.
    set (enc := concat (map (fun l => put_u64 (zlen (leaf_content l)) ++ leaf_content l) ls)) in *.
    pose proof (leaves_enc_length ls W) as Lenc. fold enc in Lenc.
    assert (length ls <> 0) by (destruct ls; cbn; [congruence|lia]).
    rewrite zlen_app, zlen_put_u64 in L.
    unfold content_leaves, s_len, min_leaves_size; cbn [vis].
    rewrite zlen_app, zlen_put_u64.
    replace ((8 + zlen enc <? 80)%Z) with false by (symmetry; apply Z.ltb_ge; unfold zlen; lia).
    rewrite s_slice_pre by (symmetry; apply zlen_put_u64). cbn [bind].
    rewrite get_u64_put_only. cbn [bind]. rewrite i64_mod.
    assert (Zn : (zlen ls <= zlen enc)%Z) by (unfold zlen; lia).
    pose proof (zlen_nonneg ls). pose proof (zlen_nonneg e).
    rewrite i64_small by lia.
    rewrite Z.min_l.
    2:{ unfold s_cap; cbn [vis ext]. rewrite zlen_app, zlen_put_u64. lia. }
    unfold zlen at 1. rewrite Nat2Z.id.
    rewrite <- (app_nil_r enc). unfold enc.
    rewrite (leaves_loop_roundtrip ls (put_u64 (zlen ls)) [] e 8); auto.
    - cbn [bind]. unfold leaves_now. destruct ls; [congruence|reflexivity].
    - fold enc. rewrite !zlen_app, zlen_put_u64, zlen_nil. lia.
  Qed.

  Lemma cp_roundtrip c e :
    length (cp_head c) = 64 -> cp_leaves c <> [] -> Forall wf_leaf (cp_leaves c) ->
    (zlen (cp_content c) < two63)%Z ->
    content_cp H (GSlice (cp_content c) e) = Ok c.
  Proof.
    destruct c as [h ls]; cbn [cp_head cp_leaves]; intros Eh Hne W L.
    unfold cp_content in *; cbn [cp_head cp_leaves] in *.
    assert (Zh : zlen h = 64%Z) by (unfold zlen; lia).
    pose proof (leaves_enc_length ls W) as Lenc.
    assert (length ls <> 0) by (destruct ls; cbn; [congruence|lia]).
    unfold content_cp, s_len, min_compact_size; cbn [vis].
    rewrite zlen_app in L |- *. rewrite Zh in *.
    assert (72 <= zlen (leaves_content ls))%Z.
    { unfold leaves_content. rewrite zlen_app. pose proof (zlen_put_u64 (zlen ls)). unfold zlen in *. lia. }
    replace ((64 + zlen (leaves_content ls) <? 128)%Z) with false by (symmetry; apply Z.ltb_ge; lia).
    rewrite s_slice_pre by (symmetry; exact Zh). cbn [bind vis].
    rewrite s_from_app by (symmetry; exact Zh). cbn [bind].
    rewrite leaves_roundtrip by (auto; lia). cbn [bind].
    now rewrite from_bytes_64.
  Qed.
End WithSha.

(** ** Decoding is canonical: what decodes was an encoding *)
Section Canonical.
  Variable H : bytes -> bytes.

  (** The common part of a parent leaf decoding. *)
  Lemma parent_inv f rem lb n ls left rs :
    (forall s l, content_leaf H f s = Ok l -> (s_len s < two63)%Z ->
                 wf_leaf l /\ leaf_content l = vis s) ->
    (s_len rem < two63)%Z ->
    s_slice rem 0 8 = Ok lb -> get_u64 lb = Ok n ->
    s_slice rem 8 (i64 (8 + i64 n)) = Ok ls ->
    content_leaf H f ls = Ok left ->
    s_from rem (i64 (i64 n + 8)) = Ok rs ->
    wf_leaf left /\ (s_len rs < two63)%Z /\
    vis rem = put_u64 (zlen (leaf_content left)) ++ leaf_content left ++ vis rs.
  Proof.
    intros IH L E1 E2 E3 E4 E5.
    apply s_from_inv in E5 as (R5 & E5).
    pose proof (s_slice_inv _ _ _ _ E3) as (R3 & _ & _).
    replace (8 + i64 n)%Z with (i64 n + 8)%Z in * by lia.
    assert (Enn : i64 (i64 n + 8) = (i64 n + 8)%Z).
    { pose proof (i64_range n). pose proof (i64_range (i64 n + 8)).
      unfold i64 at 1 in R3. unfold i64 at 1.
      assert (C : ((i64 n + 8) mod two64 = i64 n + 8 \/ i64 n + 8 < 0 \/ two63 <= i64 n + 8)%Z).
      { destruct (Z.lt_ge_cases (i64 n + 8) 0); auto.
        left. apply Z.mod_small. rewrite two63_val, two64_val in *. lia. }
      destruct C as [C|C].
      - rewrite C in *. destruct (Z.ltb_spec (i64 n + 8) two63); [lia|].
        rewrite two63_val, two64_val in *. lia.
      - exfalso. unfold i64 at 1 in R5.
        destruct C as [C|C].
        + assert (E : ((i64 n + 8) mod two64 = i64 n + 8 + two64)%Z).
          { symmetry. apply (Z.mod_unique _ _ (-1)); rewrite two63_val, two64_val in *; lia. }
          rewrite E in *. rewrite two63_val, two64_val in *.
          destruct (Z.ltb_spec (i64 n + 8 + 18446744073709551616) 9223372036854775808); lia.
        + assert (E : ((i64 n + 8) mod two64 = i64 n + 8)%Z).
          { apply Z.mod_small. rewrite two63_val, two64_val in *. lia. }
          rewrite E in *. rewrite two63_val, two64_val in *.
          destruct (Z.ltb_spec (i64 n + 8) 9223372036854775808); lia. }
    rewrite Enn in *.
    pose proof (s_slice_inv_len _ _ _ _ E3) as L3.
    pose proof (s_slice_inv_vis _ _ _ _ E3 ltac:(lia)) as V3.
    destruct (IH ls left E4 ltac:(lia)) as [Wl Cl].
    split; [exact Wl|]. split.
    { rewrite E5. unfold s_len, zlen in *; cbn [vis]. rewrite skipn_length. lia. }
    apply get_u64_inv in E2 as (L2 & En).
    pose proof (s_slice_inv_vis _ _ _ _ E1 ltac:(lia)) as V1.
    change (Z.to_nat (8 - 0)) with 8 in V1. cbn [Z.to_nat skipn] in V1.
    assert (L8 : length (firstn 8 (vis rem)) = 8).
    { rewrite firstn_length. unfold s_len, zlen in *. lia. }
    rewrite Cl, E5. cbn [vis].
    assert (Zls : zlen (vis ls) = i64 n) by (unfold s_len in L3; lia).
    assert (En' : put_u64 n = firstn 8 (vis rem)).
    { rewrite En, V1, firstn_firstn. cbn [Nat.min]. apply put_u64_unle. exact L8. }
    rewrite Zls, put_u64_i64, En', V3.
    replace (Z.to_nat (i64 n + 8 - 8)) with (Z.to_nat (i64 n)) by lia.
    change (Z.to_nat 8) with 8.
    replace (Z.to_nat (i64 n + 8)) with (Z.to_nat (i64 n) + 8) by lia.
    rewrite <- skipn_skipn'. rewrite firstn_skipn. rewrite firstn_skipn. reflexivity.
  Qed.

  Lemma head_inv s hd : s_slice s 0 64 = Ok hd -> (64 <= s_len s)%Z ->
    vis hd = firstn 64 (vis s) /\ length (vis hd) = 64.
  Proof.
    intros E L. pose proof (s_slice_inv_vis _ _ _ _ E ltac:(lia)) as V.
    change (Z.to_nat (64 - 0)) with 64 in V. cbn [Z.to_nat skipn] in V.
    split; auto. rewrite V, firstn_length. unfold s_len, zlen in L. lia.
  Qed.

  Lemma content_leaf_canonical f : forall s l,
    content_leaf H f s = Ok l -> (s_len s < two63)%Z -> wf_leaf l /\ leaf_content l = vis s.
  Proof.
    induction f as [|f IH]; intros s l E L; cbn [content_leaf] in E; [discriminate|].
    unfold min_leaf_size, min_parent_leaf in E.
    destruct (Z.ltb_spec (s_len s) 64); [discriminate|].
    apply bind_Ok_inv in E as (hd & Ehd & E).
    apply bind_Ok_inv in E as (rem & Erem & E).
    destruct (head_inv _ _ Ehd ltac:(lia)) as [Vh Lh].
    pose proof (s_from_inv _ _ _ Erem) as (_ & Er).
    assert (Vs : vis s = vis hd ++ vis rem).
    { rewrite Vh, Er. cbn [vis]. change (Z.to_nat 64) with 64. symmetry; apply firstn_skipn. }
    rewrite from_bytes_64 in E by exact Lh.
    destruct (Z.ltb_spec 0 (s_len rem)).
    - destruct (Z.ltb_spec (s_len rem) 128); [discriminate|].
      apply bind_Ok_inv in E as (lb & E1 & E).
      apply bind_Ok_inv in E as (n & E2 & E).
      apply bind_Ok_inv in E as (ls & E3 & E).
      apply bind_Ok_inv in E as (left & E4 & E).
      apply bind_Ok_inv in E as (rs & E5 & E).
      apply bind_Ok_inv in E as (right & E6 & E).
      inversion E; subst l; clear E.
      pose proof (s_from_inv_len _ _ _ Erem).
      destruct (parent_inv f rem lb n ls left rs IH ltac:(lia) E1 E2 E3 E4 E5) as (Wl & Lr & V).
      destruct (IH rs right E6 Lr) as [Wr Cr].
      cbn [wf_leaf leaf_content]. repeat split; auto. rewrite Cr, Vs, V. reflexivity.
    - inversion E; subst l. cbn [wf_leaf leaf_content]. split; auto.
      assert (vis rem = []) by (apply zlen_0_nil; unfold s_len in *; pose proof (zlen_nonneg (vis rem)); lia).
      rewrite Vs, H2. now rewrite app_nil_r.
  Qed.

  Lemma ht_canonical f s t :
    content_ht H f s = Ok t -> (s_len s < two63)%Z -> wf_ht t /\ ht_content t = vis s.
  Proof.
    unfold content_ht, min_hashtree_size. intros E L.
    destruct (Z.ltb_spec (s_len s) 192); [discriminate|].
    apply bind_Ok_inv in E as (hd & Ehd & E).
    apply bind_Ok_inv in E as (rem & Erem & E).
    apply bind_Ok_inv in E as (p & Ep & E).
    destruct (head_inv _ _ Ehd ltac:(lia)) as [Vh Lh].
    pose proof (s_from_inv _ _ _ Erem) as (_ & Er).
    assert (Vs : vis s = vis hd ++ vis rem).
    { rewrite Vh, Er. cbn [vis]. change (Z.to_nat 64) with 64. symmetry; apply firstn_skipn. }
    rewrite from_bytes_64 in E by exact Lh. inversion E; subst t; clear E.
    unfold content_parent, min_parent_leaf in Ep.
    destruct (Z.ltb_spec (s_len rem) 128); [discriminate|].
    apply bind_Ok_inv in Ep as (lb & E1 & E).
    apply bind_Ok_inv in E as (n & E2 & E).
    apply bind_Ok_inv in E as (ls & E3 & E).
    apply bind_Ok_inv in E as (left & E4 & E).
    apply bind_Ok_inv in E as (rs & E5 & E).
    apply bind_Ok_inv in E as (right & E6 & E).
    inversion E; subst p; clear E. cbn [fst snd].
    pose proof (s_from_inv_len _ _ _ Erem).
    destruct (parent_inv f rem lb n ls left rs (content_leaf_canonical f) ltac:(lia) E1 E2 E3 E4 E5) as (Wl & Lr & V).
    destruct (content_leaf_canonical f rs right E6 Lr) as [Wr Cr].
    unfold wf_ht, ht_content, parent_content; cbn [ht_head ht_left ht_right].
    repeat split; auto. rewrite Cr, Vs, V. reflexivity.
  Qed.

  (** The fuel is always enough. *)
  Lemma content_leaf_total f : forall s,
    length (vis s) + length (ext s) < f -> content_leaf H f s <> Fuel.
  Proof.
    induction f as [|f IH]; intros s L; [lia|]. cbn [content_leaf].
    destruct (s_len s <? min_leaf_size)%Z eqn:E0; [discriminate|].
    unfold min_leaf_size in E0. apply Z.ltb_ge in E0.
    apply bind_Fuel; [apply s_slice_fuel|]. intros hd Ehd.
    apply bind_Fuel; [apply s_from_fuel|]. intros rem Erem.
    destruct (0 <? s_len rem)%Z; [|discriminate].
    destruct (s_len rem <? min_parent_leaf)%Z; [discriminate|].
    apply s_from_inv in Erem as (R & Er).
    assert (Lr : length (vis rem) + length (ext rem) + 64 <= length (vis s) + length (ext s)).
    { rewrite Er; cbn [vis ext]. rewrite skipn_length. unfold s_len, zlen in *. lia. }
    apply bind_Fuel; [apply s_slice_fuel|]. intros lb E1.
    apply bind_Fuel; [apply get_u64_fuel|]. intros n E2.
    apply bind_Fuel; [apply s_slice_fuel|]. intros ls E3.
    apply bind_Fuel.
    { apply IH. apply s_slice_inv_cap in E3. lia. }
    intros left E4.
    apply bind_Fuel; [apply s_from_fuel|]. intros rs E5.
    apply bind_Fuel; [|discriminate].
    apply IH. apply s_from_inv in E5 as (R5 & E5). rewrite E5; cbn [vis ext].
    rewrite skipn_length. lia.
  Qed.

  Lemma leaf_of_content_total s : leaf_of_content H s <> Fuel.
  Proof. apply content_leaf_total. unfold slice_fuel. lia. Qed.

  Lemma ht_of_content_total s : ht_of_content H s <> Fuel.
  Proof.
    unfold ht_of_content, content_ht.
    destruct (s_len s <? min_hashtree_size)%Z; [discriminate|].
    apply bind_Fuel; [apply s_slice_fuel|]. intros hd Ehd.
    apply bind_Fuel; [apply s_from_fuel|]. intros rem Erem.
    apply bind_Fuel; [|discriminate].
    apply s_from_inv in Erem as (R & Er).
    assert (Lr : length (vis rem) + length (ext rem) < slice_fuel s).
    { rewrite Er; cbn [vis ext]. rewrite skipn_length. unfold slice_fuel. lia. }
    unfold content_parent.
    destruct (s_len rem <? min_parent_leaf)%Z; [discriminate|].
    apply bind_Fuel; [apply s_slice_fuel|]. intros lb E1.
    apply bind_Fuel; [apply get_u64_fuel|]. intros n E2.
    apply bind_Fuel; [apply s_slice_fuel|]. intros ls E3.
    apply bind_Fuel.
    { apply content_leaf_total. apply s_slice_inv_cap in E3. lia. }
    intros left E4.
    apply bind_Fuel; [apply s_from_fuel|]. intros rs E5.
    apply bind_Fuel; [|discriminate].
    apply content_leaf_total. apply s_from_inv in E5 as (R5 & E5). rewrite E5; cbn [vis ext].
    rewrite skipn_length. lia.
  Qed.

  Lemma content_leaves_loop_total n : forall s last, content_leaves_loop H n s last <> Fuel.
  Proof.
    induction n as [|n IH]; intros s last; cbn [content_leaves_loop]; [discriminate|].
    apply bind_Fuel; [apply s_slice_fuel|]. intros lb E1.
    apply bind_Fuel; [apply get_u64_fuel|]. intros z E2.
    apply bind_Fuel; [apply s_slice_fuel|]. intros ls E3.
    apply bind_Fuel; [apply leaf_of_content_total|]. intros l E4.
    apply bind_Fuel; [apply IH|]. discriminate.
  Qed.

  (** An iteration that succeeds moves forward by at least 72 bytes, inside the capacity.
      So an amount of iterations above the capacity never succeeds, and the clipped
      count of [content_leaves] gives the same outcome as the real one. *)
  Lemma content_leaves_loop_clip n : forall m s last,
    (0 <= last)%Z -> (s_cap s < two63)%Z ->
    (s_cap s - last < Z.of_nat n)%Z -> n <= m -> 0 < n ->
    content_leaves_loop H m s last = content_leaves_loop H n s last.
  Proof.
    induction n as [|n IH]; intros m s last Hl Hc Hn Hm Hpos; [lia|].
    destruct m as [|m]; [lia|]. cbn [content_leaves_loop].
    destruct (s_slice s last (i64 (last + 8))) as [lb| | |] eqn:E1; cbn [bind]; auto.
    destruct (get_u64 lb) as [z| | |] eqn:E2; cbn [bind]; auto.
    destruct (s_slice s (i64 (last + 8)) (i64 (i64 (last + 8) + i64 z))) as [ls| | |] eqn:E3; cbn [bind]; auto.
    destruct (leaf_of_content H ls) as [l| | |] eqn:E4; cbn [bind]; auto.
    set (ends := i64 (i64 (last + 8) + i64 z)) in *.
    apply get_u64_inv in E2 as (L2 & _).
    pose proof (s_slice_inv_len _ _ _ _ E1) as L1.
    pose proof (s_slice_inv _ _ _ _ E3) as (R3 & C3 & _).
    assert (64 <= s_len ls)%Z.
    { unfold leaf_of_content, slice_fuel in E4. cbn [content_leaf] in E4.
      unfold min_leaf_size in E4. destruct (Z.ltb_spec (s_len ls) 64); [discriminate|auto]. }
    pose proof (s_slice_inv_len _ _ _ _ E3) as L3.
    rewrite (IH m s ends); auto; try lia.
  Qed.

  Lemma content_leaves_count_clip s z : (s_cap s < two63)%Z -> (0 <= s_cap s)%Z ->
    content_leaves_loop H (Z.to_nat (i64 z)) s 8 =
    content_leaves_loop H (Z.to_nat (Z.min (i64 z) (s_cap s + 1))) s 8.
  Proof.
    intros Hc H0. destruct (Z.le_gt_cases (i64 z) (s_cap s + 1)).
    - now rewrite Z.min_l.
    - rewrite Z.min_r by lia. apply content_leaves_loop_clip; lia.
  Qed.
End Canonical.

(** ** Powers of two *)
Lemma is_power_of_two_spec n : is_power_of_two n = true <-> exists k, n = 2 ^ k.
Proof.
  unfold is_power_of_two. rewrite andb_true_iff, negb_true_iff, N.eqb_neq, N.eqb_eq.
  split.
  - intros [Hz Hl]. set (z := N.of_nat n) in *.
    assert (Hpos : (0 < z)%N) by lia.
    pose proof (N.log2_spec z Hpos) as [Hlo Hhi]. set (k := N.log2 z) in *.
    exists (N.to_nat k).
    destruct (N.eq_dec z (2 ^ k)) as [E|E].
    + apply Nat2N.inj. rewrite Nat2N.inj_pow. rewrite N2Nat.id.
      change (N.of_nat 2) with 2%N. exact E.
    + exfalso. assert (Ht : N.testbit (N.land z (z - 1)) k = true).
      { rewrite N.land_spec. apply andb_true_intro. rewrite !N.testbit_true.
        rewrite N.pow_succ_r' in Hhi.
        assert (Hp : (2 ^ k <> 0)%N) by (apply N.pow_nonzero; lia).
        assert (E1 : (z / 2 ^ k = 1)%N).
        { symmetry. apply (N.div_unique z (2^k) 1 (z - 2^k)); lia. }
        assert (E2 : ((z - 1) / 2 ^ k = 1)%N).
        { symmetry. apply (N.div_unique (z-1) (2^k) 1 (z - 1 - 2^k)); lia. }
        rewrite E1, E2. split; reflexivity. }
      rewrite Hl in Ht. rewrite N.bits_0 in Ht. discriminate.
  - intros [k ->]. split.
    + assert (2 ^ k <> 0) by (apply Nat.pow_nonzero; lia). lia.
    + rewrite Nat2N.inj_pow. change (N.of_nat 2) with 2%N.
      replace (2 ^ N.of_nat k - 1)%N with (N.ones (N.of_nat k)).
      * rewrite N.land_ones. apply N.mod_same. apply N.pow_nonzero; lia.
      * rewrite N.ones_equiv. lia.
Qed.

Lemma next_power_pad n : 2 <= n -> exists k, pad_exponent n k /\ next_power n = 2 ^ k.
Proof.
  intros Hn. exists (Nat.log2_up n). split; [|reflexivity].
  pose proof (Nat.log2_up_spec n ltac:(lia)) as [Hlo Hhi].
  repeat split; auto.
  - destruct (Nat.log2_up n) eqn:E; [|lia]. cbn in Hhi. lia.
  - intros j _ Hj. apply Nat.log2_up_le_pow2; auto. lia.
Qed.

Lemma pow2_pad n k : 2 <= n -> n = 2 ^ k -> pad_exponent n k.
Proof.
  intros Hn ->. repeat split; auto.
  - destruct k; cbn in *; lia.
  - intros j _ Hj. apply (Nat.pow_le_mono_r_iff 2); lia.
Qed.

(** ** Perfect trees *)
Section Perfect.
  Variable H : bytes -> bytes.
  Hypothesis HL : forall x, length (H x) = 64.

  Fixpoint perfect (k : nat) (l : leaf) : Prop :=
    match k, l with
    | O, LHead h => length h = 64
    | S k', LNode h a b => h = H (leaf_head a ++ leaf_head b) /\ perfect k' a /\ perfect k' b
    | _, _ => False
    end.

  Lemma perfect_wf k : forall l, perfect k l -> wf_leaf l.
  Proof.
    induction k as [|k IH]; intros [h|h a b]; cbn; try tauto.
    intros (-> & Pa & Pb). auto.
  Qed.

  Lemma perfect_head k l : perfect k l -> length (leaf_head l) = 64.
  Proof. intros P. apply wf_leaf_head, (perfect_wf k), P. Qed.

  Lemma perfect_leaves_length k : forall l, perfect k l -> length (leaf_leaves l) = 2 ^ k.
  Proof.
    induction k as [|k IH]; intros [h|h a b]; cbn [perfect leaf_leaves]; try tauto.
    intros (_ & Pa & Pb). rewrite app_length, (IH a), (IH b) by auto. cbn [Nat.pow]. lia.
  Qed.

  Lemma perfect_height k : forall l, perfect k l -> leaf_height l = k.
  Proof.
    induction k as [|k IH]; intros [h|h a b]; cbn [perfect leaf_height]; try tauto.
    intros (_ & Pa & Pb). f_equal. auto.
  Qed.

  Lemma perfect_merkle k : forall l, perfect k l ->
    merkle H (map leaf_head (leaf_leaves l)) (leaf_head l).
  Proof.
    induction k as [|k IH]; intros [h|h a b]; cbn [perfect leaf_leaves leaf_head map]; try tauto.
    - intros _. constructor.
    - intros (-> & Pa & Pb). rewrite map_app. constructor; auto.
      rewrite !map_length. now rewrite !(perfect_leaves_length k).
  Qed.

  Lemma perfect_leaves_flat k : forall l, perfect k l -> Forall (perfect 0) (leaf_leaves l).
  Proof.
    induction k as [|k IH]; intros [h|h a b]; cbn [perfect leaf_leaves]; try tauto.
    - intros E. constructor; auto.
    - intros (_ & Pa & Pb). apply Forall_app; auto.
  Qed.

  Definition perfect_ht (k : nat) (t : hashtree) : Prop :=
    ht_head t = H (leaf_head (ht_left t) ++ leaf_head (ht_right t)) /\
    perfect k (ht_left t) /\ perfect k (ht_right t).

  Lemma pair_head_perfect k a b : perfect k a -> perfect k b ->
    pair_head H a b = H (leaf_head a ++ leaf_head b).
  Proof.
    intros Pa Pb. unfold pair_head. apply from_multi_pair; eapply perfect_head; eauto.
  Qed.

  Lemma children_perfect j m : forall ls,
    length ls = 2 * m -> Forall (perfect j) ls ->
    exists c, children_leaves H ls = Ok c /\ length c = m /\ Forall (perfect (S j)) c /\
              flat_map leaf_leaves c = flat_map leaf_leaves ls.
  Proof.
    induction m as [|m IH]; intros ls E P.
    - destruct ls; [|cbn in E; lia]. exists []. cbn. auto.
    - destruct ls as [|a [|b ls]]; cbn [length] in E; try lia.
      inversion P as [|? ? Pa P']; subst. inversion P' as [|? ? Pb P'']; subst.
      destruct (IH ls ltac:(lia) P'') as (c & Ec & Lc & Pc & Fc).
      exists (LNode (pair_head H a b) a b :: c).
      cbn [children_leaves]. rewrite Ec. cbn [bind length flat_map leaf_leaves].
      repeat split; auto.
      + constructor; auto. cbn [perfect]. repeat split; auto. eapply pair_head_perfect; eauto.
      + rewrite Fc. now rewrite app_assoc.
  Qed.

  Lemma leaves_ht_perfect k : forall j ls fuel,
    length ls = 2 ^ (S k) -> Forall (perfect j) ls -> S k <= fuel ->
    exists t, leaves_ht_fuel H fuel ls = Ok t /\ perfect_ht (k + j) t /\
              ht_leaves t = flat_map leaf_leaves ls.
  Proof.
    induction k as [|k IH]; intros j ls fuel E P F; (destruct fuel as [|fuel]; [lia|]).
    - cbn in E. destruct ls as [|a [|b [|c ls]]]; cbn in E; try lia.
      inversion P as [|? ? Pa P']; subst. inversion P' as [|? ? Pb _]; subst.
      exists (HashTree (pair_head H a b) a b). cbn [leaves_ht_fuel].
      repeat split; auto.
      + eapply pair_head_perfect; eauto.
      + unfold ht_leaves; cbn. now rewrite app_nil_r.
    - assert (E2 : length ls = 2 * 2 ^ (S k)) by (rewrite E; reflexivity).
      destruct (children_perfect j (2 ^ (S k)) ls E2 P) as (c & Ec & Lc & Pc & Fc).
      assert (2 <= 2 ^ S k) by (cbn; pose proof (Nat.pow_nonzero 2 k); lia).
      cbn [leaves_ht_fuel].
      destruct ls as [|x [|y [|z ls]]]; cbn [length] in E2; try lia.
      rewrite Ec. cbn [bind].
      destruct (IH (S j) c fuel Lc Pc ltac:(lia)) as (t & Et & Pt & Ft).
      exists t. repeat split; auto; try apply Pt.
      + replace (S k + j) with (k + S j) by lia. apply Pt.
      + replace (S k + j) with (k + S j) by lia. apply Pt.
      + now rewrite Ft.
  Qed.

  Lemma pow2_ge k : k < 2 ^ k.
  Proof. apply Nat.pow_gt_lin_r. lia. Qed.

  Lemma flat_map_LHead hs : flat_map leaf_leaves (map LHead hs) = map LHead hs.
  Proof. induction hs; cbn; congruence. Qed.

  Lemma leaves_ht_heads k hs :
    length hs = 2 ^ (S k) -> Forall (fun h => length h = 64) hs ->
    exists t, leaves_ht H (map LHead hs) = Ok t /\ perfect_ht k t /\ ht_leaves t = map LHead hs.
  Proof.
    intros E P. unfold leaves_ht.
    destruct (leaves_ht_perfect k 0 (map LHead hs) (length (map LHead hs))) as (t & Et & Pt & Ft).
    - now rewrite map_length.
    - apply Forall_map. exact P.
    - rewrite map_length. pose proof (pow2_ge (S k)). unfold bytes in *. lia.
    - exists t. rewrite Nat.add_0_r in Pt. rewrite flat_map_LHead in Ft. auto.
  Qed.

  (** Only lists whose length is a power of two, at least two, make a tree. *)
  Lemma children_length ls c : children_leaves H ls = Ok c -> length ls = 2 * length c.
  Proof.
    revert c. assert (G : forall n ls, length ls <= n -> forall c,
      children_leaves H ls = Ok c -> length ls = 2 * length c).
    { induction n as [|n IH]; intros l L c E.
      - destruct l; cbn in *; [|lia]. inversion E; reflexivity.
      - destruct l as [|a [|b l]]; cbn in *; try discriminate.
        + inversion E; reflexivity.
        + destruct (children_leaves H l) as [c'| | |] eqn:Ec; cbn in E; try discriminate.
          inversion E; subst. cbn [length]. rewrite (IH l) with (c := c'); auto; lia. }
    intros c. apply (G (length ls)); auto.
  Qed.

  Lemma leaves_ht_pow2 fuel : forall ls t,
    leaves_ht_fuel H fuel ls = Ok t -> exists k, length ls = 2 ^ (S k).
  Proof.
    induction fuel as [|fuel IH]; intros ls t E; cbn in E; [discriminate|].
    assert (G : bind (children_leaves H ls) (fun c => leaves_ht_fuel H fuel c) = Ok t ->
                exists k, length ls = 2 ^ (S k)).
    { intros E'. apply bind_Ok_inv in E' as (c & Ec & Et).
      destruct (IH c t Et) as [k Ek]. exists (S k).
      apply children_length in Ec. rewrite Ec, Ek. reflexivity. }
    destruct ls as [|a [|b [|c ls]]]; auto. exists 0. reflexivity.
  Qed.

  Lemma children_outcome ls : (exists c, children_leaves H ls = Ok c /\ length ls = 2 * length c)
                              \/ children_leaves H ls = Panic.
  Proof.
    assert (G : forall n ls, length ls <= n ->
       (exists c, children_leaves H ls = Ok c /\ length ls = 2 * length c)
       \/ children_leaves H ls = Panic).
    { induction n as [|n IH]; intros l L.
      - destruct l; cbn in *; [|lia]. left; exists []; auto.
      - destruct l as [|a [|b l]]; cbn in *; auto.
        + left; exists []; auto.
        + destruct (IH l ltac:(lia)) as [(c & Ec & Lc)|Ec]; rewrite Ec; cbn [bind]; auto.
          left. eexists; split; eauto. cbn [length]. lia. }
    apply (G (length ls)); auto.
  Qed.

  Lemma leaves_ht_outcome fuel : forall ls, ls <> [] -> length ls <= fuel ->
    (exists t, leaves_ht_fuel H fuel ls = Ok t) \/ leaves_ht_fuel H fuel ls = Panic.
  Proof.
    induction fuel as [|fuel IH]; intros ls Hne L.
    - destruct ls; cbn in L; [congruence|lia].
    - cbn [leaves_ht_fuel].
      assert (G : length ls <> 2 -> (exists t, bind (children_leaves H ls) (fun c => leaves_ht_fuel H fuel c) = Ok t)
                  \/ bind (children_leaves H ls) (fun c => leaves_ht_fuel H fuel c) = Panic).
      { intros H2. destruct (children_outcome ls) as [(c & Ec & Lc)|Ec]; rewrite Ec; cbn [bind]; auto.
        apply IH; [|destruct ls; [congruence|]; cbn [length] in *; lia].
        intros ->. destruct ls; [congruence|]. cbn [length] in Lc. lia. }
      destruct ls as [|a [|b [|c ls]]]; try congruence; try (apply G; cbn; lia). eauto.
  Qed.

  (** ** The builder *)
  Definition padded_blocks (bs : list bytes) : list bytes :=
    if (length bs <=? 1)%nat then bs ++ [[]] else bs.

  Lemma build_tree_spec blocks : blocks <> [] ->
    exists t k pad,
      build_tree H (Some blocks) = Ok t /\
      perfect_ht k t /\
      pad_exponent (length blocks) (S k) /\
      length blocks + pad = 2 ^ (S k) /\
      ht_leaves t = map LHead (map (from_bytes H) blocks ++ repeat (H []) pad) /\
      leaves_ht H (ht_leaves t) = Ok t.
  Proof.
    intros Hne. unfold build_tree.
    set (bs := if (length blocks <=? 1)%nat then blocks ++ [[]] else blocks).
    assert (Hempty : from_bytes H [] = H []) by (apply from_bytes_other; cbn; lia).
    assert (Hbs : 2 <= length bs /\ exists p0, map (from_bytes H) bs =
               map (from_bytes H) blocks ++ repeat (H []) p0 /\ length bs = length blocks + p0 /\
               (p0 = 0 \/ length blocks = 1)).
    { unfold bs. destruct (Nat.leb_spec (length blocks) 1).
      - destruct blocks as [|b [|b' bl]]; cbn in *; try congruence; try lia.
        split; [lia|]. exists 1. auto.
      - split; [lia|]. exists 0. cbn. rewrite app_nil_r. repeat split; auto; lia. }
    destruct Hbs as (H2 & p0 & Ebs & Lbs & Hp0).
    assert (Hfin : exists k p1, pad_exponent (length bs) (S k) /\ length bs + p1 = 2 ^ (S k) /\
       (if is_power_of_two (length (map (from_bytes H) bs)) then map (from_bytes H) bs
        else map (from_bytes H) bs ++
             repeat (from_bytes H [])
               (next_power (length (map (from_bytes H) bs)) - length (map (from_bytes H) bs))) =
       map (from_bytes H) bs ++ repeat (H []) p1).
    { rewrite map_length.
      destruct (is_power_of_two (length bs)) eqn:Ep.
      - apply is_power_of_two_spec in Ep as [k Ek].
        pose proof (pow2_pad (length bs) k H2 Ek) as Hpad.
        destruct k as [|k]; [destruct Hpad; lia|].
        exists k, 0. cbn [repeat]. rewrite app_nil_r. repeat split; auto; try apply Hpad; lia.
      - destruct (next_power_pad (length bs) H2) as (k & Hpad & En).
        destruct k as [|k]; [destruct Hpad; lia|].
        exists k, (next_power (length bs) - length bs). rewrite Hempty.
        repeat split; auto; try apply Hpad. rewrite En. destruct Hpad as (_ & Hle & _). lia. }
    destruct Hfin as (k & p1 & Hpad & Hlen & ->).
    assert (Hpad' : pad_exponent (length blocks) (S k)).
    { destruct Hp0 as [->|E1].
      - now rewrite Lbs, Nat.add_0_r in Hpad.
      - destruct Hpad as (Ha & Hb & Hc). repeat split; [lia|lia|].
        intros j Hj Hn. apply Hc; auto.
        rewrite Lbs, E1. destruct blocks as [|b [|b' bl]]; cbn in E1; try lia.
        assert (p0 <= 1).
        { unfold bs in Lbs. cbn in Lbs. lia. }
        assert (2 <= 2 ^ j) by (destruct j; [lia|]; cbn; pose proof (Nat.pow_nonzero 2 j); lia).
        lia. }
    destruct (leaves_ht_heads k (map (from_bytes H) bs ++ repeat (H []) p1)) as (t & Et & Pt & Ft).
    { rewrite app_length, map_length, repeat_length. exact Hlen. }
    { apply Forall_app. split.
      - apply Forall_map. apply Forall_forall. intros; now apply from_bytes_length.
      - apply Forall_forall. intros x Hx. apply repeat_spec in Hx. now subst. }
    exists t, k, (p0 + p1).
    assert (Eall : map (from_bytes H) bs ++ repeat (H []) p1 =
                   map (from_bytes H) blocks ++ repeat (H []) (p0 + p1)).
    { rewrite Ebs, <- app_assoc, <- repeat_app. reflexivity. }
    rewrite Eall in *.
    assert (Hn : leaves_now (map LHead (map (from_bytes H) blocks ++ repeat (H []) (p0 + p1))) =
                 Ok (map LHead (map (from_bytes H) blocks ++ repeat (H []) (p0 + p1)))).
    { destruct blocks; [congruence|]. reflexivity. }
    rewrite Hn. cbn [bind]. rewrite Ft.
    repeat split; auto; try apply Pt; try apply Hpad'. lia.
  Qed.

  Lemma build_tree_empty : build_tree H (Some []) = Panic.
  Proof. reflexivity. Qed.

  Lemma perfect_ht_wf k t : perfect_ht k t -> wf_ht t.
  Proof.
    intros (E & Pa & Pb). repeat split.
    - rewrite E. apply HL.
    - eapply perfect_wf; eauto.
    - eapply perfect_wf; eauto.
  Qed.

  Lemma build_tree_wf blocks t : build_tree H (Some blocks) = Ok t -> wf_ht t.
  Proof.
    destruct blocks as [|b bl]; [discriminate|]. intros E.
    destruct (build_tree_spec (b :: bl)) as (t' & k & pad & E' & P & _); [congruence|].
    rewrite E in E'. inversion E'; subst. eapply perfect_ht_wf; eauto.
  Qed.

  Lemma perfect_ht_merkle k t : perfect_ht k t ->
    merkle H (map leaf_head (ht_leaves t)) (ht_head t).
  Proof.
    intros (E & Pa & Pb). unfold ht_leaves. rewrite map_app, E. constructor.
    - rewrite !map_length. now rewrite !(perfect_leaves_length k).
    - eapply perfect_merkle; eauto.
    - eapply perfect_merkle; eauto.
  Qed.

  (** ** Binding *)
  Lemma merkle_root_length l r : merkle H l r -> Forall (fun h => length h = 64) l -> length r = 64.
  Proof.
    destruct 1; intros F; auto. now inversion F.
  Qed.

  Lemma app_eq_len {A} (a b c d : list A) : length a = length c -> a ++ b = c ++ d -> a = c /\ b = d.
  Proof.
    revert c; induction a as [|x a IH]; intros [|y c] L E; cbn in *; try lia; auto.
    inversion E; subst. destruct (IH c ltac:(lia) H2); subst; auto.
  Qed.

  Lemma merkle_nonempty l r : merkle H l r -> l <> [].
  Proof.
    induction 1; [congruence|]. intros E. apply app_eq_nil in E as [-> _]. auto.
  Qed.

  Lemma merkle_binding l1 r1 : merkle H l1 r1 -> forall l2 r2, merkle H l2 r2 ->
    length l1 = length l2 ->
    Forall (fun h => length h = 64) l1 -> Forall (fun h => length h = 64) l2 ->
    r1 = r2 -> l1 = l2 \/ collide H (merkle_input H l1) (merkle_input H l2).
  Proof.
    induction 1 as [h|l r a b Ll M1 IH1 M2 IH2]; intros l2 r2 M L F1 F2 E.
    - destruct M as [h'|l' r' a' b' Ll' M1' M2'].
      + subst; auto.
      + apply merkle_nonempty in M1'. apply merkle_nonempty in M2'.
        rewrite app_length in L. cbn in L. destruct l', r'; cbn in L; try congruence; lia.
    - destruct M as [h'|l' r' a' b' Ll' M1' M2'].
      + apply merkle_nonempty in M1. apply merkle_nonempty in M2.
        rewrite app_length in L. cbn in L. destruct l, r; cbn in L; try congruence; lia.
      + rewrite !app_length in L.
        apply Forall_app in F1 as [F1l F1r]. apply Forall_app in F2 as [F2l F2r].
        destruct (bytes_eq_dec (a ++ b) (a' ++ b')) as [Eab|Nab].
        * pose proof (merkle_root_length _ _ M1 F1l) as La.
          pose proof (merkle_root_length _ _ M1' F2l) as La'.
          apply app_eq_len in Eab as [-> ->]; [|congruence].
          destruct (IH1 l' a' M1' ltac:(lia) F1l F2l eq_refl) as [->|(x & y & X & Y & N & C)].
          -- destruct (IH2 r' b' M2' ltac:(lia) F1r F2r eq_refl) as [->|(x & y & X & Y & N & C)]; auto.
             right. exists x, y. repeat split; auto; now apply input_right.
          -- right. exists x, y. repeat split; auto; now apply input_left.
        * right. exists (a ++ b), (a' ++ b'). repeat split; auto; now apply input_here.
  Qed.

  Lemma perfect_ht_heads64 k t : perfect_ht k t ->
    Forall (fun h => length h = 64) (map leaf_head (ht_leaves t)).
  Proof.
    intros (_ & Pa & Pb). unfold ht_leaves. rewrite Forall_map.
    apply Forall_app; split.
    - eapply Forall_impl; [|eapply perfect_leaves_flat; exact Pa].
      intros x Hx. eapply (perfect_head 0); eauto.
    - eapply Forall_impl; [|eapply perfect_leaves_flat; exact Pb].
      intros x Hx. eapply (perfect_head 0); eauto.
  Qed.

  (** ** Ordering *)
  Lemma order_lookup_spec mixed h : forall acc,
    order_lookup H mixed h acc =
    match find (fun d => bytes_eqb (from_bytes H d) h) (rev mixed) with
    | Some d => Some d
    | None => acc
    end.
  Proof.
    induction mixed as [|d rest IH]; intros acc; cbn [order_lookup rev]; auto.
    rewrite IH. rewrite find_app'. cbn [find].
    destruct (find _ (rev rest)); auto.
    destruct (bytes_eqb (from_bytes H d) h); auto.
  Qed.

  Lemma order_lookup_found mixed b :
    In b mixed -> (forall b', In b' mixed -> from_bytes H b' = from_bytes H b -> b' = b) ->
    order_lookup H mixed (from_bytes H b) None = Some b.
  Proof.
    intros Hin Hinj. rewrite order_lookup_spec.
    destruct (find _ (rev mixed)) as [d|] eqn:E.
    - apply find_some in E as [Hd Ed]. apply bytes_eqb_true in Ed.
      f_equal. apply Hinj; auto. now apply in_rev.
    - exfalso. eapply find_none in E; [|apply -> in_rev; exact Hin].
      rewrite bytes_eqb_refl in E. discriminate.
  Qed.

  Lemma order_lookup_missing mixed h :
    (forall b, In b mixed -> from_bytes H b <> h) -> order_lookup H mixed h None = None.
  Proof.
    intros Hn. rewrite order_lookup_spec.
    destruct (find _ (rev mixed)) as [d|] eqn:E; auto.
    apply find_some in E as [Hd Ed]. apply bytes_eqb_true in Ed.
    exfalso. apply (Hn d); auto. now apply in_rev.
  Qed.

  Lemma order_out_blocks mixed bs :
    (forall b, In b bs -> In b mixed) ->
    (forall b b', In b mixed -> In b' mixed -> from_bytes H b = from_bytes H b' -> b = b') ->
    order_out H mixed (map LHead (map (from_bytes H) bs)) = bs.
  Proof.
    intros Hin Hinj. induction bs as [|b bs IH]; cbn [map order_out leaf_head]; auto.
    rewrite order_lookup_found.
    - f_equal. apply IH. intros; apply Hin; now right.
    - apply Hin; now left.
    - intros b' Hb' E. apply Hinj; auto. apply Hin; now left.
  Qed.

  Lemma order_out_pad mixed n :
    (forall b, In b mixed -> from_bytes H b <> H []) ->
    order_out H mixed (map LHead (repeat (H []) n)) = [].
  Proof.
    intros Hn. induction n; cbn [repeat map order_out leaf_head]; auto.
    rewrite order_lookup_missing; auto.
  Qed.

  Lemma order_out_app mixed a b :
    order_out H mixed (a ++ b) = order_out H mixed a ++ order_out H mixed b.
  Proof.
    induction a as [|x a IH]; cbn [app order_out]; auto.
    destruct (order_lookup H mixed (leaf_head x) None); cbn; congruence.
  Qed.

  Lemma order_out_all mixed ls :
    (forall l, In l ls -> exists b, In b mixed /\ from_bytes H b = leaf_head l) ->
    length (order_out H mixed ls) = length ls.
  Proof.
    induction ls as [|l ls IH]; intros Hin; cbn [order_out length]; auto.
    destruct (Hin l) as (b & Hb & Eb); [now left|].
    destruct (order_lookup H mixed (leaf_head l) None) as [d|] eqn:E.
    - cbn [length]. f_equal. apply IH. intros; apply Hin; now right.
    - exfalso. rewrite order_lookup_spec in E.
      destruct (find _ (rev mixed)) eqn:Ef; [discriminate|].
      eapply find_none in Ef; [|apply -> in_rev; exact Hb].
      rewrite Eb, bytes_eqb_refl in Ef. discriminate.
  Qed.
End Perfect.
