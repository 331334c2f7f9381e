(** Which bytes the decoders of contents and references accept. *)
From Coq Require Import List ZArith NArith Lia Bool.
From Coq Require Import Init.Byte Strings.Byte.
From Verif Require Import Base BaseLemmas HashModel HashProofs SpecHash HashTreeModel HashTreeProofs RefModel RefProofs SpecRef SpecCanon.
Import ListNotations.

Lemma cut_at (v : bytes) n : n <= length v -> v = firstn n v ++ skipn n v /\ length (firstn n v) = n.
Proof. intros L. split; [symmetry; apply firstn_skipn|]. rewrite firstn_length. lia. Qed.

Lemma skipn_skipn {A} (l : list A) : forall y x, skipn x (skipn y l) = skipn (x + y) l.
Proof.
  induction l as [|a l IH]; intros y x; [now rewrite !skipn_nil|]. destruct y as [|y].
  - now rewrite Nat.add_0_r.
  - rewrite Nat.add_succ_r. cbn [skipn]. apply IH.
Qed.

(** A slice of a known middle part. *)
Lemma slice_part a b c e lo hi : lo = zlen a -> hi = (zlen a + zlen b)%Z ->
  exists x, s_slice (GSlice (a ++ b ++ c) e) lo hi = Ok (GSlice b x).
Proof. intros -> ->. rewrite s_slice_mid by lia. eauto. Qed.

Lemma u64_delim n hi : (8 <= i64 (8 + i64 n) <= hi)%Z -> (hi < two63)%Z -> i64 (8 + i64 n) = (8 + i64 n)%Z.
Proof.
  intros R3 L. pose proof (i64_range n) as Rn.
  assert (C : ((8 + i64 n) mod two64 = 8 + i64 n \/ 8 + i64 n < 0)%Z).
  { destruct (Z.lt_ge_cases (8 + i64 n) 0); auto.
    left. apply Z.mod_small. rewrite two63_val, two64_val in *. lia. }
  destruct C as [C|C].
  - unfold i64 at 1. unfold i64 at 1 in R3. rewrite C in *. destruct (Z.ltb_spec (8 + i64 n) two63); [lia|].
    rewrite two63_val, two64_val in *. lia.
  - exfalso. unfold i64 at 1 in R3.
    assert (E : ((8 + i64 n) mod two64 = 8 + i64 n + two64)%Z).
    { symmetry. apply (Z.mod_unique _ _ (-1)); rewrite two63_val, two64_val in *; lia. }
    rewrite E in R3. rewrite two63_val, two64_val in *.
    destruct (Z.ltb_spec (8 + i64 n + 18446744073709551616) 9223372036854775808); lia.
Qed.

Lemma pointer_canonical s p : pointer_of_content s = Ok p -> wf_pointer p /\ pointer_content p = vis s.
Proof.
  unfold pointer_of_content, pointer_size. intros E.
  destruct (Z.eqb_spec (s_len s) 16) as [L|]; [|discriminate]. cbn [negb] in E.
  apply bind_Ok_inv in E as (a & Ea & E). apply bind_Ok_inv in E as (from & Ef & E).
  apply bind_Ok_inv in E as (b & Eb & E). apply bind_Ok_inv in E as (len & El & E).
  pose proof (s_slice_inv_vis _ _ _ _ Ea ltac:(lia)) as Va. change (Z.to_nat (8 - 0)) with 8 in Va. cbn [Z.to_nat skipn] in Va.
  apply s_from_inv in Eb as (_ & ->). change (Z.to_nat 8) with 8 in *.
  apply get_u64_inv in Ef as (_ & ->). apply get_u64_inv in El as (_ & ->). cbn [vis] in *.
  unfold s_len, zlen in L.
  assert (L1 : length (firstn 8 (vis s)) = 8) by (rewrite firstn_length; lia).
  assert (L2 : length (skipn 8 (vis s)) = 8) by (rewrite skipn_length; lia).
  rewrite Va, firstn_firstn in E. change (Nat.min 8 8) with 8 in E. rewrite (firstn_all2 (n:=8) (skipn 8 (vis s))) in E by lia.
  unfold pointer_now in E. destruct (Z.leb_spec (unle (skipn 8 (vis s))) 0); [discriminate|].
  assert (X : p = Pointer (unle (firstn 8 (vis s))) (unle (skipn 8 (vis s)))) by congruence. subst p. split.
  - split; cbn [p_from p_length]; [now apply unle_8_range|]. destruct (unle_8_range _ L2). split; assumption.
  - unfold pointer_content. cbn [p_from p_length]. rewrite !put_u64_unle by auto. apply firstn_skipn.
Qed.

Lemma wf_pointer_pos p : wf_pointer p -> (0 < p_length p)%Z. Proof. intros W. apply W. Qed.

Section Canon.
  Variable H : bytes -> bytes.
  Variable mv : byte.

  Lemma key_canonical s k : key_of_content H s = Ok k -> wf_key k /\ key_content k = vis s.
  Proof.
    unfold key_of_content, content_key_size. intros E.
    destruct (Z.eqb_spec (s_len s) 152) as [L|]; [|discriminate]. cbn [negb] in E.
    apply bind_Ok_inv in E as (hd & Eh & E). apply bind_Ok_inv in E as (kb & Ek & E).
    apply bind_Ok_inv in E as (kind & Ekd & E). apply bind_Ok_inv in E as (pb & Ep & E).
    apply bind_Ok_inv in E as (p & Epp & E). apply bind_Ok_inv in E as (cb & Ec & E).
    pose proof (s_slice_inv_vis _ _ _ _ Eh ltac:(lia)) as V1. pose proof (s_slice_inv_vis _ _ _ _ Ek ltac:(lia)) as V2.
    pose proof (s_slice_inv_vis _ _ _ _ Ep ltac:(lia)) as V3. pose proof (s_slice_inv_vis _ _ _ _ Ec ltac:(lia)) as V4.
    change (Z.to_nat (64 - 0)) with 64 in V1. change (Z.to_nat 0) with 0 in V1. cbn [skipn] in V1.
    change (Z.to_nat (72 - 64)) with 8 in V2. change (Z.to_nat 64) with 64 in V2.
    change (Z.to_nat (88 - 72)) with 16 in V3. change (Z.to_nat 72) with (8 + 64) in V3. rewrite <- skipn_skipn in V3.
    change (Z.to_nat (152 - 88)) with 64 in V4. change (Z.to_nat 88) with (16 + (8 + 64)) in V4. rewrite <- !skipn_skipn in V4.
    unfold s_len, zlen in L. set (v := vis s) in *.
    assert (L1 : length (skipn 64 v) = 88) by (rewrite skipn_length; lia).
    set (v1 := skipn 64 v) in *.
    assert (L2 : length (skipn 8 v1) = 80) by (rewrite skipn_length; lia). set (v2 := skipn 8 v1) in *.
    assert (L3 : length (skipn 16 v2) = 64) by (rewrite skipn_length; lia). set (v3 := skipn 16 v2) in *.
    assert (Lh : length (vis hd) = 64) by (rewrite V1, firstn_length; lia).
    assert (Lk : length (vis kb) = 8) by (rewrite V2, firstn_length; lia).
    rewrite firstn_all2 in V4 by lia.
    apply get_u64_inv in Ekd as (_ & ->). rewrite (firstn_all2 (n:=8) (vis kb)) in E by lia.
    destruct (pointer_canonical _ _ Epp) as (Wp & Cp).
    rewrite !from_bytes_64 in E by (rewrite ?V4; auto).
    assert (X : k = ContentKey (vis hd) (unle (vis kb)) p (vis cb)) by congruence. subst k.
    split.
    - repeat split; cbn [k_hash k_kind k_content k_commit]; auto; try apply Wp; try now apply unle_8_range. now rewrite V4.
    - unfold key_content. cbn [k_hash k_kind k_content k_commit]. rewrite put_u64_unle, Cp by auto.
      rewrite V1, V2, V3, V4. unfold v3. rewrite (firstn_skipn 16 v2). unfold v2. rewrite (firstn_skipn 8 v1). unfold v1.
      apply firstn_skipn.
  Qed.

  Lemma content_canonical s c : content_of_content H s = Ok c -> 
    (length (ct_hash c) = 64 /\ is_u64 (ct_kind c) /\ ct_data c <> []) /\ content_content c = vis s.
  Proof.
    unfold content_of_content, min_content_size. intros E.
    destruct (Z.ltb_spec (s_len s) 73) as [|L]; [discriminate|].
    apply bind_Ok_inv in E as (hd & Eh & E). apply bind_Ok_inv in E as (kb & Ek & E).
    apply bind_Ok_inv in E as (kind & Ekd & E). apply bind_Ok_inv in E as (d & Ed & E).
    pose proof (s_slice_inv_vis _ _ _ _ Eh ltac:(lia)) as V1. pose proof (s_slice_inv_vis _ _ _ _ Ek ltac:(lia)) as V2.
    change (Z.to_nat (64 - 0)) with 64 in V1. change (Z.to_nat 0) with 0 in V1. cbn [skipn] in V1.
    change (Z.to_nat (72 - 64)) with 8 in V2. change (Z.to_nat 64) with 64 in V2.
    apply s_from_inv in Ed as (_ & ->). cbn [vis] in E. change (Z.to_nat 72) with (8 + 64) in E. rewrite <- skipn_skipn in E.
    unfold s_len, zlen in L. set (v := vis s) in *.
    assert (L1 : 9 <= length (skipn 64 v)) by (rewrite skipn_length; lia). set (v1 := skipn 64 v) in *.
    assert (Lh : length (vis hd) = 64) by (rewrite V1, firstn_length; lia).
    assert (Lk : length (vis kb) = 8) by (rewrite V2, firstn_length; lia).
    apply get_u64_inv in Ekd as (_ & ->). rewrite (firstn_all2 (n:=8) (vis kb)) in E by lia.
    rewrite from_bytes_64 in E by auto. unfold content_now in E.
    destruct (skipn 8 v1) as [|x l] eqn:Ev; [discriminate|].
    assert (X : c = Content (vis hd) (x :: l) (unle (vis kb))) by congruence. subst c.
    split.
    - repeat split; cbn [ct_hash ct_kind ct_data]; auto; try now apply unle_8_range. discriminate.
    - unfold content_content. cbn [ct_hash ct_kind ct_data]. rewrite put_u64_unle by auto. rewrite V1, V2, <- Ev.
      rewrite (firstn_skipn 8 v1). unfold v1. apply firstn_skipn.
  Qed.

  Lemma contents_loop_canonical f : forall s l, contents_loop H f s = Ok l -> (s_len s < two63)%Z ->
    Forall (fun c => length (ct_hash c) = 64 /\ is_u64 (ct_kind c) /\ ct_data c <> []) l /\ contents_content l = vis s.
  Proof.
    induction f as [|f IH]; intros s l E L; cbn [contents_loop] in E; [discriminate|].
    destruct (Z.leb_spec (s_len s) 0) as [Z0|Z0].
    - injection E as <-. split; auto. unfold s_len, zlen in Z0. destruct (vis s); [reflexivity|cbn [length] in Z0; lia].
    - apply bind_Ok_inv in E as (sb & Es & E). apply bind_Ok_inv in E as (z & Ez & E).
      apply bind_Ok_inv in E as (cs & Ecs & E). apply bind_Ok_inv in E as (c & Ec & E).
      apply bind_Ok_inv in E as (rest & Er & E). apply bind_Ok_inv in E as (l' & El & E). injection E as <-.
      pose proof (s_slice_inv _ _ _ _ Ecs) as (R & _ & _). apply s_from_inv in Er as (R2 & Er).
      pose proof (u64_delim z (s_len s) ltac:(lia) L) as D. rewrite D in *.
      pose proof (s_slice_inv_vis _ _ _ _ Ecs ltac:(lia)) as Vc.
      pose proof (s_slice_inv_vis _ _ _ _ Es ltac:(lia)) as Vs. change (Z.to_nat (8 - 0)) with 8 in Vs. cbn [Z.to_nat skipn] in Vs.
      destruct (content_canonical _ _ Ec) as (Wc & Cc).
      assert (Lr : (s_len rest < two63)%Z).
      { rewrite Er. unfold s_len, zlen in *. cbn [vis]. rewrite skipn_length. lia. }
      destruct (IH rest l' El Lr) as (Wl & Cl). split; [now constructor|].
      change (contents_content (c :: l')) with ((put_u64 (zlen (content_content c)) ++ content_content c) ++ contents_content l').
      rewrite Cl, Cc, Er. cbn [vis]. apply get_u64_inv in Ez as (_ & Ez). unfold s_len, zlen in *.
      rewrite Vs, firstn_firstn in Ez. change (Nat.min 8 8) with 8 in Ez.
      assert (L8 : length (firstn 8 (vis s)) = 8) by (rewrite firstn_length; lia).
      change (Z.to_nat 8) with 8 in Vc. replace (8 + i64 z - 8)%Z with (i64 z) in Vc by lia.
      assert (Lc : length (vis cs) = Z.to_nat (i64 z)) by (rewrite Vc, firstn_length, skipn_length; lia).
      rewrite Lc. rewrite Z2Nat.id by lia. rewrite put_u64_i64. rewrite Vc.
      assert (Ep : put_u64 z = firstn 8 (vis s)) by (rewrite Ez; now apply put_u64_unle). rewrite Ep.
      replace (Z.to_nat (8 + i64 z)) with (Z.to_nat (i64 z) + 8) by lia. rewrite <- skipn_skipn.
      rewrite <- app_assoc, firstn_skipn. apply firstn_skipn.
  Qed.

  Lemma contents_canonical s l : contents_of_content H s = Ok l -> (s_len s < two63)%Z ->
    l <> [] /\ Forall (fun c => length (ct_hash c) = 64 /\ is_u64 (ct_kind c) /\ ct_data c <> []) l /\ contents_content l = vis s.
  Proof.
    unfold contents_of_content. intros E L. destruct (s_len s <? min_contents_size)%Z; [discriminate|].
    apply bind_Ok_inv in E as (l' & El & E). unfold contents_now in E. destruct l' as [|c l']; [discriminate|]. injection E as <-.
    destruct (contents_loop_canonical _ _ _ El L). split; [discriminate|auto].
  Qed.

  (** The list of keys: all bytes that can be reached from the slice, the visible ones first. *)
  Lemma keys_loop_canonical n : forall s b l, keys_loop H n s b = Ok l -> (0 <= b)%Z ->
    length l = n /\ Forall wf_key l /\ exists rest, skipn (Z.to_nat b) (vis s ++ ext s) = concat (map key_content l) ++ rest.
  Proof.
    induction n as [|n IH]; intros s b l E B; cbn [keys_loop] in E.
    - injection E as <-. cbn. eauto.
    - apply bind_Ok_inv in E as (ks & Ek & E). apply bind_Ok_inv in E as (k & Ekk & E).
      apply bind_Ok_inv in E as (l' & El & E). injection E as <-. unfold content_key_size in *.
      destruct (IH _ _ _ El ltac:(lia)) as (Ln & Wl & rest & Er). destruct (key_canonical _ _ Ekk) as (Wk & Ck).
      apply s_slice_inv in Ek as (R1 & R2 & ->). cbn [vis] in Ck.
      cbn [length map concat]. split; [now rewrite Ln|]. split; [now constructor|]. exists rest.
      rewrite <- app_assoc, <- Er, Ck. replace (Z.to_nat (b + 152 - b)) with 152 by lia.
      replace (Z.to_nat (b + 152)) with (152 + Z.to_nat b) by lia. rewrite <- skipn_skipn. symmetry. apply firstn_skipn.
  Qed.

  Lemma keys_canonical s l : keys_of_content H s = Ok l ->
    l <> [] /\ Forall wf_key l /\ exists rest, vis s ++ ext s = keys_content l ++ rest.
  Proof.
    unfold keys_of_content. intros E. unfold content_key_size in E. destruct (Z.ltb_spec (s_len s) (8 + 152)) as [|L]; [discriminate|].
    apply bind_Ok_inv in E as (lb & Eb & E). apply bind_Ok_inv in E as (z & Ez & E).
    apply bind_Ok_inv in E as (l' & El & E). unfold keys_now in E. destruct l' as [|k l']; [discriminate|]. injection E as <-.
    set (l := k :: l') in *.
    destruct (keys_loop_canonical _ _ _ _ El ltac:(lia)) as (Ln & Wl & rest & Er).
    split; [discriminate|]. split; auto. exists rest.
    pose proof (s_slice_inv_vis _ _ _ _ Eb ltac:(lia)) as Vs. change (Z.to_nat (8 - 0)) with 8 in Vs. cbn [Z.to_nat skipn] in Vs.
    apply get_u64_inv in Ez as (_ & Ez). rewrite Vs, firstn_firstn in Ez. change (Nat.min 8 8) with 8 in Ez.
    assert (L8 : length (firstn 8 (vis s)) = 8) by (unfold s_len, zlen in L; rewrite firstn_length; lia).
    assert (Z1 : zlen l = i64 z).
    { assert (Lc : (Z.of_nat (length (concat (map key_content l))) <= s_cap s)%Z).
      { apply (f_equal (@length _)) in Er. rewrite skipn_length, !app_length in Er. unfold s_cap, zlen in *. lia. }
      rewrite keys_enc_length in Lc by auto. unfold zlen. rewrite Ln in *.
      assert (0 < length l) by (cbn; lia). lia. }
    unfold keys_content. rewrite Z1, put_u64_i64, Ez, put_u64_unle by auto.
    rewrite <- app_assoc, <- Er. change (Z.to_nat 8) with 8.
    assert (F : firstn 8 (vis s) = firstn 8 (vis s ++ ext s)).
    { rewrite firstn_app. unfold s_len, zlen in L. replace (8 - length (vis s)) with 0 by lia. now rewrite firstn_O, app_nil_r. }
    rewrite F. symmetry. apply firstn_skipn.
  Qed.

  (** The decoded list of keys depends on the bytes behind the slice as well. *)
  Lemma keys_anywhere v1 e1 v2 e2 : v1 ++ e1 = v2 ++ e2 -> 160 <= length v1 -> 160 <= length v2 ->
    keys_of_content H (GSlice v1 e1) = keys_of_content H (GSlice v2 e2).
  Proof.
    intros E L1 L2. unfold keys_of_content, s_len, content_key_size. cbn [vis].
    replace (zlen v1 <? 8 + 152)%Z with false by (symmetry; apply Z.ltb_ge; unfold zlen; lia).
    replace (zlen v2 <? 8 + 152)%Z with false by (symmetry; apply Z.ltb_ge; unfold zlen; lia).
    assert (C : s_cap (GSlice v1 e1) = s_cap (GSlice v2 e2)).
    { apply (f_equal (@length _)) in E. rewrite !app_length in E. unfold s_cap, zlen. cbn [vis ext]. lia. }
    assert (S : forall lo hi, s_slice (GSlice v1 e1) lo hi = s_slice (GSlice v2 e2) lo hi).
    { intros. unfold s_slice. rewrite C. cbn [vis ext]. now rewrite E. }
    rewrite S, C. destruct (s_slice (GSlice v2 e2) 0 8) as [lb| | |]; cbn [bind]; auto.
    destruct (get_u64 lb) as [z| | |]; cbn [bind]; auto. f_equal.
    generalize (Z.to_nat (Z.min (i64 z) (s_cap (GSlice v2 e2) + 1))) as n. generalize 8%Z.
    intros b n. revert b. induction n as [|n IH]; intros b; cbn [keys_loop]; auto.
    rewrite S. destruct (s_slice _ b _) as [ks| | |]; cbn [bind]; auto.
    destruct (key_of_content H ks); cbn [bind]; auto. now rewrite IH.
  Qed.

  Lemma keys_accepted v e l : (zlen (v ++ e) < two63)%Z ->
    (keys_of_content H (GSlice v e) = Ok l <->
     l <> [] /\ Forall wf_key l /\ 160 <= length v /\ exists rest, v ++ e = keys_content l ++ rest).
  Proof.
    intros L. split.
    - intros E. destruct (keys_canonical _ _ E) as (A & B & rest & C). cbn [vis ext] in C. repeat split; eauto.
      unfold keys_of_content, s_len, content_key_size in E. cbn [vis] in E.
      destruct (Z.ltb_spec (zlen v) (8 + 152)); [discriminate|]. unfold zlen in *. lia.
    - intros (A & B & C & rest & D). pose proof (keys_content_length l B) as Lk.
      assert (length l <> 0) by (destruct l; cbn; [congruence|lia]).
      rewrite (keys_anywhere v e (keys_content l) rest) by (auto; lia). apply keys_roundtrip; auto.
      rewrite D, zlen_app in L. pose proof (zlen_nonneg rest). lia.
  Qed.

  Lemma from_bytes_block t : block_hash H t (from_bytes H t).
  Proof.
    unfold from_bytes, block_hash. change hash_size with 64. destruct (Nat.eqb_spec (length t) 64); auto.
  Qed.
  Lemma block_from_bytes t p : block_hash H t p -> p = from_bytes H t.
  Proof.
    unfold from_bytes, block_hash. change hash_size with 64. destruct (Nat.eqb_spec (length t) 64); tauto.
  Qed.

  Definition commit_parts (time : Z) (hv tail : bytes) : bytes := put_u64 time ++ put_u64 (zlen hv) ++ hv ++ tail.

  Lemma commit_parts_ok v time tail parent proof e : wf_ht v -> is_i64 time -> commit_end H tail parent proof ->
    (zlen (commit_parts time (ht_content v) tail) < two63)%Z ->
    commit_of_content H mv (GSlice (commit_parts time (ht_content v) tail) e) = Ok (commit_now H mv v time parent proof).
  Proof.
    intros Wv Wt Ce L. pose proof (ht_content_zlen v Wv) as Lv. unfold commit_parts in *.
    set (hv := ht_content v) in *. pose proof (zlen_nonneg tail) as Lt.
    rewrite !zlen_app, !zlen_put_u64 in L.
    unfold commit_of_content, s_len, commit_min_size; cbn [vis]. rewrite !zlen_app, !zlen_put_u64. ltb_false.
    rewrite s_slice_pre by (symmetry; apply zlen_put_u64). cbn [bind].
    rewrite get_u64_put_only. cbn [bind].
    rewrite s_slice_mid by (rewrite ?zlen_put_u64; lia). cbn [bind].
    rewrite get_u64_put_only. cbn [bind]. rewrite i64_mod.
    rewrite (i64_small (zlen hv)) by lia. rewrite (i64_small (16 + zlen hv)) by lia.
    rewrite (app_assoc (put_u64 time)).
    rewrite s_slice_mid by (rewrite ?zlen_app, ?zlen_put_u64; lia). cbn [bind].
    assert (Er : forall e, ht_of_content H (GSlice hv e) = Ok v) by (intros; apply ht_roundtrip; auto; fold hv; lia).
    rewrite Er. cbn [bind].
    rewrite (app_assoc _ hv).
    rewrite s_from_app by (rewrite ?zlen_app, ?zlen_put_u64; lia). cbn [bind vis].
    rewrite i64_of_u64 by auto.
    destruct Ce as [|x t p Nx Bt|b|b x t p Bt].
    - reflexivity.
    - rewrite zlen_cons. pose proof (zlen_nonneg t). ltb_true. change (x :: t) with ([x] ++ t).
      rewrite s_slice_pre by reflexivity. cbn [bind vis].
      replace (Byte.eqb x (byte_of_Z 0)) with false.
      2:{ symmetry. destruct (Byte.eqb x (byte_of_Z 0)) eqn:Q; auto. apply byte_eqb_true in Q. change (byte_of_Z 0) with x00 in Q. congruence. }
      cbn [bind fst snd]. rewrite s_from_app by reflexivity. cbn [vis]. change ([x] ++ t) with (x :: t). rewrite zlen_cons.
      ltb_true. cbn [bind vis]. now rewrite <- (block_from_bytes _ _ Bt).
    - pose proof (zlen_nonneg b). rewrite zlen_cons, zlen_app, zlen_put_u64 in *. ltb_true.
      change (x00 :: put_u64 (zlen b) ++ b) with ([x00] ++ (put_u64 (zlen b) ++ b)).
      rewrite s_slice_pre by reflexivity. cbn [bind vis].
      change (Byte.eqb x00 (byte_of_Z 0)) with true. cbv iota.
      rewrite s_from_app by reflexivity. cbn [bind].
      rewrite s_slice_pre by (symmetry; apply zlen_put_u64). cbn [bind].
      rewrite get_u64_put_only. cbn [bind]. rewrite i64_mod.
      rewrite (i64_small (zlen b)) by lia. rewrite (i64_small (8 + zlen b)) by lia.
      rewrite <- (app_nil_r b) at 2. rewrite s_slice_mid by (rewrite ?zlen_put_u64; lia). cbn [bind vis].
      rewrite <- (app_nil_r (put_u64 (zlen b) ++ b)).
      rewrite s_from_app by (rewrite zlen_app, zlen_put_u64; lia). reflexivity.
    - pose proof (zlen_nonneg b). pose proof (zlen_nonneg t). rewrite !zlen_cons, !zlen_app, zlen_put_u64, zlen_cons in *. ltb_true.
      change (x00 :: put_u64 (zlen b) ++ b ++ x :: t) with ([x00] ++ (put_u64 (zlen b) ++ b ++ x :: t)).
      rewrite s_slice_pre by reflexivity. cbn [bind vis].
      change (Byte.eqb x00 (byte_of_Z 0)) with true. cbv iota.
      rewrite s_from_app by reflexivity. cbn [bind].
      rewrite s_slice_pre by (symmetry; apply zlen_put_u64). cbn [bind].
      rewrite get_u64_put_only. cbn [bind]. rewrite i64_mod.
      rewrite (i64_small (zlen b)) by lia. rewrite (i64_small (8 + zlen b)) by lia.
      rewrite s_slice_mid by (rewrite ?zlen_put_u64; lia). cbn [bind vis].
      rewrite app_assoc. rewrite s_from_app by (rewrite zlen_app, zlen_put_u64; lia). cbn [bind fst snd vis].
      rewrite zlen_cons. ltb_true. change (x :: t) with ([x] ++ t). rewrite s_from_app by reflexivity. cbn [bind vis].
      now rewrite <- (block_from_bytes _ _ Bt).
  Qed.

  (** A length field of 8 bytes and the bytes it counts, at the start of a slice. *)
  Lemma counted_inv s lb n part rest : (s_len s < two63)%Z ->
    s_slice s 0 8 = Ok lb -> get_u64 lb = Ok n -> s_slice s 8 (i64 (8 + i64 n)) = Ok part -> s_from s (i64 (8 + i64 n)) = Ok rest ->
    vis s = put_u64 (zlen (vis part)) ++ vis part ++ vis rest /\ (s_len part < two63)%Z /\ (s_len rest < two63)%Z.
  Proof.
    intros L E1 E2 E3 E4. pose proof (s_slice_inv _ _ _ _ E3) as (R & _ & _). apply s_from_inv in E4 as (R2 & Er).
    pose proof (u64_delim n (s_len s) ltac:(lia) L) as D. rewrite D in *.
    pose proof (s_slice_inv_vis _ _ _ _ E3 ltac:(lia)) as Vc.
    pose proof (s_slice_inv_vis _ _ _ _ E1 ltac:(lia)) as Vs. change (Z.to_nat (8 - 0)) with 8 in Vs. cbn [Z.to_nat skipn] in Vs.
    apply get_u64_inv in E2 as (_ & Ez). unfold s_len, zlen in *.
    rewrite Vs, firstn_firstn in Ez. change (Nat.min 8 8) with 8 in Ez.
    assert (L8 : length (firstn 8 (vis s)) = 8) by (rewrite firstn_length; lia).
    change (Z.to_nat 8) with 8 in Vc. replace (8 + i64 n - 8)%Z with (i64 n) in Vc by lia.
    assert (Lc : length (vis part) = Z.to_nat (i64 n)) by (rewrite Vc, firstn_length, skipn_length; lia).
    split; [|split; [lia|rewrite Er; cbn [vis]; rewrite skipn_length; lia]].
    rewrite Lc. rewrite Z2Nat.id by lia. rewrite put_u64_i64. rewrite Vc, Er. cbn [vis].
    assert (Ep : put_u64 n = firstn 8 (vis s)) by (rewrite Ez; now apply put_u64_unle). rewrite Ep.
    replace (Z.to_nat (8 + i64 n)) with (Z.to_nat (i64 n) + 8) by lia. rewrite <- skipn_skipn.
    rewrite firstn_skipn. symmetry. apply firstn_skipn.
  Qed.

  Lemma i64_is z : is_i64 (i64 z). Proof. apply i64_range. Qed.

  Lemma commit_accepted v e c : (zlen v < two63)%Z ->
    (commit_of_content H mv (GSlice v e) = Ok c <->
     exists time values tail parent proof, v = commit_parts time (ht_content values) tail /\
       wf_ht values /\ is_i64 time /\ commit_end H tail parent proof /\ c = commit_now H mv values time parent proof).
  Proof.
    intros L. split.
    2:{ intros (time & values & tail & parent & proof & -> & Wv & Wt & Ce & ->). now apply commit_parts_ok. }
    intros E. unfold commit_of_content, commit_min_size in E. set (s := GSlice v e) in *.
    destruct (Z.ltb_spec (s_len s) 208) as [|L208]; [discriminate|].
    apply bind_Ok_inv in E as (tb & Etb & E). apply bind_Ok_inv in E as (tz & Etz & E).
    apply bind_Ok_inv in E as (vb & Evb & E). apply bind_Ok_inv in E as (vn & Evn & E).
    apply bind_Ok_inv in E as (vs & Evs & E). apply bind_Ok_inv in E as (values & Eva & E).
    apply bind_Ok_inv in E as (rem & Erem & E). apply bind_Ok_inv in E as (pr & Epr & E).
    apply bind_Ok_inv in E as (parent & Epa & E).
    (* the first 16 bytes and the values *)
    pose proof (s_slice_inv_vis _ _ _ _ Etb ltac:(lia)) as Vt. change (Z.to_nat (8 - 0)) with 8 in Vt. cbn [Z.to_nat skipn] in Vt.
    pose proof (s_slice_inv_vis _ _ _ _ Evb ltac:(lia)) as Vv. change (Z.to_nat (16 - 8)) with 8 in Vv. change (Z.to_nat 8) with 8 in Vv.
    pose proof (s_slice_inv _ _ _ _ Evs) as (R & _ & _). pose proof (s_from_inv _ _ _ Erem) as (R2 & Er).
    change (s_len s) with (zlen v) in *. change (vis s) with v in *.
    assert (D : i64 (16 + i64 vn) = (16 + i64 vn)%Z).
    { pose proof (i64_range vn) as Rn.
      assert (C : ((16 + i64 vn) mod two64 = 16 + i64 vn \/ 16 + i64 vn < 0)%Z).
      { destruct (Z.lt_ge_cases (16 + i64 vn) 0); auto. left. apply Z.mod_small. rewrite two63_val, two64_val in *. lia. }
      destruct C as [C|C].
      - unfold i64 at 1. unfold i64 at 1 in R. rewrite C in *. destruct (Z.ltb_spec (16 + i64 vn) two63); [lia|].
        rewrite two63_val, two64_val in *. lia.
      - exfalso. unfold i64 at 1 in R2.
        assert (Em : ((16 + i64 vn) mod two64 = 16 + i64 vn + two64)%Z).
        { symmetry. apply (Z.mod_unique _ _ (-1)); rewrite two63_val, two64_val in *; lia. }
        rewrite Em in R2. rewrite two63_val, two64_val in *.
        destruct (Z.ltb_spec (16 + i64 vn + 18446744073709551616) 9223372036854775808); lia. }
    rewrite D in *. pose proof (s_slice_inv_vis _ _ _ _ Evs ltac:(change (s_len s) with (zlen v); lia)) as Vs. change (vis s) with v in Vs.
    assert (Lvs : (s_len vs < two63)%Z).
    { unfold s_len, zlen in *. rewrite Vs, firstn_length, skipn_length. lia. }
    destruct (ht_canonical H _ _ _ Eva Lvs) as (Wv & Cv).
    apply get_u64_inv in Etz as (_ & Etz). apply get_u64_inv in Evn as (_ & Evn). unfold zlen in L208, R, R2.
    rewrite Vt, firstn_firstn in Etz. change (Nat.min 8 8) with 8 in Etz.
    rewrite Vv, firstn_firstn in Evn. change (Nat.min 8 8) with 8 in Evn.
    assert (L8 : length (firstn 8 v) = 8) by (rewrite firstn_length; lia).
    assert (L9 : length (firstn 8 (skipn 8 v)) = 8) by (rewrite firstn_length, skipn_length; lia).
    assert (Pt : put_u64 tz = firstn 8 v) by (rewrite Etz; now apply put_u64_unle).
    assert (Pv : put_u64 vn = firstn 8 (skipn 8 v)) by (rewrite Evn; now apply put_u64_unle).
    replace (16 + i64 vn - 16)%Z with (i64 vn) in Vs by lia. change (Z.to_nat 16) with (8 + 8) in Vs. rewrite <- skipn_skipn in Vs.
    assert (Lv : length (vis vs) = Z.to_nat (i64 vn)) by (rewrite Vs, firstn_length, !skipn_length; lia).
    assert (Vr : vis rem = skipn (Z.to_nat (i64 vn)) (skipn 8 (skipn 8 v))).
    { rewrite Er. cbn [vis]. replace (Z.to_nat (16 + i64 vn)) with (Z.to_nat (i64 vn) + (8 + 8)) by lia. now rewrite <- !skipn_skipn. }
    assert (Ev : v = commit_parts (i64 tz) (ht_content values) (vis rem)).
    { unfold commit_parts. rewrite Cv, put_u64_i64, Pt. unfold zlen. rewrite Lv, Z2Nat.id by lia. rewrite put_u64_i64, Pv, Vs, Vr.
      rewrite firstn_skipn. rewrite firstn_skipn. symmetry. apply firstn_skipn. }
    assert (Lrem : (s_len rem < two63)%Z).
    { unfold s_len. rewrite Er. cbn [vis]. unfold zlen in *. rewrite skipn_length. lia. }
    assert (Hc : c = commit_now H mv values (i64 tz) parent (fst pr)) by congruence.
    exists (i64 tz), values, (vis rem), parent, (fst pr). split; [exact Ev|]. split; [exact Wv|]. split; [apply i64_is|]. split; [|exact Hc].
    (* the end *)
    clear - Epr Epa Lrem.
    destruct (Z.ltb_spec 0 (s_len rem)) as [Lp|Lp].
    2:{ injection Epr as <-. cbn [fst snd] in *. destruct (Z.ltb_spec 0 (s_len rem)); [lia|]. injection Epa as <-.
        unfold s_len, zlen in Lp. destruct (vis rem); [constructor|cbn [length] in Lp; lia]. }
    apply bind_Ok_inv in Epr as (fb & Efb & Epr).
    pose proof (s_slice_inv_vis _ _ _ _ Efb ltac:(lia)) as Vf. change (Z.to_nat (1 - 0)) with 1 in Vf. cbn [Z.to_nat skipn] in Vf.
    destruct (vis rem) as [|x t] eqn:Ex; [unfold s_len, zlen in Lp; rewrite Ex in Lp; cbn in Lp; lia|].
    cbn [firstn] in Vf. rewrite Vf in Epr.
    destruct (Byte.eqb x (byte_of_Z 0)) eqn:Q.
    - apply byte_eqb_true in Q. subst x. change (byte_of_Z 0) with x00 in *.
      apply bind_Ok_inv in Epr as (rem1 & E1 & Epr). apply bind_Ok_inv in Epr as (lb & E2 & Epr).
      apply bind_Ok_inv in Epr as (n & E3 & Epr). apply bind_Ok_inv in Epr as (pb & E4 & Epr).
      apply bind_Ok_inv in Epr as (rem2 & E5 & Epr). injection Epr as <-. cbn [fst snd] in *.
      assert (V1 : vis rem1 = t).
      { apply s_from_inv in E1 as (_ & ->). cbn [vis]. rewrite Ex. reflexivity. }
      assert (Lr1 : (s_len rem1 < two63)%Z).
      { unfold s_len, zlen in *. rewrite V1. rewrite Ex in Lrem. cbn [length] in Lrem. lia. }
      destruct (counted_inv _ _ _ _ _ Lr1 E2 E3 E4 E5) as (Vt & _ & _). rewrite V1 in Vt. rewrite Vt.
      destruct (Z.ltb_spec 0 (s_len rem2)) as [Lq|Lq].
      + apply bind_Ok_inv in Epa as (hb & Eh & Epa). injection Epa as <-.
        apply s_from_inv in Eh as (_ & ->). cbn [vis]. unfold s_len, zlen in Lq.
        destruct (vis rem2) as [|y u]; [cbn in Lq; lia|]. change (skipn (Z.to_nat 1) (y :: u)) with u.
        apply ce_both. apply from_bytes_block.
      + injection Epa as <-. unfold s_len, zlen in Lq. destruct (vis rem2); [|cbn [length] in Lq; lia]. rewrite app_nil_r. constructor.
    - injection Epr as <-. cbn [fst snd] in *. destruct (Z.ltb_spec 0 (s_len rem)); [|lia].
      apply bind_Ok_inv in Epa as (hb & Eh & Epa). injection Epa as <-. apply s_from_inv in Eh as (_ & ->). cbn [vis]. rewrite Ex.
      change (skipn (Z.to_nat 1) (x :: t)) with t. constructor; [|apply from_bytes_block].
      intros ->. change (byte_of_Z 0) with x00 in Q. rewrite (proj2 (byte_eqb_true _ _) eq_refl) in Q. discriminate.
  Qed.

  Definition commit_form (p : bytes) (c : commit) : Prop :=
    exists time values tail parent proof, p = commit_parts time (ht_content values) tail /\
      wf_ht values /\ is_i64 time /\ commit_end H tail parent proof /\ c = commit_now H mv values time parent proof.

  Lemma commit_form_length p c : commit_form p c -> 216 <= length p.
  Proof.
    intros (t & v & tl & pa & pr & -> & W & _). unfold commit_parts. rewrite !app_length, !put_u64_length.
    pose proof (ht_content_zlen v W). unfold zlen in *. lia.
  Qed.

  Lemma i64_delim n lo len : (0 <= lo)%Z -> (lo <= i64 (lo + i64 n) <= len)%Z -> (len < two63)%Z -> i64 (lo + i64 n) = (lo + i64 n)%Z.
  Proof.
    intros P R L. pose proof (i64_range n) as Rn.
    assert (C : ((lo + i64 n) mod two64 = lo + i64 n \/ lo + i64 n < 0)%Z).
    { destruct (Z.lt_ge_cases (lo + i64 n) 0); auto. left. apply Z.mod_small. rewrite two63_val, two64_val in *. lia. }
    destruct C as [C|C].
    - unfold i64 at 1. unfold i64 at 1 in R. rewrite C in *. destruct (Z.ltb_spec (lo + i64 n) two63); [lia|].
      rewrite two63_val, two64_val in *. lia.
    - exfalso. unfold i64 at 1 in R.
      assert (Em : ((lo + i64 n) mod two64 = lo + i64 n + two64)%Z).
      { symmetry. apply (Z.mod_unique _ _ (-1)); rewrite two63_val, two64_val in *; lia. }
      rewrite Em in R. rewrite two63_val, two64_val in *.
      destruct (Z.ltb_spec (lo + i64 n + 18446744073709551616) 9223372036854775808); lia.
  Qed.

  Lemma commits_loop_inv f : forall v e index l, (zlen v < two63)%Z -> (0 <= index)%Z ->
    commits_loop H mv f (GSlice v e) index = Ok l ->
    exists parts, skipn (Z.to_nat index) v = counted parts /\ Forall2 commit_form parts l.
  Proof.
    induction f as [|f IH]; intros v e index l L P E; cbn [commits_loop] in E; [discriminate|]. set (s := GSlice v e) in *.
    apply bind_Ok_inv in E as (r & Er & E). apply s_from_inv in Er as (R0 & Er). change (vis s) with v in *. change (s_len s) with (zlen v) in *.
    destruct (Z.leb_spec (s_len r) 0) as [Z0|Z0].
    - injection E as <-. exists []. split; [|constructor]. rewrite Er in Z0. unfold s_len, zlen in Z0. cbn [vis] in Z0.
      destruct (skipn (Z.to_nat index) v); [reflexivity|cbn [length] in Z0; lia].
    - apply bind_Ok_inv in E as (lb & E1 & E). apply bind_Ok_inv in E as (n & E2 & E). apply bind_Ok_inv in E as (cs & E3 & E).
      apply bind_Ok_inv in E as (c & E4 & E). apply bind_Ok_inv in E as (l' & E5 & E). injection E as <-.
      pose proof (s_slice_inv _ _ _ _ E3) as (R & _ & _).
      assert (R2 : (i64 (index + 8 + i64 n) <= zlen v)%Z).
      { destruct f as [|f]; [discriminate|]. cbn [commits_loop] in E5. apply bind_Ok_inv in E5 as (r' & Er' & _).
        apply s_from_inv in Er' as (X & _). apply X. }
      pose proof (i64_delim n (index + 8) (zlen v) ltac:(lia) ltac:(lia) L) as D. rewrite D in E3, E5, R, R2.
      pose proof (s_slice_inv_vis _ _ _ _ E3 ltac:(change (s_len s) with (zlen v); lia)) as Vc. change (vis s) with v in Vc.
      pose proof (s_slice_inv_vis _ _ _ _ E1 ltac:(change (s_len s) with (zlen v); lia)) as Vs. change (vis s) with v in Vs.
      replace (Z.to_nat (index + 8 - index)) with 8 in Vs by lia.
      replace (Z.to_nat (index + 8 + i64 n - (index + 8))) with (Z.to_nat (i64 n)) in Vc by lia.
      replace (Z.to_nat (index + 8)) with (8 + Z.to_nat index) in Vc by lia. rewrite <- skipn_skipn in Vc.
      destruct (IH v e (index + 8 + i64 n)%Z l' L ltac:(lia) E5) as (parts & Ep & Fp).
      set (w := skipn (Z.to_nat index) v) in *.
      assert (Lw : length w = length v - Z.to_nat index) by (unfold w; now rewrite skipn_length).
      unfold zlen in R2, R0. assert (L8 : length (firstn 8 w) = 8) by (rewrite firstn_length; lia).
      apply get_u64_inv in E2 as (_ & Ez). rewrite Vs, firstn_firstn in Ez. change (Nat.min 8 8) with 8 in Ez.
      assert (Ln : length (vis cs) = Z.to_nat (i64 n)) by (rewrite Vc, firstn_length, skipn_length; lia).
      assert (Lcs : (s_len cs < two63)%Z) by (unfold s_len, zlen in *; lia).
      assert (Fc : commit_form (vis cs) c).
      { apply (commit_accepted (vis cs) (ext cs) c); [exact Lcs|]. destruct cs. exact E4. }
      exists (vis cs :: parts). split; [|now constructor].
      change (counted (vis cs :: parts)) with ((put_u64 (zlen (vis cs)) ++ vis cs) ++ counted parts). rewrite <- Ep.
      unfold zlen. rewrite Ln. rewrite Z2Nat.id by lia. rewrite put_u64_i64.
      assert (Eu : put_u64 n = firstn 8 w) by (rewrite Ez; now apply put_u64_unle). rewrite Eu.
      replace (Z.to_nat (index + 8 + i64 n)) with (Z.to_nat (i64 n) + (8 + Z.to_nat index)) by lia.
      rewrite <- !skipn_skipn. fold w. rewrite Vc, <- app_assoc, firstn_skipn. symmetry. apply firstn_skipn.
  Qed.

  Lemma commits_loop_ok parts : forall l f p e, Forall2 commit_form parts l -> (zlen (p ++ counted parts) < two63)%Z -> length parts < f ->
    commits_loop H mv f (GSlice (p ++ counted parts) e) (zlen p) = Ok l.
  Proof.
    induction parts as [|q parts IH]; intros l f p e F L Lf; (destruct f as [|f]; [lia|]); cbn [commits_loop]; inversion F as [|? c ? l' Fq Fl]; subst.
    - rewrite s_from_app by reflexivity. reflexivity.
    - rewrite s_from_app by reflexivity. cbn [bind]. pose proof (commit_form_length _ _ Fq) as Lq.
      change (counted (q :: parts)) with ((put_u64 (zlen q) ++ q) ++ counted parts) in *.
      pose proof (zlen_nonneg (counted parts)). pose proof (zlen_nonneg p). pose proof (zlen_nonneg q).
      rewrite !zlen_app, zlen_put_u64 in L. unfold s_len; cbn [vis]. rewrite !zlen_app, zlen_put_u64.
      replace (8 + zlen q + zlen (counted parts) <=? 0)%Z with false by (symmetry; apply Z.leb_gt; lia).
      rewrite <- app_assoc. rewrite s_slice_mid by (rewrite ?zlen_put_u64; lia). cbn [bind].
      rewrite get_u64_put_only. cbn [bind]. rewrite i64_mod.
      rewrite (i64_small (zlen q)) by lia. rewrite (i64_small (zlen p + 8 + zlen q)) by lia.
      rewrite (app_assoc p). rewrite s_slice_mid by (rewrite zlen_app, zlen_put_u64; lia). cbn [bind].
      match goal with |- context [commit_of_content H mv (GSlice q ?x)] =>
        rewrite (proj2 (commit_accepted q x c ltac:(lia)) Fq) end. cbn [bind].
      rewrite (app_assoc _ q). replace (zlen p + 8 + zlen q)%Z with (zlen ((p ++ put_u64 (zlen q)) ++ q)) by (rewrite !zlen_app, zlen_put_u64; lia).
      rewrite (IH l'); auto.
      + rewrite !zlen_app, zlen_put_u64. lia.
      + cbn [length] in Lf. lia.
  Qed.

  Lemma counted_length parts l : Forall2 commit_form parts l -> 224 * length parts <= length (counted parts).
  Proof.
    induction 1 as [|p c parts l F _ IH]; [cbn; lia|]. change (counted (p :: parts)) with ((put_u64 (zlen p) ++ p) ++ counted parts).
    rewrite !app_length, put_u64_length. pose proof (commit_form_length _ _ F). cbn [length]. lia.
  Qed.

  Lemma commits_accepted v e l : (zlen v < two63)%Z ->
    (commits_of_content H mv (GSlice v e) = Ok l <->
     l <> [] /\ exists parts, v = counted parts /\ Forall2 commit_form parts l).
  Proof.
    intros L. unfold commits_of_content, s_len, commit_min_size. cbn [vis]. split.
    - intros E. destruct (Z.ltb_spec (zlen v) (8 + 208)); [discriminate|].
      apply bind_Ok_inv in E as (l' & El & E). unfold commits_now in E. destruct l' as [|c l']; [discriminate|]. injection E as <-.
      split; [discriminate|]. destruct (commits_loop_inv _ _ _ _ _ L (Z.le_refl 0) El) as (parts & Ep & F). exists parts. auto.
    - intros (N & parts & -> & F). pose proof (counted_length _ _ F) as Lc.
      assert (length parts <> 0) by (destruct F; cbn; [congruence|lia]).
      replace (zlen (counted parts) <? 8 + 208)%Z with false by (symmetry; apply Z.ltb_ge; unfold zlen; lia).
      rewrite (commits_loop_ok parts l _ [] e F); auto.
      + cbn [bind]. destruct l; [congruence|reflexivity].
      + unfold slice_fuel. cbn [vis ext]. lia.
  Qed.

  Lemma u64_plus n lo len : (0 <= n < two64)%Z -> (0 <= lo <= i64 (n + lo))%Z -> (i64 (n + lo) <= len)%Z -> (len < two63)%Z -> (lo < two63)%Z ->
    i64 (n + lo) = (n + lo)%Z.
  Proof.
    intros Rn R R2 L Ll. unfold i64 in *.
    destruct (Z.lt_ge_cases (n + lo) two64).
    - rewrite Z.mod_small in * by lia. destruct (Z.ltb_spec (n + lo) two63); auto. rewrite two63_val, two64_val in *. lia.
    - exfalso. assert (Em : ((n + lo) mod two64 = n + lo - two64)%Z).
      { symmetry. apply (Z.mod_unique _ _ 1); rewrite two63_val, two64_val in *; lia. }
      rewrite Em in *. destruct (Z.ltb_spec (n + lo - two64) two63); rewrite two63_val, two64_val in *; lia.
  Qed.

  Lemma reference_accepted v e r : (zlen (v ++ e) < two63)%Z ->
    (reference_of_content H mv (GSlice v e) = Ok r <->
     exists kb cb after, v = put_u64 (zlen kb) ++ kb ++ put_u64 (zlen cb) ++ cb ++ after /\
       keys_of_content H (GSlice kb (put_u64 (zlen cb) ++ cb ++ after ++ e)) = Ok (r_keys r) /\
       commits_of_content H mv (GSlice cb (after ++ e)) = Ok (r_commits r)).
  Proof.
    intros L. rewrite zlen_app in L. pose proof (zlen_nonneg v) as Zv. pose proof (zlen_nonneg e) as Ze. split.
    - intros E. unfold reference_of_content, min_reference_size in E. set (s := GSlice v e) in *.
      destruct (Z.ltb_spec (s_len s) 360) as [|L360]; [discriminate|]. change (s_len s) with (zlen v) in *.
      apply bind_Ok_inv in E as (lb & E1 & E). apply bind_Ok_inv in E as (n & E2 & E).
      destruct (Z.ltb_spec (zlen v) (i64 (n + 8))) as [|K]; [discriminate|].
      apply bind_Ok_inv in E as (ks & E3 & E). apply bind_Ok_inv in E as (keys & E4 & E).
      apply bind_Ok_inv in E as (cb & E5 & E). apply bind_Ok_inv in E as (m & E6 & E).
      destruct (Z.ltb_spec (zlen v) (i64 (m + (i64 (n + 8) + 8)))) as [|C]; [discriminate|].
      apply bind_Ok_inv in E as (cs & E7 & E). apply bind_Ok_inv in E as (commits & E8 & E). injection E as <-. cbn [r_keys r_commits].
      pose proof (s_slice_inv _ _ _ _ E3) as (R3 & _ & V3). pose proof (s_slice_inv _ _ _ _ E7) as (R7 & _ & V7).
      assert (Rn : (0 <= n < two64)%Z).
      { apply get_u64_inv in E2 as (X & ->). apply unle_8_range. unfold s_len, zlen in X. rewrite firstn_length. lia. }
      assert (Rm : (0 <= m < two64)%Z).
      { apply get_u64_inv in E6 as (X & ->). apply unle_8_range. unfold s_len, zlen in X. rewrite firstn_length. lia. }
      assert (T8 : (8 < two63)%Z) by (rewrite two63_val; lia).
      pose proof (u64_plus n 8 (zlen v) Rn ltac:(lia) ltac:(lia) ltac:(lia) T8) as D1. rewrite D1 in E3, E5, E7, R3, R7, K, C, V3, V7.
      pose proof (u64_plus m (n + 8 + 8) (zlen v) Rm ltac:(lia) ltac:(lia) ltac:(lia) ltac:(lia)) as D2. rewrite D2 in E7, R7, C, V7.
      change (vis s) with v in *. change (ext s) with e in *.
      pose proof (s_slice_inv_vis _ _ _ _ E1 ltac:(change (s_len s) with (zlen v); lia)) as V1. change (vis s) with v in V1.
      pose proof (s_slice_inv_vis _ _ _ _ E5 ltac:(change (s_len s) with (zlen v); lia)) as V5. change (vis s) with v in V5.
      change (Z.to_nat (8 - 0)) with 8 in V1. cbn [Z.to_nat skipn] in V1.
      replace (Z.to_nat (n + 8 + 8 - (n + 8))) with 8 in V5 by lia.
      apply get_u64_inv in E2 as (_ & En). apply get_u64_inv in E6 as (_ & Em).
      rewrite V1, firstn_firstn in En. change (Nat.min 8 8) with 8 in En.
      rewrite V5, firstn_firstn in Em. change (Nat.min 8 8) with 8 in Em.
      unfold zlen in C, L, K. replace (Z.to_nat (n + 8)) with (Z.to_nat n + 8) in * by lia.
      set (a := Z.to_nat n) in *. set (b := Z.to_nat m) in *.
      set (w1 := skipn 8 v). assert (Lw1 : length w1 = length v - 8) by (unfold w1; now rewrite skipn_length).
      set (w2 := skipn a w1). assert (Lw2 : length w2 = length v - 8 - a) by (unfold w2; rewrite skipn_length; lia).
      set (w3 := skipn 8 w2). assert (Lw3 : length w3 = length v - 8 - a - 8) by (unfold w3; rewrite skipn_length; lia).
      assert (Ew2 : skipn (a + 8) v = w2) by (unfold w2, w1; now rewrite skipn_skipn).
      rewrite Ew2 in V5, Em.
      assert (L1 : length (firstn 8 v) = 8) by (rewrite firstn_length; lia).
      assert (L2 : length (firstn 8 w2) = 8) by (rewrite firstn_length; lia).
      assert (Pn : put_u64 n = firstn 8 v) by (rewrite En; now apply put_u64_unle).
      assert (Pm : put_u64 m = firstn 8 w2) by (rewrite Em; now apply put_u64_unle).
      assert (Lk : length (firstn a w1) = a) by (rewrite firstn_length; lia).
      assert (Lc : length (firstn b w3) = b) by (rewrite firstn_length; lia).
      assert (Zk : zlen (firstn a w1) = n) by (unfold zlen; lia).
      assert (Zc : zlen (firstn b w3) = m) by (unfold zlen; lia).
      assert (Ev : v = put_u64 n ++ firstn a w1 ++ put_u64 m ++ firstn b w3 ++ skipn b w3).
      { rewrite Pn, Pm. rewrite firstn_skipn. unfold w3. rewrite firstn_skipn. unfold w2. rewrite firstn_skipn. unfold w1. symmetry. apply firstn_skipn. }
      exists (firstn a w1), (firstn b w3), (skipn b w3). rewrite Zk, Zc. split; [exact Ev|].
      clearbody a b w1 w2 w3. clear Ew2 Pn Pm V1 V5 En Em.
      assert (Es : s = GSlice (put_u64 n ++ firstn a w1 ++ put_u64 m ++ firstn b w3 ++ skipn b w3) e) by (unfold s; now rewrite <- Ev).
      split.
      + rewrite Es, s_slice_mid in E3 by (rewrite ?zlen_put_u64; lia). injection E3 as <-. rewrite <- !app_assoc in E4. exact E4.
      + rewrite Es in E7. rewrite (app_assoc (put_u64 n)), (app_assoc (put_u64 n ++ _)) in E7.
        rewrite s_slice_mid in E7 by (rewrite ?zlen_app, ?zlen_put_u64; lia). injection E7 as <-. exact E8.
    - intros (kb & cb & after & -> & Ek & Ec). pose proof (zlen_nonneg after).
      assert (Lk : (160 <= zlen kb)%Z).
      { unfold keys_of_content, s_len, content_key_size in Ek. cbn [vis] in Ek. destruct (Z.ltb_spec (zlen kb) (8 + 152)); [discriminate|lia]. }
      assert (Lc : (216 <= zlen cb)%Z).
      { unfold commits_of_content, s_len, commit_min_size in Ec. cbn [vis] in Ec. destruct (Z.ltb_spec (zlen cb) (8 + 208)); [discriminate|lia]. }
      rewrite !zlen_app, !zlen_put_u64 in L.
      unfold reference_of_content, s_len, min_reference_size; cbn [vis]. rewrite !zlen_app, !zlen_put_u64. ltb_false.
      rewrite s_slice_pre by (symmetry; apply zlen_put_u64). cbn [bind].
      rewrite get_u64_put_only. cbn [bind].
      rewrite u64_mod by (unfold is_u64; rewrite two63_val, two64_val in *; lia).
      rewrite (i64_small (zlen kb + 8)) by lia. ltb_false.
      rewrite s_slice_mid by (rewrite ?zlen_put_u64; lia). cbn [bind].
      rewrite <- !app_assoc, Ek. cbn [bind].
      rewrite (app_assoc (put_u64 _) kb).
      rewrite s_slice_mid by (rewrite ?zlen_app, ?zlen_put_u64; lia). cbn [bind].
      rewrite get_u64_put_only. cbn [bind].
      rewrite u64_mod by (unfold is_u64; rewrite two63_val, two64_val in *; lia).
      rewrite (i64_small (zlen cb + (zlen kb + 8 + 8))) by lia. ltb_false.
      rewrite (app_assoc (put_u64 _ ++ kb)).
      rewrite s_slice_mid by (rewrite ?zlen_app, ?zlen_put_u64; lia). cbn [bind].
      rewrite Ec. cbn [bind]. destruct r; reflexivity.
  Qed.
End Canon.
