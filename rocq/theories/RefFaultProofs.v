(** Proofs about the bytes that the decoders of contents and keys refuse, and those on which they panic (C181). *)
From Coq Require Import List ZArith NArith Lia Bool.
From Coq Require Import Init.Byte Strings.Byte.
From Verif Require Import Base BaseLemmas HashModel HashProofs SpecHash HashTreeModel HashTreeProofs
  RefModel RefProofs SpecRef SpecCanon SpecFault RefCanonProofs.
Import ListNotations.

Section Faults.
  Variable H : bytes -> bytes.

  Lemma slice_in s lo hi : (0 <= lo <= hi)%Z -> (hi <= s_cap s)%Z -> exists r, s_slice s lo hi = Ok r /\ s_len r = (hi - lo)%Z.
  Proof.
    intros A B. destruct (s_slice s lo hi) as [r| | |] eqn:E.
    - exists r. split; [reflexivity|]. eapply s_slice_inv_len; eauto.
    - unfold s_slice in E. destruct (_ && _)%bool; discriminate.
    - unfold s_slice in E. rewrite (proj2 (Z.leb_le 0 lo)), (proj2 (Z.leb_le lo hi)), (proj2 (Z.leb_le hi (s_cap s))) in E by lia. discriminate.
    - unfold s_slice in E. destruct (_ && _)%bool; discriminate.
  Qed.

  Lemma slice_out s lo hi : (lo < 0 \/ hi < lo \/ s_cap s < hi)%Z -> s_slice s lo hi = Panic.
  Proof.
    intros A. unfold s_slice. destruct (Z.leb_spec 0 lo), (Z.leb_spec lo hi), (Z.leb_spec hi (s_cap s)); cbn [andb]; try reflexivity. lia.
  Qed.

  Lemma from_in s lo : (0 <= lo <= s_len s)%Z -> exists r, s_from s lo = Ok r /\ s_len r = (s_len s - lo)%Z.
  Proof.
    intros A. destruct (s_from s lo) as [r| | |] eqn:E; try (unfold s_from in E;
      rewrite (proj2 (Z.leb_le 0 lo)), (proj2 (Z.leb_le lo (s_len s))) in E by lia; discriminate).
    exists r. split; [reflexivity|]. eapply s_from_inv_len; eauto.
  Qed.

  Lemma from_out s lo : (lo < 0 \/ s_len s < lo)%Z -> s_from s lo = Panic.
  Proof. intros A. unfold s_from. destruct (Z.leb_spec 0 lo), (Z.leb_spec lo (s_len s)); cbn [andb]; try reflexivity. lia. Qed.

  Lemma get_in s : (8 <= s_len s)%Z -> get_u64 s = Ok (unle (firstn 8 (vis s))).
  Proof. intros A. unfold get_u64. now rewrite (proj2 (Z.ltb_ge (s_len s) 8)) by lia. Qed.

  Lemma cap_len s : (s_len s <= s_cap s)%Z.
  Proof. unfold s_len, s_cap. pose proof (zlen_nonneg (ext s)). lia. Qed.

  Lemma pointer_decides s : pointer_of_content s <> Panic.
  Proof.
    unfold pointer_of_content, pointer_size. destruct (Z.eqb_spec (s_len s) 16) as [L|L]; cbn [negb]; [|discriminate].
    pose proof (cap_len s). destruct (slice_in s 0 8 ltac:(lia) ltac:(lia)) as (a & Ea & La). rewrite Ea. cbn [bind].
    rewrite get_in by lia. cbn [bind]. destruct (from_in s 8 ltac:(lia)) as (b & Eb & Lb). rewrite Eb. cbn [bind].
    rewrite get_in by lia. cbn [bind]. unfold pointer_now. destruct (_ <=? _)%Z; discriminate.
  Qed.

  Lemma key_decides s : key_of_content H s <> Panic.
  Proof.
    unfold key_of_content, content_key_size. destruct (Z.eqb_spec (s_len s) 152) as [L|L]; cbn [negb]; [|discriminate].
    pose proof (cap_len s). destruct (slice_in s 0 64 ltac:(lia) ltac:(lia)) as (a & Ea & La). rewrite Ea. cbn [bind].
    destruct (slice_in s 64 72 ltac:(lia) ltac:(lia)) as (b & Eb & Lb). rewrite Eb. cbn [bind].
    rewrite get_in by lia. cbn [bind]. destruct (slice_in s 72 88 ltac:(lia) ltac:(lia)) as (c & Ec & Lc). rewrite Ec. cbn [bind].
    pose proof (pointer_decides c). destruct (pointer_of_content c); cbn [bind]; try congruence.
    destruct (slice_in s 88 152 ltac:(lia) ltac:(lia)) as (d & Ed & Ld). rewrite Ed. discriminate.
  Qed.

  Lemma content_long s : (73 <= s_len s)%Z -> exists c, content_of_content H s = Ok c.
  Proof.
    intros L. unfold content_of_content, min_content_size. rewrite (proj2 (Z.ltb_ge (s_len s) 73)) by lia.
    pose proof (cap_len s). destruct (slice_in s 0 64 ltac:(lia) ltac:(lia)) as (a & Ea & La). rewrite Ea. cbn [bind].
    destruct (slice_in s 64 72 ltac:(lia) ltac:(lia)) as (b & Eb & Lb). rewrite Eb. cbn [bind].
    rewrite get_in by lia. cbn [bind]. destruct (from_in s 72 ltac:(lia)) as (d & Ed & Ld). rewrite Ed. cbn [bind].
    unfold content_now. destruct (vis d) eqn:Ev; [|eauto]. unfold s_len, zlen in Ld. rewrite Ev in Ld. cbn [length] in Ld. unfold s_len, zlen in L. lia.
  Qed.

  Lemma content_short s : (s_len s < 73)%Z -> content_of_content H s = Err.
  Proof. intros L. unfold content_of_content, min_content_size. now rewrite (proj2 (Z.ltb_lt (s_len s) 73)). Qed.

  (** One turn of the loop over contents. *)
  Lemma loop_head f v e : v <> [] -> (zlen (v ++ e) < two63)%Z ->
    contents_loop H (S f) (GSlice v e) =
      (if (zlen (v ++ e) <? 8)%Z then Panic
       else let n := unle (firstn 8 (v ++ e)) in
         if (zlen (v ++ e) - 8 <? n)%Z then Panic
         else if (n <? 73)%Z then Err
         else if (zlen v - 8 <? n)%Z then Panic
         else do c <- content_of_content H (GSlice (firstn (Z.to_nat n) (skipn 8 (v ++ e))) (skipn (Z.to_nat (8 + n)) (v ++ e)));
              do l <- contents_loop H f (GSlice (skipn (Z.to_nat (8 + n)) v) e); Ok (c :: l)).
  Proof.
    intros N L. cbn [contents_loop].
    assert (Lv : (0 < zlen v)%Z) by (destruct v; [congruence|unfold zlen; cbn [length]; lia]).
    unfold s_len at 1. cbn [vis]. rewrite (proj2 (Z.leb_gt (zlen v) 0)) by lia.
    assert (Cap : s_cap (GSlice v e) = zlen (v ++ e)) by (unfold s_cap; cbn [vis ext]; now rewrite zlen_app).
    destruct (Z.ltb_spec (zlen (v ++ e)) 8) as [S8|S8]; [now rewrite slice_out by (rewrite Cap; lia)|].
    destruct (slice_in (GSlice v e) 0 8 ltac:(lia) ltac:(rewrite Cap; lia)) as (sb & Es & Ls). rewrite Es. cbn [bind].
    rewrite get_in by lia. cbn [bind]. apply s_slice_inv in Es as (_ & _ & ->). cbn [vis ext]. change (Z.to_nat (8 - 0)) with 8. change (Z.to_nat 0) with 0. rewrite skipn_O.
    rewrite firstn_firstn. change (Nat.min 8 8) with 8. set (n := unle (firstn 8 (v ++ e))).
    assert (Rn : (0 <= n < two64)%Z).
    { apply unle_8_range. rewrite firstn_length. unfold zlen in S8. lia. }
    cbv zeta. unfold two63, two64 in *. destruct (Z.ltb_spec (zlen (v ++ e) - 8) n) as [Big|Big].
    - rewrite slice_out; [reflexivity|]. rewrite Cap. unfold i64, two63, two64.
      repeat match goal with |- context [(?a <? ?b)%Z] => destruct (Z.ltb_spec a b) end; Z.div_mod_to_equations; lia.
    - rewrite (i64_small n), (i64_small (8 + n)) by (unfold two63; lia).
      destruct (slice_in (GSlice v e) 8 (8 + n) ltac:(lia) ltac:(rewrite Cap; lia)) as (cs & Ec & Lc). rewrite Ec. cbn [bind].
      destruct (Z.ltb_spec n 73) as [Sm|Sm]; [now rewrite content_short by lia|].
      apply s_slice_inv in Ec as (_ & _ & Ec). cbn [vis ext] in Ec. replace (8 + n - 8)%Z with n in Ec by lia. change (Z.to_nat 8) with 8 in Ec.
      rewrite <- Ec. destruct (content_long cs ltac:(lia)) as (c & Cc). rewrite Cc. cbn [bind].
      destruct (Z.ltb_spec (zlen v - 8) n) as [Lo|Lo].
      + rewrite from_out by (unfold s_len; cbn [vis]; lia). reflexivity.
      + destruct (from_in (GSlice v e) (8 + n) ltac:(unfold s_len; cbn [vis]; lia)) as (r & Er & _). rewrite Er. cbn [bind].
        apply s_from_inv in Er as (_ & ->). reflexivity.
  Qed.

  Lemma loop_part f p rest e : 73 <= length p -> (zlen ((put_u64 (zlen p) ++ p ++ rest) ++ e) < two63)%Z ->
    (contents_loop H (S f) (GSlice (put_u64 (zlen p) ++ p ++ rest) e) = Panic <-> contents_loop H f (GSlice rest e) = Panic).
  Proof.
    intros Lp L. rewrite loop_head; [|intros X; apply (f_equal (@length byte)) in X; rewrite app_length, put_u64_length in X; cbn [length] in X; lia|exact L].
    rewrite <- !app_assoc in *. rewrite !zlen_app, !zlen_put_u64 in *.
    pose proof (zlen_nonneg p). pose proof (zlen_nonneg rest). pose proof (zlen_nonneg e).
    rewrite (proj2 (Z.ltb_ge _ 8)) by lia. cbv zeta. rewrite firstn_app_exact by apply put_u64_length.
    unfold two63 in *. assert (Z73 : (73 <= zlen p)%Z) by (unfold zlen; lia).
    replace (unle (put_u64 (zlen p))) with (zlen p).
    2: { rewrite unle_put_u64. symmetry. apply Z.mod_small. unfold two64. lia. }
    repeat match goal with |- context [if (?a <? ?b)%Z then _ else _] => rewrite (proj2 (Z.ltb_ge a b)) by lia end.
    match goal with |- context [content_of_content H ?s] => destruct (content_long s) as (c & Cc) end.
    { unfold s_len. cbn [vis]. rewrite skipn_app_exact by apply put_u64_length. unfold zlen. rewrite firstn_length, app_length. lia. }
    rewrite Cc. cbn [bind].
    replace (skipn (Z.to_nat (8 + zlen p)) (put_u64 (zlen p) ++ p ++ rest)) with rest.
    2: { rewrite app_assoc. symmetry. apply skipn_app_exact. rewrite app_length, put_u64_length. unfold zlen. lia. }
    destruct (contents_loop H f (GSlice rest e)); cbn [bind]; split; congruence.
  Qed.

  Lemma loop_panics f : forall v e, (zlen (v ++ e) < two63)%Z -> length v < f ->
    (contents_loop H f (GSlice v e) = Panic <->
     exists parts rest, v = counted parts ++ rest /\ Forall (fun p => 73 <= length p) parts /\ trips 73 rest e).
  Proof.
    induction f as [|f IH]; intros v e L F; [lia|]. split.
    - intros E. destruct v as [|b v']; [discriminate|]. set (v := b :: v') in *.
      assert (N : v <> []) by discriminate. rewrite loop_head in E by auto.
      destruct (Z.ltb_spec (zlen (v ++ e)) 8) as [S8|S8].
      { exists [], v. repeat split; auto. left. unfold zlen in S8. lia. }
      cbv zeta in E. set (n := unle (firstn 8 (v ++ e))) in *.
      destruct (Z.ltb_spec (zlen (v ++ e) - 8) n) as [Big|Big].
      { exists [], v. repeat split; auto. right. split; [unfold zlen in S8; lia|]. left. fold n. lia. }
      destruct (Z.ltb_spec n 73) as [Sm|Sm]; [discriminate|].
      destruct (Z.ltb_spec (zlen v - 8) n) as [Lo|Lo].
      { exists [], v. repeat split; auto. right. split; [unfold zlen in S8; lia|]. right. fold n. lia. }
      assert (Lv : Z.to_nat (8 + n) <= length v) by (unfold zlen in Lo; lia).
      match type of E with context [content_of_content H ?s] => destruct (content_long s) as (c & Cc) end.
      { unfold s_len. cbn [vis]. unfold zlen. rewrite firstn_length, skipn_length, app_length. lia. }
      rewrite Cc in E. cbn [bind] in E. set (rest := skipn (Z.to_nat (8 + n)) v) in *.
      assert (P : contents_loop H f (GSlice rest e) = Panic).
      { destruct (contents_loop H f (GSlice rest e)); cbn [bind] in E; congruence. }
      apply IH in P.
      + destruct P as (parts & r & Er & Fp & T). set (p := firstn (Z.to_nat n) (skipn 8 v)).
        assert (Lp : length p = Z.to_nat n) by (unfold p; rewrite firstn_length, skipn_length; lia).
        exists (p :: parts), r. split; [|split; [constructor; [lia|exact Fp]|exact T]].
        unfold counted. cbn [map concat]. fold (counted parts). rewrite <- !app_assoc, <- Er.
        assert (En : put_u64 (zlen p) = firstn 8 v).
        { unfold zlen. rewrite Lp, Z2Nat.id by lia. unfold n. rewrite firstn_app. replace (8 - length v) with 0 by lia. rewrite firstn_O, app_nil_r.
          apply put_u64_unle. rewrite firstn_length. lia. }
        rewrite En. unfold p, rest. replace (Z.to_nat (8 + n)) with (Z.to_nat n + 8) by lia. rewrite <- skipn_skipn, firstn_skipn. symmetry. apply firstn_skipn.
      + rewrite zlen_app in *. unfold rest, zlen in *. rewrite skipn_length. lia.
      + unfold rest. rewrite skipn_length. unfold v in *. cbn [length] in *. lia.
    - intros (parts & rest & -> & Fp & T). destruct parts as [|p parts].
      + change (counted [] ++ rest) with rest in *. destruct T as (N & T). rewrite loop_head by auto. destruct T as [T|(T1 & T)].
        { now rewrite (proj2 (Z.ltb_lt (zlen (rest ++ e)) 8)) by (unfold zlen; lia). }
        rewrite (proj2 (Z.ltb_ge (zlen (rest ++ e)) 8)) by (unfold zlen; lia). cbv zeta in *. set (n := unle (firstn 8 (rest ++ e))) in *.
        destruct (Z.ltb_spec (zlen (rest ++ e) - 8) n) as [Big|Big]; [reflexivity|]. destruct T as [T|(T2 & T)]; [lia|].
        rewrite (proj2 (Z.ltb_ge n 73)) by lia. now rewrite (proj2 (Z.ltb_lt (zlen rest - 8) n)) by lia.
      + inversion Fp as [|? ? Lp Fr]; subst. change (counted (p :: parts)) with ((put_u64 (zlen p) ++ p) ++ counted parts) in *.
        rewrite <- !app_assoc in F. rewrite <- !app_assoc in L. rewrite <- !app_assoc. apply loop_part; [exact Lp|rewrite <- !app_assoc; exact L|]. apply IH.
        * rewrite !zlen_app, zlen_put_u64 in L. rewrite !zlen_app. pose proof (zlen_nonneg p). lia.
        * rewrite !app_length, put_u64_length in F. rewrite app_length. lia.
        * exists parts, rest. auto.
  Qed.

  Lemma contents_panics v e : (zlen (v ++ e) < two63)%Z ->
    (contents_of_content H (GSlice v e) = Panic <->
     81 <= length v /\ exists parts rest, v = counted parts ++ rest /\ Forall (fun p => 73 <= length p) parts /\ trips 73 rest e).
  Proof.
    intros L. unfold contents_of_content, min_contents_size, s_len. cbn [vis].
    rewrite <- (loop_panics (slice_fuel (GSlice v e))) by (auto; unfold slice_fuel; cbn [vis ext]; lia).
    destruct (Z.ltb_spec (zlen v) 81) as [S|S]; unfold zlen in S.
    - split; [discriminate|]. lia.
    - split; [intros E; split; [lia|]|intros (_ & ->); reflexivity].
      destruct (contents_loop H (slice_fuel (GSlice v e)) (GSlice v e)) as [[|? ?]| | |]; cbn [bind contents_now] in E; congruence.
  Qed.

  (** Keys. *)
  Lemma key_ok s : s_len s = 152%Z -> (0 < unle (firstn 8 (skipn 80 (vis s))))%Z -> exists k, key_of_content H s = Ok k.
  Proof.
    intros L P. unfold key_of_content, content_key_size. rewrite (proj2 (Z.eqb_eq _ _) L). cbn [negb].
    pose proof (cap_len s). destruct (slice_in s 0 64 ltac:(lia) ltac:(lia)) as (a & Ea & La). rewrite Ea. cbn [bind].
    destruct (slice_in s 64 72 ltac:(lia) ltac:(lia)) as (b & Eb & Lb). rewrite Eb. cbn [bind].
    rewrite get_in by lia. cbn [bind]. destruct (slice_in s 72 88 ltac:(lia) ltac:(lia)) as (c & Ec & Lc). rewrite Ec. cbn [bind].
    destruct (slice_in s 88 152 ltac:(lia) ltac:(lia)) as (d & Ed & Ld). rewrite Ed.
    assert (Vc : vis c = firstn 16 (skipn 72 (vis s))) by (rewrite (s_slice_inv_vis _ _ _ _ Ec) by lia; reflexivity).
    unfold pointer_of_content, pointer_size. rewrite (proj2 (Z.eqb_eq (s_len c) 16)) by lia. cbn [negb].
    pose proof (cap_len c). destruct (slice_in c 0 8 ltac:(lia) ltac:(lia)) as (c1 & Ec1 & Lc1). rewrite Ec1. cbn [bind].
    rewrite get_in by lia. cbn [bind]. destruct (from_in c 8 ltac:(lia)) as (c2 & Ec2 & Lc2). rewrite Ec2. cbn [bind].
    rewrite get_in by lia. cbn [bind]. apply s_from_inv in Ec2 as (_ & ->). cbn [vis]. change (Z.to_nat 8) with 8.
    replace (firstn 8 (skipn 8 (vis c))) with (firstn 8 (skipn 80 (vis s))).
    - unfold pointer_now. rewrite (proj2 (Z.leb_gt _ 0)) by lia. cbn [bind]. eauto.
    - rewrite Vc. change 80 with (8 + 72). rewrite <- skipn_skipn. set (w := skipn 72 (vis s)). change 16 with (8 + 8).
      rewrite <- (firstn_skipn_comm 8 8 w), firstn_firstn. reflexivity.
  Qed.

  Lemma key_zero s : s_len s = 152%Z -> (unle (firstn 8 (skipn 80 (vis s))) <= 0)%Z -> key_of_content H s = Err.
  Proof.
    intros L P. unfold key_of_content, content_key_size. rewrite (proj2 (Z.eqb_eq _ _) L). cbn [negb].
    pose proof (cap_len s). destruct (slice_in s 0 64 ltac:(lia) ltac:(lia)) as (a & Ea & La). rewrite Ea. cbn [bind].
    destruct (slice_in s 64 72 ltac:(lia) ltac:(lia)) as (b & Eb & Lb). rewrite Eb. cbn [bind].
    rewrite get_in by lia. cbn [bind]. destruct (slice_in s 72 88 ltac:(lia) ltac:(lia)) as (c & Ec & Lc). rewrite Ec. cbn [bind].
    assert (Vc : vis c = firstn 16 (skipn 72 (vis s))) by (rewrite (s_slice_inv_vis _ _ _ _ Ec) by lia; reflexivity).
    unfold pointer_of_content, pointer_size. rewrite (proj2 (Z.eqb_eq (s_len c) 16)) by lia. cbn [negb].
    pose proof (cap_len c). destruct (slice_in c 0 8 ltac:(lia) ltac:(lia)) as (c1 & Ec1 & Lc1). rewrite Ec1. cbn [bind].
    rewrite get_in by lia. cbn [bind]. destruct (from_in c 8 ltac:(lia)) as (c2 & Ec2 & Lc2). rewrite Ec2. cbn [bind].
    rewrite get_in by lia. cbn [bind]. apply s_from_inv in Ec2 as (_ & ->). cbn [vis]. change (Z.to_nat 8) with 8.
    replace (firstn 8 (skipn 8 (vis c))) with (firstn 8 (skipn 80 (vis s))).
    - unfold pointer_now. now rewrite (proj2 (Z.leb_le _ 0)) by lia.
    - rewrite Vc. change 80 with (8 + 72). rewrite <- skipn_skipn. set (w := skipn 72 (vis s)). change 16 with (8 + 8).
      rewrite <- (firstn_skipn_comm 8 8 w), firstn_firstn. reflexivity.
  Qed.

  Lemma keys_loop_panics n : forall s b, (0 <= b)%Z ->
    (keys_loop H n s b = Panic <->
     exists ks rest, skipn (Z.to_nat b) (vis s ++ ext s) = concat ks ++ rest /\
       Forall (fun k => length k = 152 /\ (0 < unle (firstn 8 (skipn 80 k)))%Z) ks /\ length ks < n /\ length rest < 152).
  Proof.
    induction n as [|n IH]; intros s b B; cbn [keys_loop].
    { split; [discriminate|]. intros (ks & rest & _ & _ & X & _). lia. }
    unfold content_key_size. set (all := vis s ++ ext s).
    assert (Cap : s_cap s = zlen all) by (unfold s_cap, all; now rewrite zlen_app).
    destruct (Z.le_gt_cases (b + 152) (s_cap s)) as [I|O].
    - destruct (slice_in s b (b + 152) ltac:(lia) I) as (k & Ek & Lk). rewrite Ek. cbn [bind].
      pose proof (s_slice_inv _ _ _ _ Ek) as (_ & _ & Vk). fold all in Vk. replace (b + 152 - b)%Z with 152%Z in * by lia.
      assert (V : vis k = firstn 152 (skipn (Z.to_nat b) all)) by (rewrite Vk; reflexivity). clear Vk.
      assert (Split : skipn (Z.to_nat b) all = vis k ++ skipn (Z.to_nat (b + 152)) all).
      { rewrite V. replace (Z.to_nat (b + 152)) with (152 + Z.to_nat b) by lia. rewrite <- skipn_skipn. symmetry. apply firstn_skipn. }
      assert (L152 : length (vis k) = 152) by (unfold s_len, zlen in Lk; lia).
      destruct (Z.le_gt_cases (unle (firstn 8 (skipn 80 (vis k)))) 0) as [Zr|Po].
      + rewrite key_zero by auto. cbn [bind]. split; [discriminate|]. intros (ks & rest & E & F & _ & Lr). exfalso.
        rewrite Split in E. destruct ks as [|k' ks].
        * cbn [concat app] in E. apply (f_equal (@length byte)) in E. rewrite app_length in E. lia.
        * inversion F as [|? ? (Lk' & Pk') _]; subst. cbn [concat] in E. rewrite <- app_assoc in E.
          assert (X : vis k = k').
          { apply (f_equal (firstn 152)) in E. rewrite !firstn_app_exact in E by auto. exact E. }
          subst k'. lia.
      + destruct (key_ok k Lk ltac:(lia)) as (key & Kk). rewrite Kk. cbn [bind].
        transitivity (keys_loop H n s (b + 152) = Panic).
        { destruct (keys_loop H n s (b + 152)); cbn [bind]; split; congruence. }
        rewrite IH by lia. fold all. rewrite Split. split.
        * intros (ks & rest & E & F & Ln & Lr). exists (vis k :: ks), rest. cbn [concat length]. rewrite <- app_assoc, <- E.
          split; [reflexivity|]. split; [constructor; [split; [exact L152|lia]|exact F]|]. lia.
        * intros (ks & rest & E & F & Ln & Lr). destruct ks as [|k' ks].
          { cbn [concat app] in E. apply (f_equal (@length byte)) in E. rewrite app_length in E. lia. }
          inversion F as [|? ? (Lk' & Pk') F']; subst. cbn [concat length] in *. rewrite <- app_assoc in E.
          exists ks, rest. repeat split; try lia; [|exact F'].
          apply (f_equal (skipn 152)) in E. rewrite !skipn_app_exact in E by auto. exact E.
    - rewrite slice_out by lia. cbn [bind]. split; [|reflexivity]. intros _. exists [], (skipn (Z.to_nat b) all). cbn [concat app length].
      repeat split; try lia; [constructor|]. rewrite skipn_length. rewrite Cap in O. unfold zlen in O. lia.
  Qed.

  Lemma keys_panics v e : (keys_of_content H (GSlice v e) = Panic <->
     160 <= length v /\ exists n ks rest, v ++ e = put_u64 n ++ concat ks ++ rest /\
       Forall (fun k => length k = 152 /\ (0 < unle (firstn 8 (skipn 80 k)))%Z) ks /\ (zlen ks < n < two63)%Z /\ length rest < 152).
  Proof.
    unfold keys_of_content, content_key_size, s_len. cbn [vis].
    destruct (Z.ltb_spec (zlen v) (8 + 152)) as [S|S]; unfold zlen in S; [split; [discriminate|lia]|].
    assert (Cap : s_cap (GSlice v e) = zlen (v ++ e)) by (unfold s_cap; cbn [vis ext]; now rewrite zlen_app).
    assert (L8 : (160 <= zlen (v ++ e))%Z) by (unfold zlen; rewrite app_length; lia).
    destruct (slice_in (GSlice v e) 0 8 ltac:(lia) ltac:(rewrite Cap; lia)) as (sb & Es & Ls). rewrite Es. cbn [bind].
    rewrite get_in by lia. cbn [bind]. apply s_slice_inv in Es as (_ & _ & ->). cbn [vis ext]. change (Z.to_nat (8 - 0)) with 8. change (Z.to_nat 0) with 0. rewrite skipn_O.
    rewrite firstn_firstn. change (Nat.min 8 8) with 8. set (n := unle (firstn 8 (v ++ e))).
    assert (Lf : length (firstn 8 (v ++ e)) = 8) by (rewrite firstn_length; unfold zlen in L8; lia).
    assert (Rn : (0 <= n < two64)%Z) by (now apply unle_8_range).
    assert (Pn : put_u64 n = firstn 8 (v ++ e)) by (now apply put_u64_unle).
    rewrite keys_count_clip.
    transitivity (keys_loop H (Z.to_nat (i64 n)) (GSlice v e) 8 = Panic).
    { destruct (keys_loop H (Z.to_nat (i64 n)) (GSlice v e) 8) as [[|? ?]| | |]; cbn [bind keys_now]; split; congruence. }
    rewrite keys_loop_panics by lia. cbn [vis ext]. change (Z.to_nat 8) with 8. split.
    - intros (ks & rest & E & F & Ln & Lr). split; [lia|]. exists n, ks, rest. rewrite <- E, Pn, firstn_skipn. repeat split; auto.
      + unfold i64 in Ln. rewrite Z.mod_small in Ln by lia. destruct (Z.ltb_spec n two63); unfold zlen, two63, two64 in *; lia.
      + unfold i64 in Ln. rewrite Z.mod_small in Ln by lia. destruct (Z.ltb_spec n two63); unfold two63, two64 in *; lia.
    - intros (_ & m & ks & rest & E & F & Lm & Lr). exists ks, rest.
      assert (Em : n = m).
      { unfold n. rewrite E, firstn_app_exact by apply put_u64_length. rewrite unle_put_u64. apply Z.mod_small. unfold two64, two63 in *. pose proof (zlen_nonneg ks). lia. }
      subst m. rewrite i64_small by (pose proof (zlen_nonneg ks); lia).
      repeat split; auto; [|unfold zlen in Lm; lia]. rewrite E, skipn_app_exact by apply put_u64_length. reflexivity.
  Qed.

  Lemma i64_past a n cap : (0 <= a)%Z -> (a <= cap < two63)%Z -> (0 <= n < two64)%Z -> (cap - a < n)%Z ->
    (i64 (a + i64 n) < a \/ cap < i64 (a + i64 n))%Z.
  Proof.
    intros A C N P. unfold i64, two63, two64 in *.
    repeat match goal with |- context [(?a <? ?b)%Z] => destruct (Z.ltb_spec a b) end; Z.div_mod_to_equations; lia.
  Qed.

  (** Leaves of hash trees. *)
  Lemma leaf_bytes_iff b : leaf_bytes b <-> exists l, wf_leaf l /\ leaf_content l = b.
  Proof.
    split.
    - intros B. induction B as [h L|h a b L _ (la & Wa & <-) _ (lb & Wb & <-)].
      + exists (LHead h). auto.
      + exists (LNode h la lb). cbn [wf_leaf leaf_content]. auto.
    - intros (l & W & <-). induction l as [h|h a IHa b IHb]; cbn [wf_leaf leaf_content] in *; [now constructor|].
      destruct W as (L & Wa & Wb). apply lb_node; auto.
  Qed.

  Lemma leaf_accepted f v e : length (v ++ e) < f -> (zlen v < two63)%Z ->
    ((exists l, content_leaf H f (GSlice v e) = Ok l) <-> leaf_bytes v).
  Proof.
    intros F L. rewrite leaf_bytes_iff. split.
    - intros (l & E). exists l. apply (content_leaf_canonical H f (GSlice v e) l E). exact L.
    - intros (l & W & <-). exists l. apply content_leaf_roundtrip; auto. pose proof (leaf_depth_le l W). rewrite app_length in F. lia.
  Qed.

  Lemma pair_fault_inv w e : pair_fault w e -> 128 <= length w /\
    ((zlen (w ++ e) - 8 < unle (firstn 8 w))%Z \/
     exists n, Z.of_nat n = unle (firstn 8 w) /\
       ((n + 8 <= length (w ++ e) /\ leaf_fault (firstn n (skipn 8 (w ++ e))) (skipn (8 + n) (w ++ e))) \/
        (n + 8 <= length (w ++ e) /\ leaf_bytes (firstn n (skipn 8 (w ++ e))) /\ length w < n + 8) \/
        (n + 8 <= length w /\ leaf_bytes (firstn n (skipn 8 w)) /\ leaf_fault (skipn (8 + n) w) e))).
  Proof. intros P. inversion P; subst; (split; [assumption|]); auto; right; exists n; auto 10. Qed.

  Lemma pair_panics f w e : (zlen (w ++ e) < two63)%Z -> length (w ++ e) < 64 + f ->
    (forall v e', length (v ++ e') + 8 <= length (w ++ e) -> (content_leaf H f (GSlice v e') = Panic <-> leaf_fault v e')) ->
    (forall v e', length (v ++ e') + 8 <= length (w ++ e) -> ((exists l, content_leaf H f (GSlice v e') = Ok l) <-> leaf_bytes v)) ->
    (content_parent H f (GSlice w e) = Panic <-> pair_fault w e).
  Proof.
    intros L F IH Acc. unfold content_parent, min_parent_leaf. set (s := GSlice w e).
    assert (Ln : s_len s = zlen w) by reflexivity. rewrite Ln.
    destruct (Z.ltb_spec (zlen w) 128) as [Sz|Sz]; unfold zlen in Sz.
    { split; [discriminate|]. intros P. inversion P; lia. }
    assert (Cap : s_cap s = zlen (w ++ e)) by (unfold s_cap, s; cbn [vis ext]; now rewrite zlen_app).
    assert (Lt : (zlen w <= zlen (w ++ e))%Z) by (rewrite zlen_app; pose proof (zlen_nonneg e); lia).
    assert (G : (128 <= zlen w)%Z) by (unfold zlen; lia).
    destruct (slice_in s 0 8 ltac:(lia) ltac:(rewrite Cap; lia)) as (tb & Et & Ltb). rewrite Et. cbn [bind]. rewrite get_in by lia. cbn [bind].
    assert (Vb : vis tb = firstn 8 w) by (rewrite (s_slice_inv_vis _ _ _ _ Et) by (rewrite Ln; lia); reflexivity). rewrite Vb, firstn_firstn.
    change (Nat.min 8 8) with 8. clear Et Vb.
    destruct (unle_8_range (firstn 8 w)) as (R0 & R1); [rewrite firstn_length; lia|].
    set (z := unle (firstn 8 w)) in *. cbv zeta.
    destruct (Z.lt_ge_cases (zlen (w ++ e) - 8) z) as [Big|Fit].
    { pose proof (i64_past 8 z (zlen (w ++ e)) ltac:(lia) ltac:(lia) ltac:(lia) Big) as X. rewrite slice_out by (rewrite Cap; lia). cbn [bind].
      split; [|reflexivity]. intros _. apply pf_long; [lia|exact Big]. }
    rewrite (i64_small z), (i64_small (8 + z)), (i64_small (z + 8)) by lia.
    destruct (slice_in s 8 (8 + z) ltac:(lia) ltac:(rewrite Cap; lia)) as (ls & Es & _). rewrite Es. cbn [bind].
    apply s_slice_inv in Es as (_ & _ & Es). unfold s in Es. cbn [vis ext] in Es. replace (8 + z - 8)%Z with z in Es by lia. change (Z.to_nat 8) with 8 in Es.
    set (n := Z.to_nat z) in *. assert (En : Z.of_nat n = z) by (unfold n; lia). replace (Z.to_nat (8 + z)) with (8 + n) in Es by lia.
    assert (Fn : n + 8 <= length (w ++ e)) by (unfold zlen in *; lia).
    assert (Nu : forall m, Z.of_nat m = z -> m = n) by (intros; lia).
    assert (Small : length (firstn n (skipn 8 (w ++ e)) ++ skipn (8 + n) (w ++ e)) + 8 <= length (w ++ e)).
    { rewrite app_length, firstn_length, !skipn_length. lia. }
    pose proof (IH _ _ Small) as IHl. pose proof (Acc _ _ Small) as Al. rewrite <- Es in IHl, Al. clear Es Small.
    assert (Same : n + 8 <= length w -> firstn n (skipn 8 (w ++ e)) = firstn n (skipn 8 w)).
    { intros X. rewrite skipn_app. replace (8 - length w) with 0 by lia. rewrite skipn_O, firstn_app, skipn_length.
      replace (n - (length w - 8)) with 0 by lia. now rewrite firstn_O, app_nil_r. }
    assert (Stop : forall o, content_leaf H f ls = o -> o <> Panic -> (forall l, o <> Ok l) -> ~ pair_fault w e).
    { intros o Eo No Nok P. apply pair_fault_inv in P as (_ & [B|(m & Em & [(Lm & Lf)|[(Lm & Lb & Le)|(Lm & Lb & Lf)]])]); [fold z in B; lia|fold z in Em|fold z in Em|fold z in Em].
      - apply Nu in Em. subst m. apply IHl in Lf. congruence.
      - apply Nu in Em. subst m. apply Al in Lb as (l & X). apply (Nok l). congruence.
      - apply Nu in Em. subst m. rewrite <- Same in Lb by lia. apply Al in Lb as (l & X). apply (Nok l). congruence. }
    destruct (content_leaf H f ls) as [left| | |] eqn:El; cbn [bind].
    2: { split; [discriminate|]. intros P. exfalso. eapply Stop; eauto; discriminate. }
    2: { split; [|reflexivity]. intros _. eapply pf_left; eauto; [lia|]. now apply IHl. }
    2: { split; [discriminate|]. intros P. exfalso. eapply Stop; eauto; discriminate. }
    assert (Lb : leaf_bytes (firstn n (skipn 8 (w ++ e)))) by (apply Al; eauto).
    destruct (Nat.lt_ge_cases (length w) (n + 8)) as [Lo|Hi].
    { rewrite from_out by (rewrite Ln; unfold zlen; lia). cbn [bind]. split; [|reflexivity]. intros _. eapply pf_end; eauto. lia. }
    destruct (from_in s (z + 8) ltac:(rewrite Ln; unfold zlen; lia)) as (r & Er & _). rewrite Er. cbn [bind].
    apply s_from_inv in Er as (_ & ->). unfold s. cbn [vis ext]. replace (Z.to_nat (z + 8)) with (8 + n) by lia.
    assert (IHr : content_leaf H f (GSlice (skipn (8 + n) w) e) = Panic <-> leaf_fault (skipn (8 + n) w) e).
    { apply IH. rewrite !app_length, skipn_length. lia. }
    transitivity (content_leaf H f (GSlice (skipn (8 + n) w) e) = Panic).
    { destruct (content_leaf H f (GSlice (skipn (8 + n) w) e)); cbn [bind]; split; congruence. }
    rewrite IHr. split.
    - intros X. eapply pf_right; eauto; [lia|]. rewrite <- Same by lia. exact Lb.
    - intros P. apply pair_fault_inv in P as (_ & [B|(m & Em & [(Lm & Lf)|[(Lm & Lb' & Le)|(Lm & Lb' & Lf)]])]); [fold z in B; lia|fold z in Em|fold z in Em; lia|fold z in Em].
      + apply Nu in Em. subst m. apply IHl in Lf. congruence.
      + apply Nu in Em. subst m. exact Lf.
  Qed.

  Lemma leaf_step f s : content_leaf H (S f) s =
    (if (s_len s <? 64)%Z then Err
     else do hd <- s_slice s 0 64; do rem <- s_from s 64;
       if (0 <? s_len rem)%Z then do p <- content_parent H f rem; Ok (LNode (from_bytes H (vis hd)) (fst p) (snd p))
       else Ok (LHead (from_bytes H (vis hd)))).
  Proof.
    cbn [content_leaf]. unfold min_leaf_size, content_parent. destruct (s_len s <? 64)%Z; [reflexivity|].
    destruct (s_slice s 0 64); cbn [bind]; try reflexivity. destruct (s_from s 64) as [rem| | |]; cbn [bind]; try reflexivity.
    destruct (0 <? s_len rem)%Z; [|reflexivity]. destruct (s_len rem <? min_parent_leaf)%Z; [reflexivity|].
    destruct (s_slice rem 0 8); cbn [bind]; try reflexivity. destruct (get_u64 _) as [n| | |]; cbn [bind]; try reflexivity.
    destruct (s_slice rem 8 _) as [ls| | |]; cbn [bind]; try reflexivity. destruct (content_leaf H f ls); cbn [bind]; try reflexivity.
    destruct (s_from rem _) as [rs| | |]; cbn [bind]; try reflexivity. destruct (content_leaf H f rs); reflexivity.
  Qed.

  Lemma pair_fault_long w e : pair_fault w e -> 128 <= length w.
  Proof. intros P. inversion P; assumption. Qed.

  Lemma leaf_panics f : forall v e, length (v ++ e) < f -> (zlen (v ++ e) < two63)%Z ->
    (content_leaf H f (GSlice v e) = Panic <-> leaf_fault v e).
  Proof.
    induction f as [|f IH]; intros v e F L; [lia|]. rewrite leaf_step. set (s := GSlice v e).
    assert (Ln : s_len s = zlen v) by reflexivity. rewrite Ln.
    destruct (Z.ltb_spec (zlen v) 64) as [Sz|Sz].
    { split; [discriminate|]. intros P. inversion P as [h w ? Lh]; subst. unfold zlen in Sz. rewrite app_length in Sz. lia. }
    assert (Cap : s_cap s = zlen (v ++ e)) by (unfold s_cap, s; cbn [vis ext]; now rewrite zlen_app).
    assert (Lt : (zlen v <= zlen (v ++ e))%Z) by (rewrite zlen_app; pose proof (zlen_nonneg e); lia).
    destruct (slice_in s 0 64 ltac:(lia) ltac:(rewrite Cap; lia)) as (hd & Eh & _). rewrite Eh. cbn [bind].
    destruct (from_in s 64 ltac:(rewrite Ln; lia)) as (rem & Er & Lr). rewrite Er. cbn [bind].
    apply s_from_inv in Er as (_ & Er). unfold s in Er. cbn [vis ext] in Er. change (Z.to_nat 64) with 64 in Er. set (w := skipn 64 v) in *.
    assert (Lw : length v = 64 + length w) by (unfold w; rewrite skipn_length; unfold zlen in Sz; lia).
    assert (Q : leaf_fault v e <-> pair_fault w e).
    { split.
      - intros P. inversion P as [h w' ? Lh P']; subst. unfold w. rewrite skipn_app_exact by exact Lh. exact P'.
      - intros P. rewrite <- (firstn_skipn 64 v). apply lf_pair; [rewrite firstn_length; lia|exact P]. }
    rewrite Q. destruct (Z.ltb_spec 0 (s_len rem)) as [P|P].
    - rewrite Er in *. rewrite app_length in F. assert (Lz : (zlen (w ++ e) < two63)%Z) by (rewrite zlen_app in *; unfold zlen in *; lia).
      transitivity (content_parent H f (GSlice w e) = Panic).
      { destruct (content_parent H f (GSlice w e)); cbn [bind]; split; congruence. }
      apply pair_panics; [exact Lz|rewrite app_length; lia| |].
      + intros v' e' Lv'. apply IH; [rewrite (app_length w) in Lv'; lia|]. unfold zlen in *. lia.
      + intros v' e' Lv'. apply leaf_accepted; [rewrite (app_length w) in Lv'; lia|]. unfold zlen in *. rewrite !app_length in *. lia.
    - split; [discriminate|]. intros X. apply pair_fault_long in X. rewrite Er in P. unfold s_len, zlen in P. cbn [vis] in P. lia.
  Qed.

  Lemma tree_panics v e : (zlen (v ++ e) < two63)%Z ->
    (ht_of_content H (GSlice v e) = Panic <-> exists h w, v = h ++ w /\ length h = 64 /\ pair_fault w e).
  Proof.
    intros L. unfold ht_of_content, content_ht, min_hashtree_size. set (s := GSlice v e).
    assert (Ln : s_len s = zlen v) by reflexivity. rewrite Ln.
    destruct (Z.ltb_spec (zlen v) 192) as [Sz|Sz].
    { split; [discriminate|]. intros (h & w & -> & Lh & P). apply pair_fault_long in P. unfold zlen in Sz. rewrite app_length in Sz. lia. }
    assert (Cap : s_cap s = zlen (v ++ e)) by (unfold s_cap, s; cbn [vis ext]; now rewrite zlen_app).
    assert (Lt : (zlen v <= zlen (v ++ e))%Z) by (rewrite zlen_app; pose proof (zlen_nonneg e); lia).
    destruct (slice_in s 0 64 ltac:(lia) ltac:(rewrite Cap; lia)) as (hd & Eh & _). rewrite Eh. cbn [bind].
    destruct (from_in s 64 ltac:(rewrite Ln; lia)) as (rem & Er & Lr). rewrite Er. cbn [bind].
    apply s_from_inv in Er as (_ & Er). unfold s in Er. cbn [vis ext] in Er. change (Z.to_nat 64) with 64 in Er. set (w := skipn 64 v) in *.
    assert (Lw : length v = 64 + length w) by (unfold w; rewrite skipn_length; unfold zlen in Sz; lia).
    rewrite Er. assert (Lz : (zlen (w ++ e) < two63)%Z) by (rewrite zlen_app in *; unfold zlen in *; lia).
    change (slice_fuel s) with (S (length v + length e)).
    transitivity (content_parent H (S (length v + length e)) (GSlice w e) = Panic).
    { destruct (content_parent H (S (length v + length e)) (GSlice w e)); cbn [bind]; split; congruence. }
    rewrite pair_panics; [|exact Lz|rewrite app_length; lia| |].
    - split.
      + intros P. exists (firstn 64 v), w. split; [symmetry; apply firstn_skipn|]. split; [rewrite firstn_length; lia|exact P].
      + intros (h & w' & -> & Lh & P). unfold w. rewrite skipn_app_exact by exact Lh. exact P.
    - intros v' e' Lv'. apply leaf_panics; [rewrite (app_length w) in Lv'; lia|]. unfold zlen in *. lia.
    - intros v' e' Lv'. apply leaf_accepted; [rewrite (app_length w) in Lv'; lia|]. unfold zlen in *. rewrite !app_length in *. lia.
  Qed.

  (** Commits. *)
  Variable mv : byte.

  Lemma proof_part_panics t e : (zlen (t ++ e) < two63)%Z ->
    forall (k : bytes -> gslice -> outcome (option Z * gslice)), (forall b s, k b s <> Panic) ->
    ((do lb <- s_slice (GSlice t e) 0 8; do n <- get_u64 lb;
      let pdelim := i64 (8 + i64 n) in
      do pb <- s_slice (GSlice t e) 8 pdelim; do rem2 <- s_from (GSlice t e) pdelim; k (vis pb) rem2) = Panic <->
     length t < 8 \/ (zlen t - 8 < unle (firstn 8 t))%Z).
  Proof.
    intros L k K. assert (Cap : s_cap (GSlice t e) = zlen (t ++ e)) by (unfold s_cap; cbn [vis ext]; now rewrite zlen_app).
    assert (Lt : (zlen t <= zlen (t ++ e))%Z) by (rewrite zlen_app; pose proof (zlen_nonneg e); lia).
    destruct (Z.le_gt_cases 8 (zlen (t ++ e))) as [I|O].
    - destruct (slice_in (GSlice t e) 0 8 ltac:(lia) ltac:(rewrite Cap; lia)) as (sb & Es & Ls). rewrite Es. cbn [bind].
      rewrite get_in by lia. cbn [bind]. apply s_slice_inv in Es as (_ & _ & ->). cbn [vis ext]. change (Z.to_nat (8 - 0)) with 8. change (Z.to_nat 0) with 0. rewrite skipn_O.
      rewrite firstn_firstn. change (Nat.min 8 8) with 8. set (n := unle (firstn 8 (t ++ e))).
      assert (Lf : length (firstn 8 (t ++ e)) = 8) by (rewrite firstn_length; unfold zlen in I; lia).
      assert (Rn : (0 <= n < two64)%Z) by (now apply unle_8_range). cbv zeta.
      assert (En : 8 <= length t -> unle (firstn 8 t) = n).
      { intros G. unfold n. rewrite firstn_app. replace (8 - length t) with 0 by lia. now rewrite firstn_O, app_nil_r. }
      destruct (Z.lt_ge_cases (zlen (t ++ e) - 8) n) as [Big|Fit].
      + pose proof (i64_past 8 n (zlen (t ++ e)) ltac:(lia) ltac:(lia) Rn Big) as X. rewrite slice_out by (rewrite Cap; lia).
        cbn [bind]. split; [|reflexivity]. intros _. destruct (Nat.lt_ge_cases (length t) 8) as [|G]; [now left|right]. rewrite En by lia. lia.
      + rewrite (i64_small n), (i64_small (8 + n)) by lia.
        destruct (slice_in (GSlice t e) 8 (8 + n) ltac:(lia) ltac:(rewrite Cap; lia)) as (pb & Ep & _). rewrite Ep. cbn [bind].
        destruct (Z.lt_ge_cases (zlen t - 8) n) as [Lo|Hi].
        * rewrite from_out by (unfold s_len; cbn [vis]; lia). cbn [bind]. split; [|reflexivity]. intros _.
          destruct (Nat.lt_ge_cases (length t) 8) as [|G]; [now left|right]. rewrite En by lia. lia.
        * destruct (from_in (GSlice t e) (8 + n) ltac:(unfold s_len; cbn [vis]; lia)) as (r & Er & _). rewrite Er. cbn [bind].
          assert (8 <= length t) by (unfold zlen in Hi; lia). rewrite En by lia. split; [intros X; now apply K in X|]. lia.
    - rewrite slice_out by (rewrite Cap; lia). cbn [bind]. split; [|reflexivity]. intros _. left. unfold zlen in *. lia.
  Qed.

  Lemma commit_panics v e : (zlen (v ++ e) < two63)%Z ->
    (commit_of_content H mv (GSlice v e) = Panic <->
     208 <= length v /\
     let n := unle (firstn 8 (skipn 8 v)) in
     ((zlen (v ++ e) - 16 < n)%Z \/
      (n <= zlen (v ++ e) - 16)%Z /\
      let values := ht_of_content H (GSlice (firstn (Z.to_nat n) (skipn 16 (v ++ e))) (skipn (Z.to_nat (16 + n)) (v ++ e))) in
      (values = Panic \/
       ((exists t, values = Ok t) /\ ((zlen v - 16 < n)%Z \/ (n <= zlen v - 16)%Z /\ short_proof (skipn (Z.to_nat (16 + n)) v)))))).
  Proof.
    intros L. unfold commit_of_content, commit_min_size. set (s := GSlice v e).
    assert (Ln : s_len s = zlen v) by reflexivity. rewrite Ln.
    destruct (Z.ltb_spec (zlen v) 208) as [S|S]; [split; [discriminate|unfold zlen in S; lia]|].
    assert (Cap : s_cap s = zlen (v ++ e)) by (unfold s_cap, s; cbn [vis ext]; now rewrite zlen_app).
    assert (Lt : (zlen v <= zlen (v ++ e))%Z) by (rewrite zlen_app; pose proof (zlen_nonneg e); lia).
    destruct (slice_in s 0 8 ltac:(lia) ltac:(rewrite Cap; lia)) as (tb & Et & Ltb). rewrite Et. cbn [bind]. rewrite get_in by lia. cbn [bind]. clear Et.
    destruct (slice_in s 8 16 ltac:(lia) ltac:(rewrite Cap; lia)) as (vb & Ev & Lvb). rewrite Ev. cbn [bind]. rewrite get_in by lia. cbn [bind].
    assert (Vb : vis vb = firstn 8 (skipn 8 v)) by (rewrite (s_slice_inv_vis _ _ _ _ Ev) by (rewrite Ln; lia); reflexivity). rewrite Vb, firstn_firstn.
    change (Nat.min 8 8) with 8. set (n := unle (firstn 8 (skipn 8 v))).
    assert (Rn : (0 <= n < two64)%Z).
    { apply unle_8_range. rewrite firstn_length, skipn_length. unfold zlen in S. lia. }
    assert (G : 208 <= length v) by (unfold zlen in S; lia). cbv zeta. clear Ev Vb.
    destruct (Z.lt_ge_cases (zlen (v ++ e) - 16) n) as [Big|Fit].
    { pose proof (i64_past 16 n (zlen (v ++ e)) ltac:(lia) ltac:(lia) Rn Big) as X. rewrite slice_out by (rewrite Cap; lia). cbn [bind]. tauto. }
    rewrite (i64_small n), (i64_small (16 + n)) by lia.
    destruct (slice_in s 16 (16 + n) ltac:(lia) ltac:(rewrite Cap; lia)) as (vs & Es & _). rewrite Es. cbn [bind].
    apply s_slice_inv in Es as (_ & _ & Es). unfold s in Es. cbn [vis ext] in Es. replace (16 + n - 16)%Z with n in Es by lia. change (Z.to_nat 16) with 16 in Es. rewrite <- Es.
    destruct (ht_of_content H vs) as [values| | |] eqn:Eh; cbn [bind].
    2: { split; [discriminate|]. intros (_ & [X|(_ & [X|((t & X) & _)])]); [lia|discriminate|discriminate]. }
    2: tauto.
    2: { split; [discriminate|]. intros (_ & [X|(_ & [X|((t & X) & _)])]); [lia|discriminate|discriminate]. }
    destruct (Z.lt_ge_cases (zlen v - 16) n) as [Lo|Hi].
    { rewrite from_out by (rewrite Ln; lia). cbn [bind]. split; [|reflexivity]. intros _. split; [exact G|]. right. split; [lia|]. right. split; [eauto|]. left. lia. }
    destruct (from_in s (16 + n) ltac:(rewrite Ln; lia)) as (r & Er & _). rewrite Er. cbn [bind]. apply s_from_inv in Er as (_ & ->).
    unfold s. cbn [vis ext]. set (tail := skipn (Z.to_nat (16 + n)) v).
    assert (Ltail : (zlen (tail ++ e) < two63)%Z).
    { rewrite zlen_app in L |- *. unfold tail, zlen in *. rewrite skipn_length. lia. }
    match goal with |- ?m = Panic <-> _ => assert (Q : m = Panic <-> short_proof tail) end.
    2: { rewrite Q. split.
         - intros X. split; [exact G|]. right. split; [lia|]. right. split; [eauto|]. right. split; [lia|exact X].
         - intros (_ & [X|(_ & [X|(_ & [X|(_ & X)])])]); [lia|congruence|lia|exact X]. }
    assert (After : forall (o : option Z) r',
      (do parent <- (if (0 <? s_len (snd (o, r')))%Z then do hb <- s_from (snd (o, r')) 1; Ok (Some (from_bytes H (vis hb))) else Ok None);
       Ok (commit_now H mv values (i64 (unle (firstn 8 (vis tb)))) parent (fst (o, r')))) <> Panic).
    { intros o r'. cbn [fst snd]. destruct (Z.ltb_spec 0 (s_len r')) as [P|P]; [|discriminate].
      destruct (from_in r' 1 ltac:(lia)) as (hb & E & _). rewrite E. discriminate. }
    destruct tail as [|x t] eqn:Et.
    { change (s_len (GSlice [] e)) with 0%Z. change (0 <? 0)%Z with false. cbn iota. change (bind (Ok (@None Z, GSlice [] e)) ?f) with (f (@None Z, GSlice [] e)).
      cbn [bind]. split; [intros X; now apply After in X|]. intros (t & X & _). discriminate. }
    assert (Lx : s_len (GSlice (x :: t) e) = (1 + zlen t)%Z) by (unfold s_len, zlen; cbn [vis length]; lia).
    rewrite Lx. pose proof (zlen_nonneg t). rewrite (proj2 (Z.ltb_lt 0 (1 + zlen t))) by lia.
    assert (Cx : s_cap (GSlice (x :: t) e) = (1 + zlen t + zlen e)%Z) by (unfold s_cap, zlen; cbn [vis ext length]; lia).
    pose proof (zlen_nonneg e).
    destruct (slice_in (GSlice (x :: t) e) 0 1 ltac:(lia) ltac:(rewrite Cx; lia)) as (fb & Ef & _). rewrite Ef. cbn [bind].
    apply s_slice_inv in Ef as (_ & _ & ->). cbn [vis ext]. change (Z.to_nat (1 - 0)) with 1. change (Z.to_nat 0) with 0. rewrite skipn_O. cbn [app firstn].
    change (byte_of_Z 0) with x00. destruct (Byte.eqb x x00) eqn:Ex.
    - apply Byte.byte_dec_bl in Ex. subst x.
      destruct (from_in (GSlice (x00 :: t) e) 1 ltac:(rewrite Lx; lia)) as (r1 & E1 & _). rewrite E1. cbn [bind]. apply s_from_inv in E1 as (_ & ->).
      cbn [vis ext]. change (Z.to_nat 1) with 1. cbn [skipn].
      pose proof (proof_part_panics t e ltac:(rewrite zlen_app in Ltail |- *; unfold zlen in *; cbn [length] in Ltail; lia)
        (fun b s => Ok (Some (big_set b), s)) ltac:(discriminate)) as PP.
      unfold short_proof. cbv zeta in PP.
      match goal with |- bind ?m _ = Panic <-> _ => destruct m as [[o r']| | |] eqn:Em end; cbn [bind].
      + split; [intros X; now apply After in X|]. intros (t' & X & Y). injection X as <-. apply PP in Y. congruence.
      + split; [discriminate|]. intros (t' & X & Y). injection X as <-. apply PP in Y. congruence.
      + split; [|reflexivity]. intros _. exists t. split; [reflexivity|]. apply PP. reflexivity.
      + split; [discriminate|]. intros (t' & X & Y). injection X as <-. apply PP in Y. congruence.
    - cbn [bind]. split; [intros X; now apply After in X|]. intros (t' & X & _). injection X as -> ->. discriminate.
  Qed.

  (** One turn of the loop over commits, at the end of [p]. *)
  Lemma commits_head f p v e : v <> [] -> (zlen ((p ++ v) ++ e) < two63)%Z ->
    commits_loop H mv (S (S f)) (GSlice (p ++ v) e) (zlen p) =
      (if (zlen (v ++ e) <? 8)%Z then Panic
       else let n := unle (firstn 8 (v ++ e)) in
         if (zlen (v ++ e) - 8 <? n)%Z then Panic
         else do c <- commit_of_content H mv (GSlice (firstn (Z.to_nat n) (skipn 8 (v ++ e))) (skipn (Z.to_nat (8 + n)) (v ++ e)));
              if (zlen v - 8 <? n)%Z then Panic
              else do l <- commits_loop H mv (S f) (GSlice (p ++ v) e) (zlen p + (8 + n)); Ok (c :: l)).
  Proof.
    intros N L. set (g := S f). cbn [commits_loop]. set (s := GSlice (p ++ v) e).
    assert (Lv : (0 < zlen v)%Z) by (destruct v; [congruence|unfold zlen; cbn [length]; lia]).
    pose proof (zlen_nonneg p) as Np.
    assert (Cap : s_cap s = (zlen p + zlen (v ++ e))%Z) by (unfold s_cap, s; cbn [vis ext]; rewrite !zlen_app; lia).
    assert (Ls : s_len s = (zlen p + zlen v)%Z) by (unfold s_len, s; cbn [vis]; now rewrite zlen_app).
    assert (All : vis s ++ ext s = p ++ v ++ e) by (unfold s; cbn [vis ext]; now rewrite app_assoc).
    assert (Tot : (zlen p + zlen (v ++ e) < two63)%Z) by (rewrite !zlen_app in *; lia).
    assert (Lve : (zlen v <= zlen (v ++ e))%Z) by (rewrite zlen_app; pose proof (zlen_nonneg e); lia).
    destruct (from_in s (zlen p) ltac:(rewrite Ls; lia)) as (r & Er & Lr). rewrite Er. cbn [bind].
    rewrite (proj2 (Z.leb_gt (s_len r) 0)) by lia. clear Er.
    destruct (Z.ltb_spec (zlen (v ++ e)) 8) as [S8|S8]; [now rewrite slice_out by (rewrite Cap; lia)|].
    destruct (slice_in s (zlen p) (zlen p + 8) ltac:(lia) ltac:(rewrite Cap; lia)) as (sb & Es & Lsb). rewrite Es. cbn [bind].
    rewrite get_in by lia. cbn [bind]. apply s_slice_inv in Es as (_ & _ & ->). cbn [vis]. rewrite All.
    replace (Z.to_nat (zlen p + 8 - zlen p)) with 8 by lia. rewrite (skipn_app_exact p) by (unfold zlen; lia).
    rewrite firstn_firstn. change (Nat.min 8 8) with 8. set (n := unle (firstn 8 (v ++ e))).
    assert (Rn : (0 <= n < two64)%Z).
    { apply unle_8_range. rewrite firstn_length. unfold zlen in S8. lia. }
    cbv zeta. destruct (Z.ltb_spec (zlen (v ++ e) - 8) n) as [Big|Big].
    - pose proof (i64_past (zlen p + 8) n (zlen p + zlen (v ++ e)) ltac:(lia) ltac:(lia) Rn ltac:(lia)) as X. rewrite slice_out by (rewrite Cap; lia). reflexivity.
    - rewrite (i64_small n), (i64_small (zlen p + 8 + n)) by lia.
      destruct (slice_in s (zlen p + 8) (zlen p + 8 + n) ltac:(lia) ltac:(rewrite Cap; lia)) as (cs & Ec & Lc). rewrite Ec. cbn [bind].
      apply s_slice_inv in Ec as (_ & _ & Ec). rewrite All in Ec. replace (zlen p + 8 + n - (zlen p + 8))%Z with n in Ec by lia.
      replace (Z.to_nat (zlen p + 8)) with (8 + length p) in Ec by (unfold zlen; lia).
      replace (Z.to_nat (zlen p + 8 + n)) with (Z.to_nat (8 + n) + length p) in Ec by (unfold zlen; lia).
      rewrite <- !skipn_skipn in Ec. rewrite (skipn_app_exact p) in Ec by reflexivity. rewrite <- Ec.
      replace (zlen p + (8 + n))%Z with (zlen p + 8 + n)%Z by lia.
      destruct (commit_of_content H mv cs); cbn [bind]; try reflexivity.
      destruct (Z.ltb_spec (zlen v - 8) n) as [Lo|Lo]; [|reflexivity]. unfold g. cbn [commits_loop]. rewrite from_out by (rewrite Ls; lia). reflexivity.
  Qed.

  Lemma accepted_anywhere p e c : (zlen p < two63)%Z -> commit_of_content H mv (GSlice p []) = Ok c -> commit_of_content H mv (GSlice p e) = Ok c.
  Proof. intros L E. apply (commit_accepted H mv p e c L). apply (commit_accepted H mv p [] c L). exact E. Qed.
  Lemma accepted_itself p e c : (zlen p < two63)%Z -> commit_of_content H mv (GSlice p e) = Ok c -> commit_of_content H mv (GSlice p []) = Ok c.
  Proof. intros L E. apply (commit_accepted H mv p [] c L). apply (commit_accepted H mv p e c L). exact E. Qed.

  Lemma commits_loop_panics f : forall p v e, (zlen ((p ++ v) ++ e) < two63)%Z -> length v < 8 * f ->
    (commits_loop H mv (S f) (GSlice (p ++ v) e) (zlen p) = Panic <->
     exists parts l rest, v = counted parts ++ rest /\ Forall2 (fun q c => commit_of_content H mv (GSlice q []) = Ok c) parts l /\
       trips_on (commit_of_content H mv) rest e).
  Proof.
    induction f as [|f IH]; intros p v e L F; [lia|]. pose proof (zlen_nonneg p) as Np. split.
    - intros E. destruct v as [|b v'].
      { rewrite app_nil_r in E. cbn [commits_loop] in E. destruct (from_in (GSlice p e) (zlen p)) as (r & Er & Lr).
        { unfold s_len. cbn [vis]. lia. }
        rewrite Er in E. cbn [bind] in E. rewrite (proj2 (Z.leb_le (s_len r) 0)) in E by (rewrite Lr; unfold s_len; cbn [vis]; lia). discriminate. }
      set (v := b :: v') in *.
      assert (N : v <> []) by discriminate. rewrite commits_head in E by auto.
      assert (Lve : (zlen (v ++ e) < two63)%Z) by (rewrite <- app_assoc, zlen_app in L; lia).
      destruct (Z.ltb_spec (zlen (v ++ e)) 8) as [S8|S8].
      { exists [], [], v. repeat split; auto. left. unfold zlen in S8. lia. }
      cbv zeta in E. set (n := unle (firstn 8 (v ++ e))) in *.
      destruct (Z.ltb_spec (zlen (v ++ e) - 8) n) as [Big|Big].
      { exists [], [], v. repeat split; auto. right. split; [unfold zlen in S8; lia|]. left. fold n. lia. }
      assert (Rn : (0 <= n)%Z).
      { apply unle_8_range. rewrite firstn_length. unfold zlen in S8. lia. }
      match type of E with context [commit_of_content H mv ?s] => destruct (commit_of_content H mv s) as [c| | |] eqn:Cc end; cbn [bind] in E; try discriminate.
      2: { exists [], [], v. repeat split; auto. right. split; [unfold zlen in S8; lia|]. right. split; [exact Big|]. left. exact Cc. }
      destruct (Z.ltb_spec (zlen v - 8) n) as [Lo|Lo].
      { exists [], [], v. repeat split; auto. right. split; [unfold zlen in S8; lia|]. right. split; [exact Big|]. right. split; [exists c; exact Cc|exact Lo]. }
      assert (Lv : Z.to_nat (8 + n) <= length v) by (unfold zlen in Lo; lia).
      set (rest := skipn (Z.to_nat (8 + n)) v) in *. set (h := firstn (Z.to_nat (8 + n)) v).
      assert (Lh : zlen h = (8 + n)%Z) by (unfold h, zlen; rewrite firstn_length; lia).
      assert (Sp : p ++ v = (p ++ h) ++ rest) by (unfold h, rest; now rewrite <- app_assoc, firstn_skipn).
      assert (P : commits_loop H mv (S f) (GSlice ((p ++ h) ++ rest) e) (zlen (p ++ h)) = Panic).
      { rewrite <- Sp, zlen_app, Lh. destruct (commits_loop H mv (S f) (GSlice (p ++ v) e) (zlen p + (8 + n))); cbn [bind] in E; congruence. }
      apply IH in P.
      + destruct P as (parts & l & r & Er & Fp & T).
        set (q := firstn (Z.to_nat n) (skipn 8 v)).
        assert (Lq : length q = Z.to_nat n) by (unfold q; rewrite firstn_length, skipn_length; lia).
        assert (Eq : firstn (Z.to_nat n) (skipn 8 (v ++ e)) = q).
        { rewrite skipn_app. replace (8 - length v) with 0 by lia. rewrite skipn_O, firstn_app, skipn_length.
          replace (Z.to_nat n - (length v - 8)) with 0 by lia. now rewrite firstn_O, app_nil_r. }
        exists (q :: parts), (c :: l), r. split; [|split; [constructor; [|exact Fp]|exact T]].
        * unfold counted. cbn [map concat]. fold (counted parts). rewrite <- !app_assoc, <- Er.
          assert (En : put_u64 (zlen q) = firstn 8 v).
          { unfold zlen. rewrite Lq, Z2Nat.id by lia. unfold n. rewrite firstn_app. replace (8 - length v) with 0 by lia. rewrite firstn_O, app_nil_r.
            apply put_u64_unle. rewrite firstn_length. lia. }
          rewrite En. unfold q, rest. replace (Z.to_nat (8 + n)) with (Z.to_nat n + 8) by lia. rewrite <- skipn_skipn, firstn_skipn. symmetry. apply firstn_skipn.
        * rewrite Eq in Cc. eapply accepted_itself; [|exact Cc]. unfold zlen in *. rewrite Lq. lia.
      + rewrite <- Sp. exact L.
      + unfold rest. rewrite skipn_length. unfold v in *. cbn [length] in *. lia.
    - intros (parts & l & rest & -> & Fp & T). destruct parts as [|q parts].
      + change (counted [] ++ rest) with rest in *. destruct T as (N & T). rewrite commits_head by auto. destruct T as [T|(T1 & T)].
        { now rewrite (proj2 (Z.ltb_lt (zlen (rest ++ e)) 8)) by (unfold zlen; lia). }
        rewrite (proj2 (Z.ltb_ge (zlen (rest ++ e)) 8)) by (unfold zlen; lia). cbv zeta in *. set (n := unle (firstn 8 (rest ++ e))) in *.
        destruct (Z.ltb_spec (zlen (rest ++ e) - 8) n) as [Big|Big]; [reflexivity|]. destruct T as [T|(_ & [T|((c & T) & Lo)])]; [lia| |]; rewrite T; cbn [bind]; [reflexivity|].
        now rewrite (proj2 (Z.ltb_lt (zlen rest - 8) n)) by lia.
      + inversion Fp as [|? c ? l' Cq Fr]; subst. change (counted (q :: parts)) with ((put_u64 (zlen q) ++ q) ++ counted parts) in *.
        rewrite <- !app_assoc in F. rewrite <- !app_assoc in L. rewrite <- !app_assoc.
        set (tl := counted parts ++ rest) in *.
        pose proof (zlen_nonneg q) as Nq. pose proof (zlen_nonneg tl) as Nt. pose proof (zlen_nonneg e) as Ne.
        assert (L' := L). rewrite !zlen_app, zlen_put_u64 in L'.
        rewrite commits_head; [|intros X; apply (f_equal (@length byte)) in X; rewrite app_length, put_u64_length in X; cbn [length] in X; lia|].
        2: { rewrite <- !app_assoc. unfold tl. rewrite <- !app_assoc. exact L. }
        rewrite <- !app_assoc. rewrite firstn_app_exact by apply put_u64_length. rewrite unle_put_u64.
        rewrite Z.mod_small by (unfold two63, two64 in *; unfold tl in *; rewrite ?zlen_app in *; lia).
        assert (Tz : zlen tl = (zlen (counted parts) + zlen rest)%Z) by (unfold tl; apply zlen_app).
        rewrite !zlen_app, zlen_put_u64. cbv zeta.
        rewrite (proj2 (Z.ltb_ge _ 8)) by lia. rewrite (proj2 (Z.ltb_ge _ (zlen q))) by lia.
        rewrite skipn_app_exact by apply put_u64_length. rewrite firstn_app_exact by (unfold zlen; lia).
        rewrite (accepted_anywhere q _ c) by (auto; unfold two63 in *; lia). cbn [bind].
        rewrite (proj2 (Z.ltb_ge _ (zlen q))) by lia.
        assert (P : commits_loop H mv (S f) (GSlice ((p ++ put_u64 (zlen q) ++ q) ++ tl) e) (zlen (p ++ put_u64 (zlen q) ++ q)) = Panic).
        { apply IH.
          - rewrite !zlen_app, zlen_put_u64. lia.
          - rewrite !app_length, put_u64_length in F. lia.
          - exists parts, l', rest. auto. }
        rewrite <- !app_assoc in P. rewrite !zlen_app, zlen_put_u64 in P. rewrite P. reflexivity.
  Qed.

  Lemma commits_panics v e : (zlen (v ++ e) < two63)%Z ->
    (commits_of_content H mv (GSlice v e) = Panic <->
     216 <= length v /\ exists parts l rest, v = counted parts ++ rest /\
       Forall2 (fun q c => commit_of_content H mv (GSlice q []) = Ok c) parts l /\ trips_on (commit_of_content H mv) rest e).
  Proof.
    intros L. unfold commits_of_content, commit_min_size, s_len. cbn [vis].
    destruct (Z.ltb_spec (zlen v) (8 + 208)) as [Sz|Sz]; unfold zlen in Sz.
    - split; [discriminate|]. lia.
    - change (slice_fuel (GSlice v e)) with (S (length v + length e)).
      rewrite <- (commits_loop_panics (length v + length e) [] v e L) by lia. change ([] ++ v) with v. change (zlen []) with 0%Z.
      split; [intros E; split; [lia|]|intros (_ & ->); reflexivity].
      destruct (commits_loop H mv _ (GSlice v e) 0) as [[|? ?]| | |]; cbn [bind commits_now] in E; congruence.
  Qed.

  (** References. *)
  Lemma reference_panics v e : (zlen (v ++ e) < two63)%Z ->
    (reference_of_content H mv (GSlice v e) = Panic <->
     360 <= length v /\
     let n := unle (firstn 8 v) in
     ((two63 - 8 <= n)%Z \/
      (n <= zlen v - 8)%Z /\
      let keys := keys_of_content H (GSlice (firstn (Z.to_nat n) (skipn 8 v)) (skipn (Z.to_nat (8 + n)) (v ++ e))) in
      (keys = Panic \/
       (exists l, keys = Ok l) /\
       let rest := skipn (Z.to_nat (8 + n)) v in
       (length (rest ++ e) < 8 \/
        8 <= length (rest ++ e) /\
        let m := unle (firstn 8 (rest ++ e)) in
        ((two63 - (zlen v - zlen rest) - 8 <= m <= two64 + (zlen rest - 8))%Z \/
         (m <= zlen rest - 8)%Z /\
         commits_of_content H mv (GSlice (firstn (Z.to_nat m) (skipn 8 rest)) (skipn (Z.to_nat (8 + m)) (rest ++ e))) = Panic))))).
  Proof.
    intros L. unfold reference_of_content, min_reference_size. set (s := GSlice v e).
    assert (Ln : s_len s = zlen v) by reflexivity. rewrite Ln.
    destruct (Z.ltb_spec (zlen v) 360) as [Sz|Sz]; [split; [discriminate|unfold zlen in Sz; lia]|].
    assert (Cap : s_cap s = zlen (v ++ e)) by (unfold s_cap, s; cbn [vis ext]; now rewrite zlen_app).
    assert (Lt : (zlen v <= zlen (v ++ e))%Z) by (rewrite zlen_app; pose proof (zlen_nonneg e); lia).
    assert (G : 360 <= length v) by (unfold zlen in Sz; lia).
    destruct (slice_in s 0 8 ltac:(lia) ltac:(rewrite Cap; lia)) as (tb & Et & Ltb). rewrite Et. cbn [bind]. rewrite get_in by lia. cbn [bind].
    assert (Vb : vis tb = firstn 8 v) by (rewrite (s_slice_inv_vis _ _ _ _ Et) by (rewrite Ln; lia); reflexivity). rewrite Vb, firstn_firstn.
    change (Nat.min 8 8) with 8. set (n := unle (firstn 8 v)). clear Et Vb.
    assert (Rn : (0 <= n < two64)%Z) by (apply unle_8_range; rewrite firstn_length; lia). cbv zeta.
    destruct (Z.le_gt_cases (two63 - 8) n) as [Big|Fit].
    { assert (X : (i64 (n + 8) < 8)%Z).
      { unfold i64, two63, two64 in *. repeat match goal with |- context [(?a <? ?b)%Z] => destruct (Z.ltb_spec a b) end; Z.div_mod_to_equations; lia. }
      rewrite (proj2 (Z.ltb_ge (zlen v) _)) by lia. rewrite slice_out by lia. cbn [bind]. tauto. }
    rewrite (i64_small (n + 8)) by lia. replace (n + 8)%Z with (8 + n)%Z by lia.
    destruct (Z.ltb_spec (zlen v) (8 + n)) as [Lo|Hi].
    { split; [discriminate|]. intros (_ & [X|(X & _)]); lia. }
    destruct (slice_in s 8 (8 + n) ltac:(lia) ltac:(rewrite Cap; lia)) as (ks & Ek & _). rewrite Ek. cbn [bind].
    apply s_slice_inv in Ek as (_ & _ & Ek). unfold s in Ek. cbn [vis ext] in Ek. replace (8 + n - 8)%Z with n in Ek by lia. change (Z.to_nat 8) with 8 in Ek.
    assert (E1 : firstn (Z.to_nat n) (skipn 8 (v ++ e)) = firstn (Z.to_nat n) (skipn 8 v)).
    { rewrite skipn_app. replace (8 - length v) with 0 by lia. rewrite skipn_O, firstn_app, skipn_length.
      replace (Z.to_nat n - (length v - 8)) with 0 by (unfold zlen in *; lia). now rewrite firstn_O, app_nil_r. }
    rewrite E1 in Ek. rewrite <- Ek.
    destruct (keys_of_content H ks) as [keys| | |] eqn:Eh; cbn [bind].
    2: { split; [discriminate|]. intros (_ & [X|(_ & [X|((t & X) & _)])]); [lia|discriminate|discriminate]. }
    2: { split; [|reflexivity]. intros _. split; [exact G|]. right. split; [lia|]. left. reflexivity. }
    2: { split; [discriminate|]. intros (_ & [X|(_ & [X|((t & X) & _)])]); [lia|discriminate|discriminate]. }
    set (rest := skipn (Z.to_nat (8 + n)) v).
    assert (Lr : zlen rest = (zlen v - (8 + n))%Z) by (unfold rest, zlen in *; rewrite skipn_length; lia).
    assert (Re : skipn (Z.to_nat (8 + n)) (v ++ e) = rest ++ e).
    { unfold rest. rewrite skipn_app. replace (Z.to_nat (8 + n) - length v) with 0 by (unfold zlen in *; lia). reflexivity. }
    assert (Lre : zlen (rest ++ e) = (zlen (v ++ e) - (8 + n))%Z) by (rewrite !zlen_app; lia).
    match goal with |- ?q = Panic <-> _ => assert (Q : q = Panic <-> (length (rest ++ e) < 8 \/
        8 <= length (rest ++ e) /\
        let m := unle (firstn 8 (rest ++ e)) in
        ((two63 - (zlen v - zlen rest) - 8 <= m <= two64 + (zlen rest - 8))%Z \/
         (m <= zlen rest - 8)%Z /\
         commits_of_content H mv (GSlice (firstn (Z.to_nat m) (skipn 8 rest)) (skipn (Z.to_nat (8 + m)) (rest ++ e))) = Panic))) end.
    2: { rewrite Q. cbv zeta. split.
         - intros X. split; [exact G|]. right. split; [lia|]. right. split; [eauto|exact X].
         - intros (_ & [X|(_ & [X|(_ & X)])]); [lia|congruence|exact X]. }
    cbv zeta. destruct (Nat.lt_ge_cases (length (rest ++ e)) 8) as [Sh|En].
    { rewrite slice_out by (rewrite Cap; unfold zlen in *; lia). cbn [bind]. split; [|reflexivity]. intros _. left. exact Sh. }
    assert (Enz : (8 <= zlen (rest ++ e))%Z) by (unfold zlen; lia).
    destruct (slice_in s (8 + n) (8 + n + 8) ltac:(lia) ltac:(rewrite Cap; lia)) as (cb & Ec & Lc). rewrite Ec. cbn [bind]. rewrite get_in by lia. cbn [bind].
    apply s_slice_inv in Ec as (_ & _ & Ec). unfold s in Ec. cbn [vis ext] in Ec. rewrite Re in Ec. replace (Z.to_nat (8 + n + 8 - (8 + n))) with 8 in Ec by lia.
    assert (Vc : firstn 8 (vis cb) = firstn 8 (rest ++ e)) by (rewrite Ec; cbn [vis]; now rewrite firstn_firstn). rewrite Vc. clear Ec Vc.
    set (m := unle (firstn 8 (rest ++ e))).
    assert (Rm : (0 <= m < two64)%Z) by (apply unle_8_range; rewrite firstn_length; lia).
    destruct (Z.le_gt_cases (two63 - (zlen v - zlen rest) - 8) m) as [Bigm|Fitm].
    { assert (X : (i64 (m + (8 + n + 8)) < 8 + n + 8)%Z).
      { unfold i64, two63, two64 in *. repeat match goal with |- context [(?a <? ?b)%Z] => destruct (Z.ltb_spec a b) end; Z.div_mod_to_equations; lia. }
      destruct (Z.ltb_spec (zlen v) (i64 (m + (8 + n + 8)))) as [W|W].
      - split; [discriminate|]. assert (Y : (two64 + (zlen rest - 8) < m)%Z).
        { revert W. unfold i64, two63, two64 in *. repeat match goal with |- context [(?a <? ?b)%Z] => destruct (Z.ltb_spec a b) end; Z.div_mod_to_equations; lia. }
        intros [Z|(_ & [Z|(Z & _)])]; unfold two64 in *; lia.
      - rewrite slice_out by lia. cbn [bind]. split; [|reflexivity]. intros _. right. split; [exact En|]. left. split; [lia|].
        revert W. unfold i64, two63, two64 in *. repeat match goal with |- context [(?a <? ?b)%Z] => destruct (Z.ltb_spec a b) end; Z.div_mod_to_equations; lia. }
    rewrite (i64_small (m + (8 + n + 8))) by lia.
    destruct (Z.ltb_spec (zlen v) (m + (8 + n + 8))) as [Lom|Him].
    { split; [discriminate|]. intros [X|(_ & [X|(X & _)])]; lia. }
    destruct (slice_in s (8 + n + 8) (m + (8 + n + 8)) ltac:(lia) ltac:(rewrite Cap; lia)) as (cs & Es & _). rewrite Es. cbn [bind].
    apply s_slice_inv in Es as (_ & _ & Es). unfold s in Es. cbn [vis ext] in Es.
    replace (m + (8 + n + 8) - (8 + n + 8))%Z with m in Es by lia.
    replace (Z.to_nat (8 + n + 8)) with (8 + Z.to_nat (8 + n)) in Es by lia.
    replace (Z.to_nat (m + (8 + n + 8))) with (Z.to_nat (8 + m) + Z.to_nat (8 + n)) in Es by lia.
    rewrite <- !skipn_skipn, Re in Es.
    assert (E2 : firstn (Z.to_nat m) (skipn 8 (rest ++ e)) = firstn (Z.to_nat m) (skipn 8 rest)).
    { assert (8 + Z.to_nat m <= length rest) by (unfold zlen in *; lia). rewrite skipn_app. replace (8 - length rest) with 0 by lia. rewrite skipn_O, firstn_app, skipn_length.
      replace (Z.to_nat m - (length rest - 8)) with 0 by lia. now rewrite firstn_O, app_nil_r. }
    rewrite E2 in Es. rewrite <- Es. destruct (commits_of_content H mv cs) as [cl| | |]; cbn [bind].
    - split; [discriminate|]. intros [X|(_ & [X|(_ & X)])]; [lia|lia|discriminate].
    - split; [discriminate|]. intros [X|(_ & [X|(_ & X)])]; [lia|lia|discriminate].
    - split; [|reflexivity]. intros _. right. split; [exact En|]. right. split; [lia|reflexivity].
    - split; [discriminate|]. intros [X|(_ & [X|(_ & X)])]; [lia|lia|discriminate].
  Qed.
End Faults.
