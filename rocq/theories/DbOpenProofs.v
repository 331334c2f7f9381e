(** Reading the reference back from a database file. *)
From Coq Require Import List ZArith NArith Lia Bool.
From Coq Require Import Init.Byte Strings.Byte.
From Verif Require Import Base BaseLemmas HashModel HashProofs SpecHash HashTreeModel HashTreeProofs
  RefModel RefProofs SpecRef DbModel SpecDb DbRefProofs DbFsProofs.
Import ListNotations.

(** [sub d off n]: the [n] bytes of [d] at [off]. *)
Definition sub (d : bytes) (off n : Z) : bytes := firstn (Z.to_nat n) (skipn (Z.to_nat off) d).

Lemma sub_cat d off n m : (0 <= off)%Z -> (0 <= n)%Z -> (0 <= m)%Z ->
  sub d off n ++ sub d (off + n) m = sub d off (n + m).
Proof.
  intros A B C. unfold sub. rewrite !Z2Nat.inj_add by lia.
  replace (skipn (Z.to_nat off + Z.to_nat n) d) with (skipn (Z.to_nat n) (skipn (Z.to_nat off) d))
    by (rewrite skipn_skipn'; f_equal; lia).
  generalize (skipn (Z.to_nat off) d). generalize (Z.to_nat n) (Z.to_nat m). clear. intros x y.
  induction x as [|x IH]; intros l; [reflexivity|].
  destruct l as [|b l]; [now rewrite !firstn_nil|]. cbn [firstn skipn Nat.add app]. f_equal. apply IH.
Qed.

Lemma sub_app_mid (p m q : bytes) off n : off = zlen p -> n = zlen m -> sub (p ++ m ++ q) off n = m.
Proof.
  intros -> ->. unfold sub, zlen. rewrite !Nat2Z.id.
  rewrite skipn_app, skipn_all, Nat.sub_diag. cbn [skipn app].
  rewrite firstn_app, firstn_all, Nat.sub_diag. cbn [firstn]. now rewrite app_nil_r.
Qed.

Lemma read_chunks_spec d size last : (0 <= size)%Z -> (0 <= last)%Z ->
  forall k off, (0 <= off)%Z -> (off + Z.of_nat k * size + last <= zlen d)%Z ->
  read_chunks d (S k) size last off =
  Ok (sub d off (Z.of_nat k * size + last), off + (Z.of_nat k * size + last))%Z.
Proof.
  intros P Q. 
  assert (R : forall n off, (0 <= n)%Z -> (0 <= off)%Z -> (off + n <= zlen d)%Z ->
    (if (n =? 0)%Z then Ok [] else if (off + n <=? zlen d)%Z
       then Ok (firstn (Z.to_nat n) (skipn (Z.to_nat off) d)) else Err) = Ok (sub d off n)).
  { intros n off A B C. destruct (Z.eqb_spec n 0) as [->|N]; [reflexivity|].
    destruct (Z.leb_spec (off + n) (zlen d)); [reflexivity|lia]. }
  induction k as [|k IH]; intros off A B.
  - change (read_chunks d 1 size last off) with
      (if (last <? 0)%Z then Panic else
       do b <- (if (last =? 0)%Z then Ok [] else if (off + last <=? zlen d)%Z
       then Ok (firstn (Z.to_nat last) (skipn (Z.to_nat off) d)) else Err);
       do r <- read_chunks d 0 size last (off + last); Ok (b ++ fst r, snd r)).
    ltb_false. rewrite R by lia. cbn [bind read_chunks fst snd]. rewrite app_nil_r.
    cbn [Z.of_nat]. rewrite Z.mul_0_l, Z.add_0_l. reflexivity.
  - assert (Sk : Z.of_nat (S k) = (Z.of_nat k + 1)%Z) by lia.
    change (read_chunks d (S (S k)) size last off) with
      (if (size <? 0)%Z then Panic else
       do b <- (if (size =? 0)%Z then Ok [] else if (off + size <=? zlen d)%Z
       then Ok (firstn (Z.to_nat size) (skipn (Z.to_nat off) d)) else Err);
       do r <- read_chunks d (S k) size last (off + size); Ok (b ++ fst r, snd r)).
    rewrite Sk in *. ltb_false. rewrite R by nia. cbn [bind].
    rewrite IH by nia. cbn [bind fst snd]. rewrite sub_cat by nia.
    do 2 f_equal; [f_equal|]; lia.
Qed.

(** More chunks than the file has bytes: the read fails, so the clipping in
    [retrieve_reference] loses nothing. *)
Lemma read_chunks_past d size last : (0 < size)%Z ->
  forall k off, (0 <= off)%Z -> (zlen d < off + Z.of_nat (S k) * size)%Z ->
  read_chunks d (S (S k)) size last off = Err.
Proof.
  intros P. induction k as [|k IH]; intros off A B.
  - cbn [read_chunks Nat.eqb]. ltb_false.
    replace (size =? 0)%Z with false by (symmetry; apply Z.eqb_neq; lia).
    destruct (Z.leb_spec (off + size) (zlen d)); [lia|reflexivity].
  - change (read_chunks d (S (S (S k))) size last off) with
      (if (size <? 0)%Z then Panic else
       do b <- (if (size =? 0)%Z then Ok [] else if (off + size <=? zlen d)%Z
       then Ok (firstn (Z.to_nat size) (skipn (Z.to_nat off) d)) else Err);
       do r <- read_chunks d (S (S k)) size last (off + size); Ok (b ++ fst r, snd r)).
    ltb_false. replace (size =? 0)%Z with false by (symmetry; apply Z.eqb_neq; lia).
    destruct (Z.leb_spec (off + size) (zlen d)); [|reflexivity].
    cbn [bind]. rewrite IH by lia. reflexivity.
Qed.

Lemma read_chunks_clip d size last amount : (0 < size)%Z -> (zlen d + 2 <= amount)%Z ->
  read_chunks d (Z.to_nat amount) size last 8 = read_chunks d (Z.to_nat (zlen d + 2)) size last 8.
Proof.
  intros P L. pose proof (zlen_nonneg d).
  replace (Z.to_nat amount) with (S (S (Z.to_nat (amount - 2)))) by lia.
  replace (Z.to_nat (zlen d + 2)) with (S (S (Z.to_nat (zlen d)))) by lia.
  rewrite !read_chunks_past by nia. reflexivity.
Qed.

Lemma read_chunks_neg d size last amount off : (size < 0)%Z -> (2 <= amount)%Z ->
  read_chunks d (Z.to_nat amount) size last off = Panic.
Proof.
  intros P L. replace (Z.to_nat amount) with (S (S (Z.to_nat (amount - 2)))) by lia.
  cbn [read_chunks Nat.eqb]. ltb_true. reflexivity.
Qed.

Section Open.
  Variable H : bytes -> bytes.
  Variable mv : byte.
  Variable behind : bytes -> bytes.

  Lemma retrieve_none chunk d : (zlen d < 8)%Z ->
    retrieve_reference H mv behind chunk d = Ok (None, 0%Z).
  Proof. intros L. unfold retrieve_reference. ltb_true. reflexivity. Qed.

  Lemma retrieve_some chunk r area : wf_reference H mv r -> (0 < chunk)%Z ->
    (zlen (header (Some r) ++ area) < two63)%Z ->
    retrieve_reference H mv behind chunk (header (Some r) ++ area) = Ok (Some r, zlen (header (Some r))).
  Proof.
    intros W P L. cbn [header] in *. set (rc := reference_content r) in *.
    rewrite !zlen_app, zlen_put_u64 in L. pose proof (zlen_nonneg rc). pose proof (zlen_nonneg area).
    pose proof (reference_content_zlen H mv r W) as Lr. fold rc in Lr.
    unfold retrieve_reference. rewrite !zlen_app, zlen_put_u64.
    replace (8 + zlen rc + zlen area <? 8)%Z with false by (symmetry; apply Z.ltb_ge; lia).
    rewrite <- app_assoc. rewrite firstn_app_exact by apply put_u64_length.
    rewrite unle_put_u64. rewrite i64_mod, (i64_small (zlen rc)) by lia.
    rewrite (u64_small (zlen rc)) by (rewrite two63_val, two64_val in *; lia).
    assert (S0 : (0 < make_chunk chunk (zlen rc) <= zlen rc)%Z)
      by (unfold make_chunk; destruct (Z.ltb_spec (zlen rc) chunk); lia).
    rewrite i64_small by lia.
    set (size := make_chunk chunk (zlen rc)) in *.
    replace (size =? 0)%Z with false by (symmetry; apply Z.eqb_neq; lia).
    rewrite Z.quot_div_nonneg by lia.
    set (q := (zlen rc / size)%Z).
    assert (Q0 : (0 <= q <= zlen rc)%Z) by (split; [apply Z.div_pos; lia|apply Z.div_le_upper_bound; nia]).
    assert (Qm : (0 <= zlen rc - size * q)%Z).
    { unfold q. pose proof (Z.div_mod (zlen rc) size). pose proof (Z.mod_pos_bound (zlen rc) size). lia. }
    rewrite Z.min_l by (rewrite ?zlen_app; lia).
    replace (q + 1 - 1)%Z with q by lia.
    replace (Z.to_nat (q + 1)) with (S (Z.to_nat q)) by lia.
    rewrite read_chunks_spec by (rewrite ?zlen_app, ?zlen_put_u64; lia).
    rewrite Z2Nat.id by lia. replace (q * size + (zlen rc - size * q))%Z with (zlen rc) by lia.
    cbn [bind fst snd].
    rewrite sub_app_mid by (rewrite ?zlen_put_u64; auto).
    assert (E : forall e, reference_of_content H mv (GSlice rc e) = Ok r).
    { intros e. rewrite <- (app_nil_r rc). apply reference_roundtrip; auto.
      fold rc. rewrite app_nil_r. lia. }
    rewrite E. cbn [bind]. rewrite u64_small by (rewrite two63_val, two64_val in *; lia). reflexivity.
  Qed.

  Hypothesis HL : forall x, length (H x) = 64.

  Lemma retrieve_history chunk bs area : Forall ok_batch bs -> (0 < chunk)%Z -> (bs = [] -> area = []) ->
    (zlen (history_data bs) < two63)%Z -> (zlen (header (history_ref H mv bs) ++ area) < two63)%Z ->
    retrieve_reference H mv behind chunk (header (history_ref H mv bs) ++ area) =
    Ok (history_ref H mv bs, zlen (header (history_ref H mv bs))).
  Proof.
    intros F P Z0 Ld L. destruct (history_ref H mv bs) as [r|] eqn:E.
    - apply retrieve_some; auto. eapply history_ref_wf; eauto.
    - destruct bs; [|discriminate]. rewrite Z0 by auto. apply retrieve_none. cbn. lia.
  Qed.

  Lemma retrieve_total chunk d : retrieve_reference H mv behind chunk d <> Fuel.
  Proof.
    unfold retrieve_reference. destruct (zlen d <? 8)%Z; [discriminate|].
    match goal with |- context [if ?b then _ else _] => destruct b end; [discriminate|].
    apply bind_Fuel; [|intros x _; apply bind_Fuel; [apply reference_of_content_total|discriminate]].
    generalize (Z.to_nat (Z.min (Z.quot (i64 (unle (firstn 8 d)))
       (i64 (make_chunk chunk (u64 (i64 (unle (firstn 8 d)))))) + 1) (zlen d + 2))).
    match goal with |- forall n, read_chunks d n ?s ?l _ <> _ => generalize s, l end.
    intros s l n. generalize 8%Z. induction n as [|n IH]; intros off; cbn [read_chunks]; [discriminate|].
    match goal with |- (if ?b then _ else _) <> _ => destruct b end; [discriminate|].
    apply bind_Fuel; [|intros b _; apply bind_Fuel; [apply IH|discriminate]].
    repeat match goal with |- (if ?b then _ else _) <> _ => destruct b end; discriminate.
  Qed.
End Open.
