(** Proofs about the codecs of contents and references. *)
From Coq Require Import List ZArith NArith Lia Bool.
From Coq Require Import Init.Byte Strings.Byte.
From Verif Require Import Base BaseLemmas HashModel HashProofs SpecHash HashTreeModel HashTreeProofs RefModel SpecRef.
Import ListNotations.

Definition is_u64 (z : Z) : Prop := (0 <= z < two64)%Z.
Definition is_i64 (z : Z) : Prop := (- two63 <= z < two63)%Z.

Lemma u64_mod z : is_u64 z -> (z mod two64 = z)%Z.
Proof. apply Z.mod_small. Qed.

Lemma zlen_64 (h : bytes) : length h = 64 -> zlen h = 64%Z.
Proof. unfold zlen; lia. Qed.

Lemma zlen_cons {A} (x : A) l : zlen (x :: l) = (1 + zlen l)%Z.
Proof. unfold zlen; cbn [length]; lia. Qed.

Ltac ltb_false := match goal with
  | |- context [(?a <? ?b)%Z] => replace (a <? b)%Z with false by (symmetry; apply Z.ltb_ge; lia)
  end.
Ltac ltb_true := match goal with
  | |- context [(?a <? ?b)%Z] => replace (a <? b)%Z with true by (symmetry; apply Z.ltb_lt; lia)
  end.

(** ** Pointers, keys *)

Definition wf_pointer (p : pointer) : Prop :=
  is_u64 (p_from p) /\ (0 < p_length p < two64)%Z.

Lemma pointer_content_length p : length (pointer_content p) = 16.
Proof. unfold pointer_content. rewrite app_length, !put_u64_length. reflexivity. Qed.

Lemma pointer_roundtrip p e : wf_pointer p ->
  pointer_of_content (GSlice (pointer_content p) e) = Ok p.
Proof.
  intros [Wf Wl]. unfold pointer_of_content, s_len, pointer_size; cbn [vis].
  replace (zlen (pointer_content p)) with 16%Z
    by (unfold zlen; now rewrite pointer_content_length).
  change (negb (16 =? 16)%Z) with false. cbv iota. unfold pointer_content.
  rewrite s_slice_pre by (symmetry; apply zlen_put_u64). cbn [bind].
  rewrite get_u64_put_only. cbn [bind].
  rewrite s_from_app by (symmetry; apply zlen_put_u64). cbn [bind].
  rewrite get_u64_put_only. cbn [bind].
  rewrite !u64_mod by (unfold is_u64 in *; lia).
  unfold pointer_now. destruct (Z.leb_spec (p_length p) 0); [lia|].
  destruct p; reflexivity.
Qed.

Definition wf_key (k : content_key) : Prop :=
  length (k_hash k) = 64 /\ is_u64 (k_kind k) /\ wf_pointer (k_content k) /\ length (k_commit k) = 64.

Lemma key_content_length k : wf_key k -> length (key_content k) = 152.
Proof.
  intros (A & B & C & D). unfold key_content.
  rewrite !app_length, put_u64_length, pointer_content_length. lia.
Qed.

Section Codec.
  Variable H : bytes -> bytes.
  Variable mv : byte.

  Lemma key_roundtrip k e : wf_key k ->
    key_of_content H (GSlice (key_content k) e) = Ok k.
  Proof.
    intros W. pose proof (key_content_length k W) as L. destruct W as (Eh & Wk & Wp & Ec).
    unfold key_of_content, s_len, content_key_size; cbn [vis].
    replace (zlen (key_content k)) with 152%Z by (unfold zlen; lia).
    change (negb (152 =? 152)%Z) with false. cbv iota. unfold key_content.
    pose proof (zlen_64 _ Eh) as Zh. pose proof (zlen_64 _ Ec) as Zc.
    assert (Zp : zlen (pointer_content (k_content k)) = 16%Z)
      by (unfold zlen; now rewrite pointer_content_length).
    rewrite s_slice_pre by lia. cbn [bind vis].
    rewrite s_slice_mid by (rewrite ?zlen_put_u64; lia). cbn [bind].
    rewrite get_u64_put_only. cbn [bind].
    rewrite (app_assoc (k_hash k)).
    rewrite s_slice_mid by (rewrite ?zlen_app, ?zlen_put_u64; lia). cbn [bind].
    rewrite pointer_roundtrip by auto. cbn [bind].
    rewrite (app_assoc (k_hash k ++ _)).
    rewrite <- (app_nil_r (k_commit k)).
    rewrite s_slice_mid by (rewrite ?zlen_app, ?zlen_put_u64; lia). cbn [bind vis].
    rewrite !from_bytes_64 by auto. rewrite u64_mod by auto. destruct k; reflexivity.
  Qed.

  Lemma keys_loop_roundtrip ks : forall p q e begins,
    Forall wf_key ks -> begins = zlen p ->
    keys_loop H (length ks) (GSlice (p ++ concat (map key_content ks) ++ q) e) begins = Ok ks.
  Proof.
    induction ks as [|k ks IH]; intros p q e begins W E; cbn [length keys_loop]; auto.
    inversion W as [|? ? Wk Wks]; subst. cbn [map concat].
    assert (Zk : zlen (key_content k) = 152%Z) by (unfold zlen; rewrite key_content_length by auto; lia).
    rewrite <- app_assoc.
    rewrite s_slice_mid by (unfold content_key_size; lia). cbn [bind].
    rewrite key_roundtrip by auto. cbn [bind].
    rewrite (app_assoc p). rewrite IH; auto. rewrite zlen_app. unfold content_key_size. lia.
  Qed.

  Lemma keys_enc_length ks : Forall wf_key ks ->
    length (concat (map key_content ks)) = 152 * length ks.
  Proof.
    induction 1 as [|k ks W Ws IH]; cbn [map concat length]; auto.
    rewrite app_length, IH, key_content_length by auto. lia.
  Qed.

  Lemma keys_content_length ks : Forall wf_key ks -> length (keys_content ks) = 8 + 152 * length ks.
  Proof.
    intros W. unfold keys_content. rewrite app_length, put_u64_length, keys_enc_length by auto. lia.
  Qed.

  Lemma keys_roundtrip ks e :
    ks <> [] -> Forall wf_key ks -> (zlen (keys_content ks) < two63)%Z ->
    keys_of_content H (GSlice (keys_content ks) e) = Ok ks.
  Proof.
    intros Hne W L. pose proof (keys_content_length ks W) as EL.
    assert (length ks <> 0) by (destruct ks; cbn; [congruence|lia]).
    unfold keys_of_content, s_len, content_key_size; cbn [vis].
    replace (zlen (keys_content ks) <? 8 + 152)%Z with false
      by (symmetry; apply Z.ltb_ge; unfold zlen; lia).
    unfold keys_content in *.
    rewrite s_slice_pre by (symmetry; apply zlen_put_u64). cbn [bind].
    rewrite get_u64_put_only. cbn [bind]. rewrite i64_mod.
    rewrite zlen_app, zlen_put_u64 in L.
    assert (Zl : (zlen ks <= zlen (concat (map key_content ks)))%Z).
    { unfold zlen. rewrite keys_enc_length by auto. lia. }
    pose proof (zlen_nonneg ks).
    rewrite i64_small by lia.
    rewrite Z.min_l.
    2:{ unfold s_cap; cbn [vis ext]. rewrite zlen_app, zlen_put_u64. pose proof (zlen_nonneg e). lia. }
    unfold zlen at 1. rewrite Nat2Z.id.
    rewrite <- (app_nil_r (concat _)).
    rewrite (keys_loop_roundtrip ks (put_u64 (zlen ks)) [] e 8) by auto.
    cbn [bind]. destruct ks; [congruence|reflexivity].
  Qed.

  (** The clipping of the loop count changes nothing. *)
  Lemma keys_loop_past n s b : (s_cap s < b + 152)%Z -> (0 <= b)%Z -> n <> 0 -> keys_loop H n s b = Panic.
  Proof.
    intros L Hb Hn. destruct n as [|n]; [congruence|]. cbn [keys_loop].
    unfold s_slice, content_key_size.
    replace (b + 152 <=? s_cap s)%Z with false by (symmetry; apply Z.leb_gt; lia).
    rewrite andb_false_r. reflexivity.
  Qed.

  Lemma keys_loop_clip : forall n m s b, (0 <= b)%Z ->
    (s_cap s < b + 152 * Z.of_nat (S n))%Z -> S n <= m -> keys_loop H m s b = keys_loop H (S n) s b.
  Proof.
    induction n as [|n IH]; intros m s b Hb L Hm.
    - rewrite !keys_loop_past by lia. reflexivity.
    - destruct m as [|m]; [lia|].
      change (keys_loop H (S m) s b) with
        (do ks <- s_slice s b (b + content_key_size);
         do k <- key_of_content H ks;
         do l <- keys_loop H m s (b + content_key_size);
         Ok (k :: l)).
      change (keys_loop H (S (S n)) s b) with
        (do ks <- s_slice s b (b + content_key_size);
         do k <- key_of_content H ks;
         do l <- keys_loop H (S n) s (b + content_key_size);
         Ok (k :: l)).
      rewrite (IH m); auto; unfold content_key_size; lia.
  Qed.

  (** The model's clipped count behaves as the count read from the bytes. *)
  Lemma keys_count_clip s z :
    keys_loop H (Z.to_nat (Z.min z (s_cap s + 1))) s 8 = keys_loop H (Z.to_nat z) s 8.
  Proof.
    destruct (Z.le_gt_cases z (s_cap s + 1)).
    - now rewrite Z.min_l.
    - rewrite Z.min_r by lia. symmetry.
      assert (0 <= s_cap s)%Z.
      { unfold s_cap. pose proof (zlen_nonneg (vis s)). pose proof (zlen_nonneg (ext s)). lia. }
      replace (Z.to_nat (s_cap s + 1)) with (S (Z.to_nat (s_cap s))) by lia.
      apply keys_loop_clip; lia.
  Qed.

  (** ** Contents *)
  Definition wf_content (c : content) : Prop :=
    length (ct_hash c) = 64 /\ is_u64 (ct_kind c) /\ ct_data c <> [].

  Lemma content_content_zlen c : wf_content c -> zlen (content_content c) = (72 + zlen (ct_data c))%Z.
  Proof.
    intros (A & B & C). unfold content_content. rewrite !zlen_app, zlen_put_u64, (zlen_64 _ A). lia.
  Qed.

  Lemma data_pos c : wf_content c -> (1 <= zlen (ct_data c))%Z.
  Proof. intros (_ & _ & C). unfold zlen. destruct (ct_data c); [congruence|cbn [length]; lia]. Qed.

  Lemma content_roundtrip c e : wf_content c ->
    content_of_content H (GSlice (content_content c) e) = Ok c.
  Proof.
    intros W. pose proof (content_content_zlen c W) as Z0. pose proof (data_pos c W) as Hd.
    destruct W as (Eh & Wk & Nd). pose proof (zlen_64 _ Eh) as Zh.
    unfold content_of_content, s_len, min_content_size; cbn [vis]. rewrite Z0. ltb_false.
    unfold content_content.
    rewrite s_slice_pre by lia. cbn [bind vis].
    rewrite s_slice_mid by (rewrite ?zlen_put_u64; lia). cbn [bind].
    rewrite get_u64_put_only. cbn [bind].
    rewrite app_assoc. rewrite s_from_app by (rewrite zlen_app, zlen_put_u64; lia). cbn [bind vis].
    rewrite from_bytes_64 by auto. rewrite u64_mod by auto.
    unfold content_now. destruct c as [h d k]; cbn in *. destruct d; congruence.
  Qed.

  Lemma contents_loop_roundtrip cs : forall fuel e,
    Forall wf_content cs -> (zlen (contents_content cs) < two63)%Z ->
    length cs < fuel ->
    contents_loop H fuel (GSlice (contents_content cs) e) = Ok cs.
  Proof.
    induction cs as [|c cs IH]; intros fuel e W L F; (destruct fuel as [|fuel]; [lia|]).
    - reflexivity.
    - inversion W as [|? ? Wc Wcs]; subst. cbn [contents_loop].
      unfold contents_content in *. cbn [map concat] in *.
      set (cc := content_content c) in *.
      set (enc := concat (map (fun c => put_u64 (zlen (content_content c)) ++ content_content c) cs)) in *.
      pose proof (content_content_zlen c Wc) as Zc. fold cc in Zc. pose proof (data_pos c Wc).
      pose proof (zlen_nonneg enc).
      rewrite !zlen_app, zlen_put_u64 in L.
      unfold s_len; cbn [vis]. rewrite !zlen_app, zlen_put_u64.
      replace (8 + zlen cc + zlen enc <=? 0)%Z with false by (symmetry; apply Z.leb_gt; lia).
      rewrite <- app_assoc.
      rewrite s_slice_pre by (symmetry; apply zlen_put_u64). cbn [bind].
      rewrite get_u64_put_only. cbn [bind]. rewrite i64_mod.
      rewrite (i64_small (zlen cc)) by lia. rewrite (i64_small (8 + zlen cc)) by lia.
      rewrite s_slice_mid by (rewrite zlen_put_u64; lia). cbn [bind].
      assert (Er : forall e, content_of_content H (GSlice cc e) = Ok c)
        by (intros; apply content_roundtrip; auto).
      rewrite Er. cbn [bind].
      rewrite app_assoc. rewrite s_from_app by (rewrite zlen_app, zlen_put_u64; lia). cbn [bind].
      rewrite IH; auto; [lia|cbn [length] in F; lia].
  Qed.

  Lemma contents_content_length cs : Forall wf_content cs -> 81 * length cs <= length (contents_content cs).
  Proof.
    unfold contents_content. induction 1 as [|c cs W Ws IH]; cbn [map concat length]; auto.
    pose proof (content_content_zlen c W). pose proof (data_pos c W).
    rewrite !app_length, put_u64_length. unfold zlen in *. lia.
  Qed.

  Lemma contents_roundtrip cs e :
    cs <> [] -> Forall wf_content cs -> (zlen (contents_content cs) < two63)%Z ->
    contents_of_content H (GSlice (contents_content cs) e) = Ok cs.
  Proof.
    intros Hne W L. pose proof (contents_content_length cs W) as Lc.
    assert (length cs <> 0) by (destruct cs; cbn; [congruence|lia]).
    unfold contents_of_content, s_len, min_contents_size; cbn [vis].
    replace (zlen (contents_content cs) <? 81)%Z with false
      by (symmetry; apply Z.ltb_ge; unfold zlen; lia).
    rewrite contents_loop_roundtrip; auto.
    - cbn [bind]. destruct cs; [congruence|reflexivity].
    - unfold slice_fuel; cbn [vis ext]. lia.
  Qed.

  (** ** Big integers and decimal texts *)
  Lemma big_roundtrip z : (0 <= z)%Z -> big_set (big_bytes z) = z.
  Proof.
    intros Hz. unfold big_set, big_bytes. rewrite rev_involutive, Z.abs_eq by auto.
    destruct (Z.eqb_spec z 0) as [->|N]; [reflexivity|].
    rewrite unle_le. apply Z.mod_small. split; auto.
    pose proof (Z.log2_spec z ltac:(lia)) as [_ Hlt].
    pose proof (Z.log2_nonneg z).
    eapply Z.lt_le_trans; [exact Hlt|].
    pose proof (Z.div_mod (Z.log2 z) 8 ltac:(lia)).
    pose proof (Z.mod_pos_bound (Z.log2 z) 8 ltac:(lia)).
    pose proof (Z.div_pos (Z.log2 z) 8 ltac:(lia) ltac:(lia)).
    change 256%Z with (2 ^ 8)%Z. rewrite <- Z.pow_mul_r by lia.
    apply Z.pow_le_mono_r; lia.
  Qed.

  Definition digits_val (b : bytes) : Z := fold_left (fun a c => a * 10 + (Z_of_byte c - 48))%Z b 0%Z.

  Lemma digits_fold b : forall a,
    fold_left (fun a c => a * 10 + (Z_of_byte c - 48))%Z b a = (a * 10 ^ zlen b + digits_val b)%Z.
  Proof.
    unfold digits_val. induction b as [|c b IH]; intros a; cbn [fold_left].
    - rewrite zlen_nil. lia.
    - rewrite IH, (IH (0 * 10 + _)%Z), zlen_cons. pose proof (zlen_nonneg b).
      rewrite Z.pow_add_r by lia. lia.
  Qed.

  Lemma digits_cons c b : digits_val (c :: b) = ((Z_of_byte c - 48) * 10 ^ zlen b + digits_val b)%Z.
  Proof. unfold digits_val at 1. cbn [fold_left]. rewrite digits_fold. reflexivity. Qed.

  Lemma digit_byte n : Z_of_byte (byte_of_Z (48 + n mod 10)) = (48 + n mod 10)%Z.
  Proof.
    rewrite Z_of_byte_of_Z. apply Z.mod_small. pose proof (Z.mod_pos_bound n 10 ltac:(lia)). lia.
  Qed.

  Lemma dec_digits_val fuel : forall n acc, (0 <= n < 10 ^ Z.of_nat fuel)%Z ->
    digits_val (dec_digits fuel n acc) = (n * 10 ^ zlen acc + digits_val acc)%Z.
  Proof.
    induction fuel as [|fuel IH]; intros n acc Hn.
    - cbn [dec_digits]. change (10 ^ Z.of_nat 0)%Z with 1%Z in Hn. replace n with 0%Z by lia. lia.
    - cbn [dec_digits]. pose proof (Z.mod_pos_bound n 10 ltac:(lia)).
      pose proof (Z.div_mod n 10 ltac:(lia)). pose proof (zlen_nonneg acc).
      destruct (Z.ltb_spec n 10).
      + rewrite digits_cons, digit_byte. rewrite Z.mod_small by lia. lia.
      + rewrite IH.
        2:{ split; [apply Z.div_pos; lia|]. apply Z.div_lt_upper_bound; [lia|].
            rewrite Nat2Z.inj_succ, Z.pow_succ_r in Hn by lia. lia. }
        rewrite digits_cons, digit_byte, zlen_cons, Z.pow_add_r by lia. lia.
  Qed.

  Lemma dec_digits_len fuel : forall n acc, length (dec_digits fuel n acc) <= fuel + length acc.
  Proof.
    induction fuel as [|fuel IH]; intros n acc; cbn [dec_digits]; [lia|].
    destruct (n <? 10)%Z; [cbn [length]; lia|].
    specialize (IH (n / 10)%Z (byte_of_Z (48 + n mod 10) :: acc)). cbn [length] in IH. lia.
  Qed.

  Lemma dec_digits_ge fuel : forall n acc, 1 <= fuel -> length acc < length (dec_digits fuel n acc).
  Proof.
    induction fuel as [|fuel IH]; intros n acc F; [lia|]. cbn [dec_digits].
    destruct (n <? 10)%Z; [cbn [length]; lia|].
    destruct fuel as [|fuel]; [cbn [dec_digits length]; lia|].
    specialize (IH (n / 10)%Z (byte_of_Z (48 + n mod 10) :: acc) ltac:(lia)). cbn [length] in IH. lia.
  Qed.

  Lemma dec_digits_in fuel : forall n acc,
    Forall (fun c => 48 <= Z_of_byte c <= 57)%Z acc ->
    Forall (fun c => 48 <= Z_of_byte c <= 57)%Z (dec_digits fuel n acc).
  Proof.
    induction fuel as [|fuel IH]; intros n acc F; cbn [dec_digits]; auto.
    assert (Forall (fun c => 48 <= Z_of_byte c <= 57)%Z (byte_of_Z (48 + n mod 10) :: acc)).
    { constructor; auto. rewrite digit_byte. pose proof (Z.mod_pos_bound n 10 ltac:(lia)). lia. }
    destruct (n <? 10)%Z; auto.
  Qed.

  Lemma dec_string_len n : 1 <= length (dec_string n) <= 20.
  Proof.
    unfold dec_string. destruct (n <? 0)%Z.
    - pose proof (dec_digits_len 19 (- n) []). cbn [length] in *. lia.
    - pose proof (dec_digits_len 19 n []). pose proof (dec_digits_ge 19 n [] ltac:(lia)).
      cbn [length] in *. lia.
  Qed.

  Lemma digits_pos n b : digits n b -> (0 <= n)%Z.
  Proof. destruct 1; lia. Qed.

  Lemma digit_is c d : (0 <= d <= 9)%Z -> Z.of_N (Byte.to_N c) = (48 + d)%Z -> byte_of_Z (48 + d) = c.
  Proof.
    intros Rd E. rewrite <- E. change (Z.of_N (Byte.to_N c)) with (Z_of_byte c). apply byte_of_Z_of_byte.
  Qed.

  Lemma dec_digits_spec n b : digits n b -> forall fuel acc, (n < 10 ^ Z.of_nat fuel)%Z ->
    1 <= fuel -> dec_digits fuel n acc = b ++ acc.
  Proof.
    induction 1 as [d c Rd Ec|n d b c Rn D IH Rd Ec]; intros fuel acc L F; (destruct fuel as [|fuel]; [lia|]);
      cbn [dec_digits].
    - rewrite Z.mod_small by lia. rewrite (digit_is _ _ Rd Ec).
      destruct (Z.ltb_spec d 10); [reflexivity|lia].
    - replace ((10 * n + d) mod 10)%Z with d by (apply (Z.mod_unique_pos _ _ n); lia).
      replace ((10 * n + d) / 10)%Z with n by (apply (Z.div_unique_pos _ _ _ d); lia).
      rewrite (digit_is _ _ Rd Ec).
      destruct (Z.ltb_spec (10 * n + d) 10); [lia|].
      rewrite Nat2Z.inj_succ, Z.pow_succ_r in L by lia.
      rewrite <- app_assoc. apply IH; [lia|].
      destruct fuel; [|lia]. change (10 ^ Z.of_nat 0)%Z with 1%Z in L. lia.
  Qed.

  Lemma dec_string_spec n b : is_i64 n -> decimal n b -> dec_string n = b.
  Proof.
    unfold is_i64. rewrite two63_val. intros R D.
    assert (P : (10 ^ Z.of_nat 19 = 10000000000000000000)%Z) by reflexivity.
    unfold dec_string. destruct D as [(S & D)|(S & c & -> & D)]; destruct (Z.ltb_spec n 0); try lia.
    - rewrite (dec_digits_spec _ _ D) by (rewrite ?P; lia). apply app_nil_r.
    - rewrite (dec_digits_spec _ _ D) by (rewrite ?P; lia). rewrite app_nil_r. reflexivity.
  Qed.

  Lemma dec_string_inj a b : is_i64 a -> is_i64 b -> dec_string a = dec_string b -> a = b.
  Proof.
    unfold is_i64. rewrite two63_val. intros Ra Rb E.
    assert (P : (10 ^ Z.of_nat 19 = 10000000000000000000)%Z) by reflexivity.
    unfold dec_string in E.
    assert (NoSign : forall n, (0 <= n)%Z -> forall t, dec_digits 19 n [] <> byte_of_Z 45 :: t).
    { intros n Hn t Et. pose proof (dec_digits_in 19 n [] (Forall_nil _)) as F. rewrite Et in F.
      inversion F as [|? ? Hc]; subst. vm_compute in Hc. destruct Hc as [Hc _]. now apply Hc. }
    destruct (Z.ltb_spec a 0); destruct (Z.ltb_spec b 0).
    - apply (f_equal (@tl byte)) in E. cbn [tl] in E. apply (f_equal digits_val) in E.
      rewrite !dec_digits_val in E by (rewrite P; lia). rewrite zlen_nil in E. lia.
    - symmetry in E. apply NoSign in E; [tauto|lia].
    - apply NoSign in E; [tauto|lia].
    - apply (f_equal digits_val) in E.
      rewrite !dec_digits_val in E by (rewrite P; lia). rewrite zlen_nil in E. lia.
  Qed.

  (** ** Commits *)

  (** What the commit builder was given. *)
  Definition wf_commit (c : commit) : Prop :=
    exists values time parent proof,
      c = commit_now H mv values time parent proof /\
      wf_ht values /\ is_i64 time /\
      (forall p, parent = Some p -> length p = 64) /\
      (forall z, proof = Some z -> (0 <= z)%Z).

  Lemma ht_content_zlen t : wf_ht t -> (200 <= zlen (ht_content t))%Z.
  Proof. intros W. pose proof (ht_content_length t W). unfold zlen. lia. Qed.

  Lemma commit_content_zlen c : wf_commit c -> (216 <= zlen (commit_content c))%Z.
  Proof.
    intros (v & t & p & pr & -> & Wv & _). unfold commit_content; cbn [c_values c_time c_parent c_mine commit_now].
    rewrite !zlen_app, !zlen_put_u64. pose proof (ht_content_zlen v Wv).
    match goal with |- context [(8 + (8 + (_ + (zlen ?a + zlen ?b))))%Z] =>
      pose proof (zlen_nonneg a); pose proof (zlen_nonneg b) end. lia.
  Qed.

  Lemma i64_of_u64 z : is_i64 z -> i64 (z mod two64) = z.
  Proof. intros R. rewrite i64_mod. now apply i64_signed. Qed.

  Lemma commit_roundtrip c e : wf_commit c -> (zlen (commit_content c) < two63)%Z ->
    commit_of_content H mv (GSlice (commit_content c) e) = Ok c.
  Proof.
    intros W L. pose proof (commit_content_zlen c W) as Lc.
    destruct W as (v & t & parent & proof & -> & Wv & Wt & Wp & Wpr).
    unfold commit_of_content, s_len, commit_min_size; cbn [vis]. ltb_false.
    unfold commit_content in *; cbn [c_values c_time c_parent c_mine commit_now] in *.
    pose proof (ht_content_zlen v Wv) as Lv.
    set (hv := ht_content v) in *.
    set (mp := match match proof with
                     | Some z => Some _ | None => None end with Some m => _ | None => [] end) in *.
    set (pp := match parent with Some p => byte_of_Z 1 :: p | None => [] end) in *.
    rewrite !zlen_app, !zlen_put_u64 in L.
    pose proof (zlen_nonneg mp). pose proof (zlen_nonneg pp).
    rewrite s_slice_pre by (symmetry; apply zlen_put_u64). cbn [bind].
    rewrite get_u64_put_only. cbn [bind].
    rewrite s_slice_mid by (rewrite ?zlen_put_u64; lia). cbn [bind].
    rewrite get_u64_put_only. cbn [bind]. rewrite i64_mod.
    rewrite (i64_small (zlen hv)) by lia. rewrite (i64_small (16 + zlen hv)) by lia.
    rewrite (app_assoc (put_u64 t)).
    rewrite s_slice_mid by (rewrite ?zlen_app, ?zlen_put_u64; lia). cbn [bind].
    assert (Er : forall e, ht_of_content H (GSlice hv e) = Ok v) by (intros; apply ht_roundtrip; auto; fold hv; lia).
    rewrite Er. cbn [bind].
    rewrite (app_assoc _ hv).
    rewrite s_from_app by (rewrite ?zlen_app, ?zlen_put_u64; lia). cbn [bind vis].
    rewrite i64_of_u64 by auto.
    match goal with |- context [bind ?m (fun pr => bind _ _)] =>
      assert (Ep : m = Ok (proof, GSlice pp e)) end.
    { unfold mp in *. destruct proof as [z|]; cbn [m_proof] in *.
      - rewrite zlen_app, zlen_cons, zlen_app, zlen_put_u64. pose proof (zlen_nonneg (big_bytes z)).
        rewrite zlen_cons, zlen_app, zlen_put_u64 in L.
        ltb_true. set (bb := big_bytes z) in *.
        change ((byte_of_Z 0 :: put_u64 (zlen bb) ++ bb) ++ pp)
          with ([byte_of_Z 0] ++ ((put_u64 (zlen bb) ++ bb) ++ pp)).
        rewrite s_slice_pre by reflexivity. cbn [bind vis].
        rewrite (proj2 (byte_eqb_true _ _) eq_refl).
        rewrite s_from_app by reflexivity. cbn [bind].
        rewrite <- app_assoc.
        rewrite s_slice_pre by (symmetry; apply zlen_put_u64). cbn [bind].
        rewrite get_u64_put_only. cbn [bind]. rewrite i64_mod.
        rewrite (i64_small (zlen bb)) by lia. rewrite (i64_small (8 + zlen bb)) by lia.
        rewrite s_slice_mid by (rewrite ?zlen_put_u64; lia). cbn [bind vis].
        rewrite app_assoc. rewrite s_from_app by (rewrite zlen_app, zlen_put_u64; lia).
        cbn [bind]. unfold bb. rewrite big_roundtrip by auto. reflexivity.
      - cbn [app]. unfold pp. destruct parent as [p|].
        + rewrite zlen_cons. pose proof (zlen_nonneg p). ltb_true.
          change (byte_of_Z 1 :: p) with ([byte_of_Z 1] ++ p).
          rewrite s_slice_pre by reflexivity. cbn [bind vis].
          replace (Byte.eqb (byte_of_Z 1) (byte_of_Z 0)) with false by reflexivity. reflexivity.
        + reflexivity. }
    rewrite Ep. cbn [bind fst snd vis].
    match goal with |- context [bind ?m (fun parent => Ok _)] =>
      assert (Epp : m = Ok parent) end.
    { unfold pp. destruct parent as [p|].
      - rewrite zlen_cons. pose proof (zlen_nonneg p). ltb_true.
        change (byte_of_Z 1 :: p) with ([byte_of_Z 1] ++ p).
        rewrite s_from_app by reflexivity. cbn [bind vis]. rewrite from_bytes_64 by auto. reflexivity.
      - reflexivity. }
    rewrite Epp. reflexivity.
  Qed.

  Lemma commits_loop_roundtrip cs : forall fuel p e,
    Forall wf_commit cs -> (zlen (p ++ commits_content cs) < two63)%Z -> length cs < fuel ->
    commits_loop H mv fuel (GSlice (p ++ commits_content cs) e) (zlen p) = Ok cs.
  Proof.
    induction cs as [|c cs IH]; intros fuel p e W L F; (destruct fuel as [|fuel]; [lia|]); cbn [commits_loop].
    - rewrite s_from_app by reflexivity. reflexivity.
    - inversion W as [|? ? Wc Wcs]; subst.
      rewrite s_from_app by reflexivity. cbn [bind].
      unfold commits_content in *. cbn [map concat] in *.
      set (enc := concat (map (fun c => put_u64 (zlen (commit_content c)) ++ commit_content c) cs)) in *.
      pose proof (commit_content_zlen c Wc) as Zc. pose proof (zlen_nonneg enc). pose proof (zlen_nonneg p).
      rewrite !zlen_app, zlen_put_u64 in L.
      unfold s_len; cbn [vis]. rewrite !zlen_app, zlen_put_u64.
      replace (8 + zlen (commit_content c) + zlen enc <=? 0)%Z with false by (symmetry; apply Z.leb_gt; lia).
      rewrite <- app_assoc.
      rewrite s_slice_mid by (rewrite ?zlen_put_u64; lia). cbn [bind].
      rewrite get_u64_put_only. cbn [bind]. rewrite i64_mod.
      rewrite (i64_small (zlen (commit_content c))) by lia.
      rewrite (i64_small (zlen p + 8 + zlen (commit_content c))) by lia.
      rewrite (app_assoc p).
      rewrite s_slice_mid by (rewrite zlen_app, zlen_put_u64; lia). cbn [bind].
      rewrite commit_roundtrip by (auto; lia). cbn [bind].
      rewrite (app_assoc _ (commit_content c)).
      replace (zlen p + 8 + zlen (commit_content c))%Z
        with (zlen ((p ++ put_u64 (zlen (commit_content c))) ++ commit_content c))
        by (rewrite !zlen_app, zlen_put_u64; lia).
      rewrite IH; auto.
      + rewrite !zlen_app, zlen_put_u64. fold enc. lia.
      + cbn [length] in F. lia.
  Qed.

  Lemma commits_content_length cs : Forall wf_commit cs -> 224 * length cs <= length (commits_content cs).
  Proof.
    unfold commits_content. induction 1 as [|c cs W Ws IH]; cbn [map concat length]; auto.
    pose proof (commit_content_zlen c W).
    rewrite !app_length, put_u64_length. unfold zlen in *. lia.
  Qed.

  Lemma commits_roundtrip cs e :
    cs <> [] -> Forall wf_commit cs -> (zlen (commits_content cs) < two63)%Z ->
    commits_of_content H mv (GSlice (commits_content cs) e) = Ok cs.
  Proof.
    intros Hne W L. pose proof (commits_content_length cs W) as Lc.
    assert (length cs <> 0) by (destruct cs; cbn; [congruence|lia]).
    unfold commits_of_content, s_len, commit_min_size; cbn [vis].
    replace (zlen (commits_content cs) <? 8 + 208)%Z with false
      by (symmetry; apply Z.ltb_ge; unfold zlen; lia).
    rewrite (commits_loop_roundtrip cs _ [] e); auto.
    - cbn [bind]. destruct cs; [congruence|reflexivity].
    - unfold slice_fuel; cbn [vis ext]. lia.
  Qed.

  (** ** References *)
  Definition wf_reference (r : reference) : Prop :=
    r_keys r <> [] /\ Forall wf_key (r_keys r) /\ r_commits r <> [] /\ Forall wf_commit (r_commits r).

  Lemma reference_content_zlen r : wf_reference r -> (400 <= zlen (reference_content r))%Z.
  Proof.
    intros (Nk & Wk & Nc & Wc). unfold reference_content. rewrite !zlen_app, !zlen_put_u64.
    unfold zlen. rewrite keys_content_length by auto. pose proof (commits_content_length _ Wc).
    destruct (r_keys r); [congruence|]. destruct (r_commits r); [congruence|]. cbn [length] in *. lia.
  Qed.

  Lemma reference_roundtrip r q e : wf_reference r -> (zlen (reference_content r ++ q) < two63)%Z ->
    reference_of_content H mv (GSlice (reference_content r ++ q) e) = Ok r.
  Proof.
    intros W L. pose proof (reference_content_zlen r W) as Lr.
    destruct W as (Nk & Wk & Nc & Wc).
    unfold reference_of_content, s_len, min_reference_size; cbn [vis].
    rewrite zlen_app in L. pose proof (zlen_nonneg q).
    rewrite !zlen_app. ltb_false. unfold reference_content in *.
    set (kc := keys_content (r_keys r)) in *. set (cc := commits_content (r_commits r)) in *.
    rewrite !zlen_app, !zlen_put_u64 in L. rewrite !zlen_app, !zlen_put_u64 in Lr.
    pose proof (zlen_nonneg kc). pose proof (zlen_nonneg cc).
    rewrite <- !app_assoc.
    rewrite s_slice_pre by (symmetry; apply zlen_put_u64). cbn [bind].
    rewrite get_u64_put_only. cbn [bind].
    rewrite u64_mod by (unfold is_u64; rewrite two63_val, two64_val in *; lia).
    rewrite (i64_small (zlen kc + 8)) by lia.
    rewrite !zlen_app, !zlen_put_u64. ltb_false.
    rewrite s_slice_mid by (rewrite ?zlen_put_u64; lia). cbn [bind].
    assert (Ek : forall e, keys_of_content H (GSlice kc e) = Ok (r_keys r))
      by (intros; apply keys_roundtrip; auto; fold kc; lia).
    rewrite Ek. cbn [bind].
    rewrite (app_assoc (put_u64 _) kc).
    rewrite s_slice_mid by (rewrite ?zlen_app, ?zlen_put_u64; lia). cbn [bind].
    rewrite get_u64_put_only. cbn [bind].
    rewrite u64_mod by (unfold is_u64; rewrite two63_val, two64_val in *; lia).
    rewrite (i64_small (zlen cc + (zlen kc + 8 + 8))) by lia.
    ltb_false.
    rewrite (app_assoc (put_u64 _ ++ kc)).
    rewrite s_slice_mid by (rewrite ?zlen_app, ?zlen_put_u64; lia). cbn [bind].
    assert (Ec : forall e, commits_of_content H mv (GSlice cc e) = Ok (r_commits r))
      by (intros; apply commits_roundtrip; auto; fold cc; lia).
    rewrite Ec. cbn [bind]. destruct r; reflexivity.
  Qed.
End Codec.

(** ** Lookups *)

Lemma keys_find_spec l h : forall acc,
  match keys_find l h acc with
  | Some k => last_such (fun k => k_hash k = h) l k \/
              (acc = Some k /\ Forall (fun k => k_hash k <> h) l)
  | None => acc = None /\ Forall (fun k => k_hash k <> h) l
  end.
Proof.
  induction l as [|k l IH]; intros acc; cbn [keys_find].
  - destruct acc; auto.
  - destruct (bytes_eqb (k_hash k) h) eqn:E.
    + apply bytes_eqb_true in E. specialize (IH (Some k)).
      destruct (keys_find l h (Some k)) as [k'|].
      * left. destruct IH as [(b & a & -> & P & F)|[E' F]].
        -- exists (k :: b), a. auto.
        -- inversion E'; subst k'. exists [], l. auto.
      * destruct IH; discriminate.
    + assert (N : k_hash k <> h) by (intros C; apply bytes_eqb_true in C; congruence).
      specialize (IH acc). destruct (keys_find l h acc) as [k'|].
      * destruct IH as [(b & a & -> & P & F)|[E' F]]; auto. left. exists (k :: b), a. auto.
      * destruct IH; auto.
Qed.

Lemma keys_fetch_spec l h :
  (exists k, keys_fetch l h = Ok k /\ last_such (fun k => k_hash k = h) l k) \/
  (keys_fetch l h = Err /\ Forall (fun k => k_hash k <> h) l).
Proof.
  unfold keys_fetch. pose proof (keys_find_spec l h None) as S.
  destruct (keys_find l h None) as [k|]; [left|right; tauto].
  exists k. split; auto. destruct S as [S|[S _]]; [exact S|discriminate].
Qed.

Lemma commits_find_spec l h : forall acc,
  match commits_find l h acc with
  | Some k => last_such (fun k => c_hash k = h) l k \/
              (acc = Some k /\ Forall (fun k => c_hash k <> h) l)
  | None => acc = None /\ Forall (fun k => c_hash k <> h) l
  end.
Proof.
  induction l as [|k l IH]; intros acc; cbn [commits_find].
  - destruct acc; auto.
  - destruct (bytes_eqb (c_hash k) h) eqn:E.
    + apply bytes_eqb_true in E. specialize (IH (Some k)).
      destruct (commits_find l h (Some k)) as [k'|].
      * left. destruct IH as [(b & a & -> & P & F)|[E' F]].
        -- exists (k :: b), a. auto.
        -- inversion E'; subst k'. exists [], l. auto.
      * destruct IH; discriminate.
    + assert (N : c_hash k <> h) by (intros C; apply bytes_eqb_true in C; congruence).
      specialize (IH acc). destruct (commits_find l h acc) as [k'|].
      * destruct IH as [(b & a & -> & P & F)|[E' F]]; auto. left. exists (k :: b), a. auto.
      * destruct IH; auto.
Qed.

Lemma commits_fetch_spec l h :
  (exists k, commits_fetch l h = Ok k /\ last_such (fun k => c_hash k = h) l k) \/
  (commits_fetch l h = Err /\ Forall (fun k => c_hash k <> h) l).
Proof.
  unfold commits_fetch. pose proof (commits_find_spec l h None) as S.
  destruct (commits_find l h None) as [k|]; [left|right; tauto].
  exists k. split; auto. destruct S as [S|[S _]]; [exact S|discriminate].
Qed.

Lemma keys_by_kind_spec l kind : selects (fun k => k_kind k = kind) l (keys_by_kind l kind).
Proof.
  unfold keys_by_kind. induction l as [|k l IH]; cbn [filter]; [constructor|].
  destruct (Z.eqb_spec (k_kind k) kind); constructor; auto.
Qed.

Lemma keys_next_from_spec l : forall b, (0 <= b)%Z ->
  Forall (fun k => 0 <= p_from (k_content k) /\ 0 < p_length (k_content k) /\
                   p_from (k_content k) + p_length (k_content k) < two63)%Z l ->
  let ends := map (fun k => p_from (k_content k) + p_length (k_content k))%Z l in
  let m := keys_next_from l b in
  (m = b \/ In m ends) /\ (b <= m)%Z /\ Forall (fun z => z <= m)%Z ends.
Proof.
  induction l as [|k l IH]; intros b Hb F; cbn [keys_next_from map].
  - repeat split; auto. lia.
  - inversion F as [|? ? (A & B & C) Fl]; subst.
    set (z := (p_from (k_content k) + p_length (k_content k))%Z) in *.
    assert (E : i64 (u64 z) = z).
    { unfold u64. rewrite Z.mod_small by (rewrite two63_val, two64_val in *; lia). apply i64_small. lia. }
    rewrite E.
    assert (Hb' : (0 <= (if b <? z then z else b))%Z) by (destruct (Z.ltb_spec b z); lia).
    destruct (IH _ Hb' Fl) as (P & Q & R). clear IH.
    set (m := keys_next_from l _) in *.
    repeat split.
    + destruct P as [P|P]; [|right; now right].
      destruct (Z.ltb_spec b z); [right; left; auto|left; auto].
    + destruct (Z.ltb_spec b z); lia.
    + constructor; auto. destruct (Z.ltb_spec b z); lia.
Qed.

(** ** The decoders stop *)
Section Total.
  Variable H : bytes -> bytes.
  Variable mv : byte.

  Ltac nofuel :=
    repeat first
      [ discriminate
      | apply get_u64_fuel | apply s_slice_fuel | apply s_from_fuel
      | apply bind_Fuel; [|intros ? ?]
      | match goal with
        | |- (if ?b then _ else _) <> Fuel => destruct b
        | |- (let (_, _) := ?x in _) <> Fuel => destruct x
        end ].

  Lemma content_of_content_total s : content_of_content H s <> Fuel.
  Proof. unfold content_of_content. nofuel. unfold content_now. destruct (vis _); discriminate. Qed.

  Lemma contents_loop_total fuel : forall s, length (vis s) < fuel -> contents_loop H fuel s <> Fuel.
  Proof.
    induction fuel as [|fuel IH]; intros s F; [lia|]. cbn [contents_loop].
    destruct (s_len s <=? 0)%Z; [discriminate|].
    apply bind_Fuel; [apply s_slice_fuel|]. intros sb _.
    apply bind_Fuel; [apply get_u64_fuel|]. intros z _.
    apply bind_Fuel; [apply s_slice_fuel|]. intros cs Ecs.
    apply bind_Fuel; [apply content_of_content_total|]. intros c _.
    apply bind_Fuel; [apply s_from_fuel|]. intros rest Er.
    apply bind_Fuel; [|discriminate]. apply IH.
    apply s_slice_inv in Ecs as (R & _). apply s_from_inv in Er as (R' & ->). cbn [vis].
    rewrite skipn_length. unfold s_len, zlen in R'. lia.
  Qed.

  Lemma contents_of_content_total s : contents_of_content H s <> Fuel.
  Proof.
    unfold contents_of_content. destruct (_ <? _)%Z; [discriminate|].
    apply bind_Fuel.
    - apply contents_loop_total. unfold slice_fuel. lia.
    - intros l _. destruct l; discriminate.
  Qed.

  Lemma pointer_of_content_total s : pointer_of_content s <> Fuel.
  Proof. unfold pointer_of_content, pointer_now. nofuel. Qed.

  Lemma key_of_content_total s : key_of_content H s <> Fuel.
  Proof. unfold key_of_content. nofuel. apply pointer_of_content_total. Qed.

  Lemma keys_loop_total n : forall s b, keys_loop H n s b <> Fuel.
  Proof.
    induction n as [|n IH]; intros s b; cbn [keys_loop]; nofuel.
    - apply key_of_content_total.
    - apply IH.
  Qed.

  Lemma keys_of_content_total s : keys_of_content H s <> Fuel.
  Proof.
    unfold keys_of_content. nofuel.
    - apply keys_loop_total.
    - unfold keys_now. match goal with |- match ?l with _ => _ end <> _ => destruct l end; discriminate.
  Qed.

  Lemma commit_of_content_total s : commit_of_content H mv s <> Fuel.
  Proof.
    unfold commit_of_content. nofuel.
    - apply ht_of_content_total.
    - match goal with |- match ?l with _ => _ end <> _ => destruct l end; nofuel.
  Qed.

  Lemma commits_loop_total fuel : forall s index, (0 <= index)%Z -> 1 <= fuel ->
    (s_len s - index < Z.of_nat fuel)%Z -> commits_loop H mv fuel s index <> Fuel.
  Proof.
    induction fuel as [|fuel IH]; intros s index Hi F1 F; cbn [commits_loop]; [lia|].
    apply bind_Fuel; [apply s_from_fuel|]. intros r Er.
    destruct (Z.leb_spec (s_len r) 0); [discriminate|].
    pose proof (s_from_inv_len _ _ _ Er).
    apply bind_Fuel; [apply s_slice_fuel|]. intros lb _.
    apply bind_Fuel; [apply get_u64_fuel|]. intros n _.
    apply bind_Fuel; [apply s_slice_fuel|]. intros cs Ecs.
    apply bind_Fuel; [apply commit_of_content_total|]. intros c _.
    apply bind_Fuel; [|discriminate].
    apply s_slice_inv in Ecs as (R & _). apply IH; lia.
  Qed.

  Lemma commits_of_content_total s : commits_of_content H mv s <> Fuel.
  Proof.
    unfold commits_of_content. destruct (_ <? _)%Z; [discriminate|].
    apply bind_Fuel.
    - apply commits_loop_total; unfold slice_fuel, s_len, zlen; lia.
    - intros l _. destruct l; discriminate.
  Qed.

  Lemma reference_of_content_total s : reference_of_content H mv s <> Fuel.
  Proof.
    unfold reference_of_content. nofuel.
    - apply keys_of_content_total.
    - apply commits_of_content_total.
  Qed.
End Total.

(** ** Commit hashes *)
Section CommitHash.
  Variable H : bytes -> bytes.
  Variable mv : byte.

  Lemma lead_score_spec b : leading mv b (lead_score mv b).
  Proof.
    induction b as [|x b (rest & E & N)]; cbn [lead_score].
    - exists []. split; auto. discriminate.
    - destruct (Byte.eqb x mv) eqn:Ex.
      + apply byte_eqb_true in Ex. subst x. exists rest. cbn [repeat app]. split; congruence.
      + exists (x :: b). split; auto. cbn [hd_error]. intros C. injection C as ->.
        rewrite (proj2 (byte_eqb_true _ _) eq_refl) in Ex. discriminate.
  Qed.

  Lemma lead_score_le b : lead_score mv b <= length b.
  Proof.
    destruct (lead_score_spec b) as (rest & E & _).
    apply (f_equal (@length byte)) in E. rewrite app_length, repeat_length in E. lia.
  Qed.

  Lemma commit_hash_binding v1 t1 p1 v2 t2 p2 :
    length (ht_head v1) = 64 -> length (ht_head v2) = 64 -> is_i64 t1 -> is_i64 t2 ->
    (forall p, p1 = Some p -> length p = 64) -> (forall p, p2 = Some p -> length p = 64) ->
    forall d1 d2, decimal t1 d1 -> decimal t2 d2 ->
    c_hash (commit_now H mv v1 t1 p1 None) = c_hash (commit_now H mv v2 t2 p2 None) ->
    (ht_head v1 = ht_head v2 /\ t1 = t2 /\ p1 = p2) \/
    collide H (eq (ht_head v1 ++ d1 ++ match p1 with Some p => p | None => [] end))
              (eq (ht_head v2 ++ d2 ++ match p2 with Some p => p | None => [] end)).
  Proof.
    intros L1 L2 R1 R2 P1 P2 d1 d2 Dt1 Dt2 E. apply dec_string_spec in Dt1 as <-; auto. apply dec_string_spec in Dt2 as <-; auto.
    cbn [c_hash commit_now] in E. unfold from_multi in E.
    assert (X : forall v t p, length (ht_head v) = 64 ->
      concat ([ht_head v; dec_string t] ++ match p with Some p => [p] | None => [] end ++ []) =
      ht_head v ++ dec_string t ++ match p with Some p => p | None => [] end).
    { intros v t p _. destruct p; cbn [concat app]; rewrite ?app_nil_r; reflexivity. }
    rewrite !X in E by auto. clear X.
    set (q1 := match p1 with Some p => p | None => [] end) in *.
    set (q2 := match p2 with Some p => p | None => [] end) in *.
    pose proof (dec_string_len t1) as D1. pose proof (dec_string_len t2) as D2.
    rewrite !from_bytes_other in E by (rewrite !app_length; lia).
    destruct (bytes_eq_dec (ht_head v1 ++ dec_string t1 ++ q1) (ht_head v2 ++ dec_string t2 ++ q2))
      as [Eq|N].
    2:{ right. do 2 eexists. split; [reflexivity|]. split; [reflexivity|]. split; [exact N|exact E]. }
    left. apply app_eq_len in Eq as [Eh Er]; [|congruence].
    assert (Q1 : length q1 = 0 \/ length q1 = 64) by (unfold q1; destruct p1; cbn [length]; auto).
    assert (Q2 : length q2 = 0 \/ length q2 = 64) by (unfold q2; destruct p2; cbn [length]; auto).
    pose proof (f_equal (@length byte) Er) as Lr. rewrite !app_length in Lr.
    apply app_eq_len in Er as [Ed Eq]; [|lia].
    repeat split; auto.
    - now apply dec_string_inj.
    - unfold q1, q2 in *. destruct p1 as [a|], p2 as [b|]; try congruence.
      + specialize (P1 a eq_refl). subst a. discriminate.
      + specialize (P2 b eq_refl). rewrite <- Eq in P2. discriminate.
  Qed.

  Lemma commit_content_abs v t p z :
    commit_content (commit_now H mv v t p (Some z)) =
    commit_content (commit_now H mv v t p (Some (Z.abs z))).
  Proof.
    unfold commit_content; cbn [c_time c_values c_mine c_parent commit_now m_proof].
    assert (E : big_bytes (Z.abs z) = big_bytes z) by (unfold big_bytes; now rewrite Z.abs_involutive).
    now rewrite E.
  Qed.
End CommitHash.
