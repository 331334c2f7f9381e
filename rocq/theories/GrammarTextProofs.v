(** The decoder of the model reads UTF-8. *)
From Coq Require Import List ZArith Lia Bool.
From Coq Require Import Init.Byte Strings.Byte.
From Verif Require Import Base BaseLemmas GrammarModel SpecPeg SpecGrammar SpecText GrammarProofs.
Import ListNotations.
Local Open Scope Z_scope.

Lemma between_iff lo hi b : between lo hi b = true <-> lo <= code b <= hi.
Proof. unfold between. rewrite andb_true_iff, !Z.leb_le. reflexivity. Qed.
Lemma code_range b : 0 <= code b <= 255.
Proof. unfold code. pose proof (Byte.to_N_bounded b). lia. Qed.

Lemma code_inj a b : code a = code b -> a = b.
Proof.
  unfold code. intros E. apply N2Z.inj in E. pose proof (Byte.of_to_N a) as A. rewrite E, Byte.of_to_N in A. congruence.
Qed.
Lemma cons_eq {A} (x y : A) l m : x :: l = y :: m -> x = y /\ l = m.
Proof. now intros [= -> ->]. Qed.

Local Ltac props := repeat match goal with
  | H : _ = false |- _ => apply not_true_iff_false in H
  | H : context [(_ && _) = true] |- _ => rewrite andb_true_iff in H
  | H : context [(_ || _) = true] |- _ => rewrite orb_true_iff in H
  | H : context [between _ _ _ = true] |- _ => rewrite between_iff in H
  | H : context [(_ <? _) = true] |- _ => rewrite Z.ltb_lt in H
  end.
Local Ltac arith := unfold bits, scalar in *; change Z_of_byte with code in *; Z.to_euclidean_division_equations; lia.
Local Ltac branches := repeat match goal with |- context [if ?c then _ else _] => destruct c eqn:?; props; try (exfalso; arith) end.

Lemma runes_next z w s f : encodes z w -> runes (S f) (w ++ s) = z :: runes f s.
Proof.
  intros (Sc & E). unfold encoding in E.
  destruct (z <? 128) eqn:L1; [|destruct (z <? 2048) eqn:L2; [|destruct (z <? 65536) eqn:L3]]; props;
    repeat (destruct w as [|? w]; try discriminate E); cbn [map] in E; repeat (apply cons_eq in E as (? & E)).
  - pose proof (code_range b). cbn [app runes]. branches. f_equal. arith.
  - pose proof (code_range b); pose proof (code_range b0). cbn [app runes]. branches. f_equal. arith.
  - pose proof (code_range b); pose proof (code_range b0); pose proof (code_range b1). cbn [app runes]. branches. f_equal. arith.
  - pose proof (code_range b); pose proof (code_range b0); pose proof (code_range b1); pose proof (code_range b2).
    cbn [app runes]. branches. f_equal. arith.
Qed.
(** Either an encoding is in front, or the byte is taken alone. *)
Lemma encodes1 a : between 0 127 a = true -> encodes (code a) [a].
Proof.
  intros B. props. split; [arith|]. unfold encoding. assert (code a <? 128 = true) as -> by (apply Z.ltb_lt; lia). reflexivity.
Qed.
Lemma encodes2 a b : between 194 223 a && between 128 191 b = true -> encodes (bits 32 a * 64 + bits 64 b) [a; b].
Proof.
  intros B. props. set (z := bits 32 a * 64 + bits 64 b). assert (Z1 : z = (code a - 192) * 64 + (code b - 128)) by (unfold z; arith).
  split; [arith|]. unfold encoding.
  assert (z <? 128 = false) as -> by (apply Z.ltb_ge; lia). assert (z <? 2048 = true) as -> by (apply Z.ltb_lt; lia).
  cbn [map]. rewrite Z1. repeat f_equal; arith.
Qed.
Lemma encodes3 a b c : between 128 191 c &&
    ((between 224 224 a && between 160 191 b) || (between 225 236 a && between 128 191 b) ||
     (between 237 237 a && between 128 159 b) || (between 238 239 a && between 128 191 b)) = true ->
  encodes ((bits 16 a * 64 + bits 64 b) * 64 + bits 64 c) [a; b; c].
Proof.
  intros B. props. set (z := (bits 16 a * 64 + bits 64 b) * 64 + bits 64 c).
  assert (Z1 : z = ((code a - 224) * 64 + (code b - 128)) * 64 + (code c - 128)) by (unfold z; arith).
  split; [arith|]. unfold encoding.
  assert (z <? 128 = false) as -> by (apply Z.ltb_ge; lia). assert (z <? 2048 = false) as -> by (apply Z.ltb_ge; lia).
  assert (z <? 65536 = true) as -> by (apply Z.ltb_lt; lia). cbn [map]. rewrite Z1. repeat f_equal; arith.
Qed.
Lemma encodes4 a b c d : between 128 191 c && between 128 191 d &&
    ((between 240 240 a && between 144 191 b) || (between 241 243 a && between 128 191 b) ||
     (between 244 244 a && between 128 143 b)) = true ->
  encodes (((bits 8 a * 64 + bits 64 b) * 64 + bits 64 c) * 64 + bits 64 d) [a; b; c; d].
Proof.
  intros B. props. set (z := ((bits 8 a * 64 + bits 64 b) * 64 + bits 64 c) * 64 + bits 64 d).
  assert (Z1 : z = (((code a - 240) * 64 + (code b - 128)) * 64 + (code c - 128)) * 64 + (code d - 128)) by (unfold z; arith).
  split; [arith|]. unfold encoding.
  assert (z <? 128 = false) as -> by (apply Z.ltb_ge; lia). assert (z <? 2048 = false) as -> by (apply Z.ltb_ge; lia).
  assert (z <? 65536 = false) as -> by (apply Z.ltb_ge; lia). cbn [map]. rewrite Z1. repeat f_equal; arith.
Qed.
Definition starts (s : bytes) : bool :=
  match s with
  | [] => false
  | a :: s1 =>
    between 0 127 a ||
    match s1 with
    | [] => false
    | b :: s2 =>
      (between 194 223 a && between 128 191 b) ||
      match s2 with
      | [] => false
      | c :: s3 =>
        (between 128 191 c &&
         ((between 224 224 a && between 160 191 b) || (between 225 236 a && between 128 191 b) ||
          (between 237 237 a && between 128 159 b) || (between 238 239 a && between 128 191 b))) ||
        match s3 with
        | [] => false
        | d :: _ =>
          between 128 191 c && between 128 191 d &&
          ((between 240 240 a && between 144 191 b) || (between 241 243 a && between 128 191 b) ||
           (between 244 244 a && between 128 143 b))
        end
      end
    end
  end.
Lemma encodes_starts z w r : encodes z w -> starts (w ++ r) = true.
Proof.
  intros (Sc & E). unfold encoding in E.
  destruct (z <? 128) eqn:L1; [|destruct (z <? 2048) eqn:L2; [|destruct (z <? 65536) eqn:L3]]; props;
    repeat (destruct w as [|? w]; try discriminate E); cbn [map] in E; repeat (apply cons_eq in E as (? & E)); cbn [app starts].
  - apply orb_true_iff. left. apply between_iff. arith.
  - apply orb_true_iff. right. apply orb_true_iff. left. rewrite andb_true_iff, !between_iff. arith.
  - apply orb_true_iff. right. apply orb_true_iff. right. apply orb_true_iff. left.
    rewrite andb_true_iff, !orb_true_iff, !andb_true_iff, !between_iff. arith.
  - apply orb_true_iff. right. apply orb_true_iff. right. apply orb_true_iff. right.
    rewrite !andb_true_iff, !orb_true_iff, !andb_true_iff, !between_iff. arith.
Qed.
Lemma runes_case a s f : (exists z w r, encodes z w /\ a :: s = w ++ r) \/
  (starts (a :: s) = false /\ runes (S f) (a :: s) = 65533 :: runes f s).
Proof.
  cbn [runes starts]. destruct (between 0 127 a) eqn:B1; [left; eexists _, [a], s; split; [now apply encodes1|reflexivity]|].
  destruct s as [|b s2]; [now right|].
  destruct (between 194 223 a && between 128 191 b) eqn:B2; [left; eexists _, [a; b], s2; split; [now apply encodes2|reflexivity]|].
  destruct s2 as [|c s3]; [now right|].
  match goal with |- context [if ?x then _ else _] => destruct x eqn:B3 end;
    [left; eexists _, [a; b; c], s3; split; [now apply encodes3|reflexivity]|].
  destruct s3 as [|d s4]; [now right|].
  match goal with |- context [if ?x then _ else _] => destruct x eqn:B4 end;
    [left; eexists _, [a; b; c; d], s4; split; [now apply encodes4|reflexivity]|now right].
Qed.
Lemma encodes_longer z w : encodes z w -> (0 < length w)%nat.
Proof.
  intros (_ & E). apply (f_equal (@length Z)) in E. rewrite map_length in E. rewrite E. unfold encoding.
  destruct (z <? 128); [|destruct (z <? 2048); [|destruct (z <? 65536)]]; cbn; lia.
Qed.
Lemma runes_points s zs : code_points s zs -> forall f, (length s <= f)%nat -> runes f s = zs.
Proof.
  induction 1 as [|z w s zs E C IH|b s zs W C IH]; intros f L.
  - now destruct f.
  - pose proof (encodes_longer z w E). rewrite app_length in L. destruct f as [|f]; [lia|]. rewrite (runes_next z w s f E). f_equal. apply IH. lia.
  - destruct f as [|f]; [cbn in L; lia|]. destruct (runes_case b s f) as [(z & w & r & E & Eq)|(_ & E)]; [destruct (W z w r E Eq)|].
    rewrite E. f_equal. apply IH. cbn in L. lia.
Qed.
Lemma points_total : forall n s, (length s <= n)%nat -> exists zs, code_points s zs.
Proof.
  induction n as [|n IH]; intros s L; [destruct s; [exists []; constructor|cbn in L; lia]|].
  destruct s as [|a s]; [exists []; constructor|]. cbn in L.
  destruct (runes_case a s (length s)) as [(z & w & r & E & Eq)|(N & _)].
  - pose proof (encodes_longer z w E) as Lw. pose proof (f_equal (@length byte) Eq) as Le. rewrite app_length in Le. cbn in Le.
    destruct (IH r) as (zs & C); [lia|]. exists (z :: zs). rewrite Eq. now constructor.
  - destruct (IH s) as (zs & C); [lia|]. exists (65533 :: zs). constructor; [|exact C]. intros z w r En Eq.
    rewrite Eq, (encodes_starts z w r En) in N. discriminate.
Qed.
Lemma codes_points s zs : code_points s zs -> Forall2 byte_at zs (codes s).
Proof.
  intros C. unfold codes. rewrite (runes_points s zs C) by lia. clear C. induction zs as [|z zs IH]; cbn; constructor; [|exact IH].
  unfold byte_at, GrammarModel.byte_of_Z. pose proof (Z.mod_pos_bound z 256 ltac:(lia)) as B.
  destruct (Byte.of_N (Z.to_N (z mod 256))) as [b|] eqn:E.
  - apply Byte.to_of_N in E. unfold code. rewrite E. lia.
  - apply Byte.of_N_None_iff in E. lia.
Qed.

(** ** Names of values *)
Lemma itoa_decimal b : decimal_text (code b) (itoa b).
Proof.
  unfold decimal_text. split; [destruct b; discriminate|]. split; [destruct b; vm_compute; repeat constructor; discriminate|].
  split; [destruct b; vm_compute; reflexivity|]. split; [destruct b; vm_compute; congruence|].
  intros ds. destruct b; vm_compute; congruence.
Qed.
