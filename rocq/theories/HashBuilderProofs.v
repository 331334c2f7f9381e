(** Proofs about the hash tree builder. *)
From Coq Require Import List ZArith NArith Lia Bool Arith.
From Coq Require Import Init.Byte Strings.Byte.
From Verif Require Import Base BaseLemmas HashModel HashProofs SpecHash HashTreeModel HashTreeProofs HashBuilderModel.
Import ListNotations.

Definition sl_ok (m : arrays) (s : slice) : Prop :=
  sl_arr s < length m /\ sl_off s + sl_len s <= length (arr_at m (sl_arr s)).

Lemma list_set_length {A} (l : list A) i x : i < length l -> length (list_set l i x) = length l.
Proof. intros L. unfold list_set. rewrite app_length, firstn_length. cbn [length]. rewrite skipn_length. lia. Qed.

Lemma nth_list_set {A} (l : list A) i x d j : i < length l -> nth j (list_set l i x) d = if j =? i then x else nth j l d.
Proof.
  intros L. unfold list_set. destruct (Nat.eqb_spec j i) as [->|N].
  - rewrite app_nth2 by (rewrite firstn_length; lia). rewrite firstn_length, Nat.min_l, Nat.sub_diag by lia. reflexivity.
  - destruct (Nat.lt_ge_cases j i) as [Lt|Ge].
    + rewrite app_nth1 by (rewrite firstn_length; lia).
      rewrite <- (firstn_skipn i l) at 2. rewrite app_nth1; auto. rewrite firstn_length. lia.
    + rewrite app_nth2 by (rewrite firstn_length; lia). rewrite firstn_length, Nat.min_l by lia.
      destruct (j - i) as [|k] eqn:Ek; [lia|]. cbn [nth].
      rewrite <- (firstn_skipn (S i) l) at 2. rewrite app_nth2; rewrite firstn_length; [|lia].
      f_equal. lia.
Qed.

Lemma arr_list_set m i a j : i < length m -> arr_at (list_set m i a) j = if j =? i then a else arr_at m j.
Proof. intros L. unfold arr_at. now apply nth_list_set. Qed.

Lemma sl_blocks_length m s : sl_ok m s -> length (sl_blocks m s) = sl_len s.
Proof. intros (_ & L). unfold sl_blocks. rewrite firstn_length, skipn_length. lia. Qed.

Lemma append_spec m s b m' s' : sl_ok m s -> append_block m s b = (m', s') ->
  sl_ok m' s' /\ sl_len s' = S (sl_len s) /\ sl_blocks m' s' = sl_blocks m s ++ [b].
Proof.
  intros (La & Lo) E. unfold append_block in E.
  destruct (Nat.ltb_spec (sl_off s + sl_len s) (length (arr_at m (sl_arr s)))) as [Lt|Ge]; injection E as <- <-.
  - cbn [sl_len]. split; [|split; [reflexivity|]].
    + split; cbn [sl_arr sl_off sl_len].
      * now rewrite list_set_length.
      * rewrite arr_list_set, Nat.eqb_refl, list_set_length by lia. lia.
    + unfold sl_blocks. cbn [sl_arr sl_off sl_len]. rewrite arr_list_set, Nat.eqb_refl by lia.
      set (a := arr_at m (sl_arr s)) in *. unfold list_set.
      rewrite skipn_app, skipn_firstn_comm, firstn_length, Nat.min_l by lia.
      replace (sl_off s - (sl_off s + sl_len s)) with 0 by lia. cbn [skipn].
      replace (sl_off s + sl_len s - sl_off s) with (sl_len s) by lia.
      rewrite firstn_app, firstn_firstn, firstn_length, skipn_length.
      replace (Nat.min (S (sl_len s)) (sl_len s)) with (sl_len s) by lia.
      replace (S (sl_len s) - Nat.min (sl_len s) (length a - sl_off s)) with 1 by lia. reflexivity.
  - cbn [sl_len]. assert (E : length (sl_blocks m s) = sl_len s) by (apply sl_blocks_length; split; auto).
    assert (Ea : arr_at (m ++ [sl_blocks m s ++ [b]]) (length m) = sl_blocks m s ++ [b])
      by (unfold arr_at; rewrite app_nth2, Nat.sub_diag by lia; reflexivity).
    split; [|split; [reflexivity|]].
    + split; cbn [sl_arr sl_off sl_len].
      * rewrite app_length. cbn. lia.
      * rewrite Ea, app_length. cbn [length]. lia.
    + unfold sl_blocks at 1. cbn [sl_arr sl_off sl_len]. rewrite Ea. cbn [skipn]. apply firstn_all2.
      rewrite app_length. cbn [length]. lia.
Qed.

Section WithSha.
  Variable H : bytes -> bytes.
  Hypothesis HL : forall x, length (H x) = 64.

  Lemma tree_of_blocks_build bs : build_tree H (Some bs) = tree_of_blocks H (if (length bs <=? 1) then bs ++ [[]] else bs).
  Proof. reflexivity. Qed.

  Lemma now_blocks m b s m' b' r : tb_head b = None \/ tb_parent b = None -> tb_blocks b = Some s -> sl_ok m s ->
    tb_now H m b = (m', b', r) ->
    r = build_tree H (Some (sl_blocks m s)) /\
    exists s', b' = tb_with_blocks b (Some s') /\ sl_ok m' s' /\
      sl_blocks m' s' = (if length (sl_blocks m s) <=? 1 then sl_blocks m s ++ [[]] else sl_blocks m s) /\
      (if sl_len s <=? 1 then append_block m s [] else (m, s)) = (m', s').
  Proof.
    intros N Es K E.
    assert (E' : tb_now H m b = let '(m', s') := if sl_len s <=? 1 then append_block m s [] else (m, s) in
        (m', tb_with_blocks b (Some s'), tree_of_blocks H (sl_blocks m' s')))
      by (unfold tb_now; rewrite Es; destruct N as [-> | ->]; [|destruct (tb_head b)]; reflexivity).
    rewrite E' in E. rewrite tree_of_blocks_build, (sl_blocks_length m s K).
    destruct (sl_len s <=? 1) eqn:El.
    - destruct (append_block m s []) as [m1 s1] eqn:Ea. injection E as <- <- <-.
      destruct (append_spec _ _ _ _ _ K Ea) as (K1 & L1 & B1). rewrite B1. split; [reflexivity|].
      exists s1. auto.
    - injection E as <- <- <-. split; [reflexivity|]. exists s. auto.
  Qed.
End WithSha.
