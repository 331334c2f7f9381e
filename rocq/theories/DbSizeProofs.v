(** The size of a database file. *)
From Coq Require Import List ZArith NArith Lia Bool.
From Coq Require Import Init.Byte Strings.Byte.
From Verif Require Import Base BaseLemmas HashModel HashProofs SpecHash HashTreeModel HashTreeProofs
  RefModel RefProofs SpecRef DbModel SpecDb DbRefProofs DbOpenProofs.
Import ListNotations.

Section Size.
  Variable H : bytes -> bytes.
  Variable mv : byte.
  Hypothesis HL : forall x, length (H x) = 64.

  Lemma perfect_size k : forall l, perfect H k l -> (zlen (leaf_content l) = 136 * 2 ^ Z.of_nat k - 72)%Z.
  Proof.
    induction k as [|k IH]; intros [h|h a b] P; cbn [perfect] in P; try tauto.
    - unfold zlen. cbn [leaf_content]. rewrite P. reflexivity.
    - destruct P as (-> & Pa & Pb). cbn [leaf_content]. rewrite !zlen_app, zlen_put_u64, (IH a Pa), (IH b Pb).
      rewrite zlen_64 by apply HL. rewrite Nat2Z.inj_succ, Z.pow_succ_r by lia. lia.
  Qed.

  Lemma tree_size cs : cs <> [] -> exists e, pad_exponent (length cs) e /\
    (zlen (ht_content (batch_tree H cs)) = 136 * 2 ^ Z.of_nat e - 72)%Z.
  Proof.
    intros N. destruct (build_tree_spec H HL (map ct_hash cs)) as (t & k & pad & E & (Ph & Pl & Pr) & Hp & _).
    { destruct cs; [congruence|discriminate]. }
    rewrite map_length in Hp. exists (S k). split; [exact Hp|]. unfold batch_tree. rewrite E. unfold ht_content, parent_content.
    rewrite !zlen_app, zlen_put_u64, (perfect_size _ _ Pl), (perfect_size _ _ Pr).
    rewrite Ph, zlen_64 by apply HL. rewrite Nat2Z.inj_succ, Z.pow_succ_r by lia. lia.
  Qed.

  (** What the commits of a history take, the first one without a parent. *)
  Definition sum (l : list Z) : Z := fold_right Z.add 0%Z l.

  Lemma chain_size bs : forall parent, (forall p, parent = Some p -> length p = 64) -> Forall ok_batch bs ->
    exists es, Forall2 (fun b e => pad_exponent (length (fst b)) e) bs es /\
      zlen (commits_content (chain H mv parent bs)) =
      (sum (map (fun e => 8 + (16 + (136 * 2 ^ Z.of_nat e - 72))) es) +
       match parent with Some _ => 65 * zlen bs | None => 65 * (zlen bs - 1) end)%Z \/ (bs = [] /\ parent = None /\ es = []).
  Proof.
    induction bs as [|b bs IH]; intros parent Lp F; cbn [chain].
    - destruct parent as [p|]; [|exists []; right; auto]. exists []. left. split; [constructor|reflexivity].
    - inversion F as [|? ? (Nb & _) Fb]; subst. destruct (tree_size (fst b) Nb) as (e & Pe & Se).
      assert (L64 : length (c_hash (batch_commit H mv parent b)) = 64).
      { now apply batch_commit_hash64. }
      destruct (IH (Some (c_hash (batch_commit H mv parent b))) ltac:(intros p X; injection X as <-; exact L64) Fb) as (es & [(Fe & Ee)|(_ & X & _)]); [|discriminate].
      exists (e :: es). left. split; [now constructor|].
      unfold commits_content in *. cbn [map concat]. rewrite !zlen_app, zlen_put_u64, Ee.
      assert (Sc : (zlen (commit_content (batch_commit H mv parent b)) = 16 + (136 * 2 ^ Z.of_nat e - 72) +
                    match parent with Some _ => 65 | None => 0 end)%Z).
      { unfold commit_content. cbn [batch_commit commit_now c_time c_values c_mine c_parent]. cbn [app].
        rewrite !zlen_app, !zlen_put_u64, Se. change (zlen (@nil byte)) with 0%Z. destruct parent as [p|]; [|change (zlen (@nil byte)) with 0%Z; lia].
        rewrite zlen_cons, zlen_64 by (apply Lp; reflexivity). lia. }
      rewrite Sc. cbn [map sum fold_right]. fold (sum (map (fun e => 8 + (16 + (136 * 2 ^ Z.of_nat e - 72)))%Z es)).
      rewrite zlen_cons. destruct parent; lia.
  Qed.

  Lemma keys_size bs : forall parent from, Forall ok_batch bs -> (forall p, parent = Some p -> length p = 64) ->
    zlen (concat (map key_content (history_keys H mv parent from bs))) = (152 * zlen (history_contents bs))%Z /\
    zlen (history_keys H mv parent from bs) = zlen (history_contents bs).
  Proof.
    assert (P : forall h l from, length h = 64 -> Forall ok_content l ->
              zlen (concat (map key_content (place h from l))) = (152 * zlen l)%Z /\ zlen (place h from l) = zlen l).
    { intros h l. induction l as [|c l IH]; intros from Lh F; cbn [place map concat]; [now split|].
      inversion F as [|? ? (L64 & _) Fl]; subst. destruct (IH (from + zlen (ct_data c))%Z Lh Fl) as (A & B).
      rewrite !zlen_app, !zlen_cons, A, B. split; [|reflexivity].
      unfold key_content. cbn [k_hash k_kind k_content k_commit]. rewrite !zlen_app, zlen_put_u64, !zlen_64 by assumption.
      assert (Zp : forall q, zlen (pointer_content q) = 16%Z) by (intros; unfold zlen; now rewrite pointer_content_length).
      rewrite Zp, (zlen_64 h Lh). lia. }
    induction bs as [|b bs IH]; intros parent from F Lp; cbn [history_keys]; [now split|].
    inversion F as [|? ? (Nb & Fc & _) Fb]; subst.
    assert (L64 : length (c_hash (batch_commit H mv parent b)) = 64).
    { now apply batch_commit_hash64. }
    destruct (P (c_hash (batch_commit H mv parent b)) (fst b) from L64 Fc) as (A & B).
    destruct (IH (Some (c_hash (batch_commit H mv parent b))) (from + zlen (batch_data (fst b)))%Z Fb ltac:(intros p X; injection X as <-; exact L64)) as (C & D).
    change (history_contents (b :: bs)) with (fst b ++ history_contents bs).
    rewrite map_app, concat_app, !zlen_app, A, B, C, D. lia.
  Qed.

  Lemma file_size bs : bs <> [] -> Forall ok_batch bs ->
    exists es, Forall2 (fun b e => pad_exponent (length (fst b)) e) bs es /\
      zlen (history_file H mv bs) =
      (8 + (8 + (8 + 152 * zlen (history_contents bs)) + 8 + (sum (map (fun e => 8 + (16 + (136 * 2 ^ Z.of_nat e - 72))) es) + 65 * (zlen bs - 1))) +
       zlen (history_data bs))%Z.
  Proof.
    intros N F. destruct (chain_size bs None ltac:(discriminate) F) as (es & [(Fe & Ee)|(X & _)]); [|congruence].
    exists es. split; [exact Fe|]. destruct (keys_size bs None 0 F ltac:(discriminate)) as (A & B).
    assert (R : history_ref H mv bs = Some (Reference (history_keys H mv None 0 bs) (chain H mv None bs))) by (destruct bs; [congruence|reflexivity]).
    unfold history_file. rewrite R. cbn [header]. unfold reference_content. cbn [r_keys r_commits]. unfold keys_content.
    unfold bytes in *. rewrite !zlen_app, !zlen_put_u64, Ee, A. lia.
  Qed.
End Size.
