(** Lemmas on histories and on the pure part of the database application. *)
From Coq Require Import List ZArith NArith Lia Bool.
From Coq Require Import Init.Byte Strings.Byte.
From Verif Require Import Base BaseLemmas HashModel HashProofs SpecHash HashTreeModel HashTreeProofs
  RefModel RefProofs SpecRef DbModel SpecDb.
Import ListNotations.

Lemma batch_data_app a b : batch_data (a ++ b) = batch_data a ++ batch_data b.
Proof. unfold batch_data. now rewrite map_app, concat_app. Qed.

Lemma history_data_app a b : history_data (a ++ b) = history_data a ++ history_data b.
Proof. unfold history_data. now rewrite map_app, concat_app. Qed.

Lemma history_contents_app a b : history_contents (a ++ b) = history_contents a ++ history_contents b.
Proof. unfold history_contents. now rewrite map_app, concat_app. Qed.

Lemma history_data_contents bs : history_data bs = batch_data (history_contents bs).
Proof.
  induction bs as [|b bs IH]; [reflexivity|].
  change (b :: bs) with ([b] ++ bs). rewrite history_data_app, history_contents_app, batch_data_app, <- IH.
  f_equal. unfold history_data, history_contents; cbn. now rewrite !app_nil_r.
Qed.

Lemma ok_content_wf c : ok_content c -> wf_content c.
Proof. intros (A & B & C). repeat split; auto; apply C. Qed.

Lemma place_length h cs : forall from, length (place h from cs) = length cs.
Proof. induction cs; intros; cbn; auto. Qed.

Lemma place_app h a : forall b from,
  place h from (a ++ b) = place h from a ++ place h (from + zlen (batch_data a)) b.
Proof.
  induction a as [|c a IH]; intros b from; cbn [place app].
  - cbn. now rewrite Z.add_0_r.
  - rewrite IH. change (batch_data (c :: a)) with (ct_data c ++ batch_data a). rewrite zlen_app.
    now rewrite Z.add_assoc.
Qed.

Section Hist.
  Variable H : bytes -> bytes.
  Variable mv : byte.
  Hypothesis HL : forall x, length (H x) = 64.

  Lemma chain_app a : forall p b, chain H mv p (a ++ b) = chain H mv p a ++ chain H mv (tip H mv p a) b.
  Proof. induction a as [|x a IH]; intros p b; cbn [chain app tip fold_left]; auto. now rewrite IH. Qed.

  Lemma tip_app a : forall p b, tip H mv p (a ++ b) = tip H mv (tip H mv p a) b.
  Proof. intros. unfold tip. now rewrite fold_left_app. Qed.

  Lemma history_keys_app a : forall p from b,
    history_keys H mv p from (a ++ b) =
    history_keys H mv p from a ++ history_keys H mv (tip H mv p a) (from + zlen (history_data a)) b.
  Proof.
    induction a as [|x a IH]; intros p from b; cbn [history_keys app tip fold_left].
    - cbn. now rewrite Z.add_0_r.
    - rewrite IH. rewrite app_assoc.
      change (history_data (x :: a)) with (batch_data (fst x) ++ history_data a). rewrite zlen_app.
      now rewrite Z.add_assoc.
  Qed.

  Lemma history_ref_app_some bs b : history_ref H mv (bs ++ [b]) =
    Some (Reference (history_keys H mv None 0 (bs ++ [b])) (chain H mv None (bs ++ [b]))).
  Proof. destruct bs; reflexivity. Qed.

  Lemma batch_commit_hash64 p b : length (c_hash (batch_commit H mv p b)) = 64.
  Proof. unfold batch_commit, commit_now, from_multi; cbn [c_hash]. now apply from_bytes_length. Qed.

  Lemma tip_64 bs : forall p, (forall x, p = Some x -> length x = 64) ->
    forall x, tip H mv p bs = Some x -> length x = 64.
  Proof.
    induction bs as [|b bs IH]; intros p Hp x E; cbn in E; auto.
    eapply IH; [|exact E]. intros y Ey. inversion Ey. apply batch_commit_hash64.
  Qed.

  Lemma batch_tree_ok cs : cs <> [] -> build_tree H (Some (map ct_hash cs)) = Ok (batch_tree H cs).
  Proof.
    intros N. unfold batch_tree.
    destruct (build_tree_spec H HL (map ct_hash cs)) as (t & k & pad & E & _).
    { destruct cs; [congruence|discriminate]. }
    rewrite E. reflexivity.
  Qed.

  Lemma batch_commit_wf p b : ok_batch b -> (forall x, p = Some x -> length x = 64) ->
    wf_commit H mv (batch_commit H mv p b).
  Proof.
    intros (N & F & T) Hp. unfold batch_commit. do 4 eexists. split; [reflexivity|].
    repeat split; auto; try apply T; try discriminate.
    - pose proof (batch_tree_ok _ N) as E. eapply (build_tree_wf H HL) in E. apply E.
    - pose proof (batch_tree_ok _ N) as E. eapply (build_tree_wf H HL) in E. apply E.
    - pose proof (batch_tree_ok _ N) as E. eapply (build_tree_wf H HL) in E. apply E.
  Qed.

  Lemma chain_wf bs : forall p, Forall ok_batch bs -> (forall x, p = Some x -> length x = 64) ->
    Forall (wf_commit H mv) (chain H mv p bs).
  Proof.
    induction bs as [|b bs IH]; intros p F Hp; cbn [chain]; constructor; inversion F; subst.
    - now apply batch_commit_wf.
    - apply IH; auto. intros x Ex. inversion Ex. apply batch_commit_hash64.
  Qed.

  Lemma place_wf h cs : forall from, length h = 64 -> Forall ok_content cs -> (0 <= from)%Z ->
    (from + zlen (batch_data cs) < two63)%Z -> Forall wf_key (place h from cs).
  Proof.
    induction cs as [|c cs IH]; intros from Hh F Hf L; cbn [place]; constructor; inversion F; subst.
    - destruct H2 as (A & B & C). unfold wf_key, wf_pointer, is_u64; cbn.
      change (batch_data (c :: cs)) with (ct_data c ++ batch_data cs) in L. rewrite zlen_app in L.
      pose proof (zlen_nonneg (batch_data cs)).
      assert (0 < zlen (ct_data c))%Z by (unfold zlen; destruct (ct_data c); [congruence|cbn [length]; lia]).
      rewrite two63_val, two64_val in *. repeat split; auto; lia.
    - change (batch_data (c :: cs)) with (ct_data c ++ batch_data cs) in L. rewrite zlen_app in L.
      pose proof (zlen_nonneg (ct_data c)). apply IH; auto; lia.
  Qed.

  Lemma history_keys_wf bs : forall p from, Forall ok_batch bs -> (0 <= from)%Z ->
    (from + zlen (history_data bs) < two63)%Z -> Forall wf_key (history_keys H mv p from bs).
  Proof.
    induction bs as [|b bs IH]; intros p from F Hf L; cbn [history_keys]; [constructor|].
    inversion F as [|? ? (N & Fc & T) Fb]; subst.
    change (history_data (b :: bs)) with (batch_data (fst b) ++ history_data bs) in L. rewrite zlen_app in L.
    pose proof (zlen_nonneg (batch_data (fst b))). pose proof (zlen_nonneg (history_data bs)).
    apply Forall_app. split.
    - apply place_wf; auto; try lia. apply batch_commit_hash64.
    - apply IH; auto; lia.
  Qed.

  Lemma batch_data_pos cs : cs <> [] -> Forall ok_content cs -> (0 < zlen (batch_data cs))%Z.
  Proof.
    intros N F. destruct cs as [|c cs]; [congruence|]. inversion F as [|? ? (A & B & C) ?]; subst.
    change (batch_data (c :: cs)) with (ct_data c ++ batch_data cs). rewrite zlen_app.
    pose proof (zlen_nonneg (batch_data cs)). unfold zlen at 1. destruct (ct_data c); [congruence|cbn [length]; lia].
  Qed.

  Lemma history_data_pos bs : bs <> [] -> Forall ok_batch bs -> (0 < zlen (history_data bs))%Z.
  Proof.
    intros N F. destruct bs as [|b bs]; [congruence|]. inversion F as [|? ? (A & B & C) ?]; subst.
    change (history_data (b :: bs)) with (batch_data (fst b) ++ history_data bs). rewrite zlen_app.
    pose proof (zlen_nonneg (history_data bs)). pose proof (batch_data_pos _ A B). lia.
  Qed.

  Lemma history_ref_wf bs r : Forall ok_batch bs -> (zlen (history_data bs) < two63)%Z ->
    history_ref H mv bs = Some r -> wf_reference H mv r.
  Proof.
    intros F L E. assert (N : bs <> []) by (destruct bs; [discriminate|congruence]).
    assert (E' : r = Reference (history_keys H mv None 0 bs) (chain H mv None bs))
      by (destruct bs; [discriminate|]; now inversion E).
    rewrite E'. unfold wf_reference; cbn [r_keys r_commits]. repeat split.
    - destruct bs as [|b bs]; [congruence|]. cbn [history_keys]. inversion F as [|? ? (A & _) ?]; subst.
      destruct b as [[|c cs] t]; cbn in *; congruence.
    - apply history_keys_wf; auto; lia.
    - destruct bs; [congruence|discriminate].
    - apply chain_wf; auto. discriminate.
  Qed.

  (** ** The next free position *)
  Lemma keys_next_place h cs : forall from b l, (0 <= b <= from)%Z ->
    Forall ok_content cs -> (from + zlen (batch_data cs) < two63)%Z ->
    keys_next_from (place h from cs ++ l) b =
    keys_next_from l (match cs with [] => b | _ => from + zlen (batch_data cs) end)%Z.
  Proof.
    induction cs as [|c cs IH]; intros from b l Hb F L; [reflexivity|].
    inversion F as [|? ? (A & B & C) Fc]; subst.
    change (batch_data (c :: cs)) with (ct_data c ++ batch_data cs) in *. rewrite zlen_app in *.
    pose proof (zlen_nonneg (batch_data cs)).
    assert (0 < zlen (ct_data c))%Z by (unfold zlen; destruct (ct_data c); [congruence|cbn [length]; lia]).
    cbn [place app keys_next_from k_content p_from p_length].
    rewrite u64_small by (rewrite two63_val, two64_val in *; lia).
    rewrite i64_small by lia.
    replace (b <? from + zlen (ct_data c))%Z with true by (symmetry; apply Z.ltb_lt; lia).
    rewrite IH by (auto; lia). f_equal. destruct cs; [cbn; lia|lia].
  Qed.

  Lemma keys_next_history bs : forall p from b l, (0 <= b <= from)%Z ->
    Forall ok_batch bs -> (from + zlen (history_data bs) < two63)%Z ->
    keys_next_from (history_keys H mv p from bs ++ l) b =
    keys_next_from l (match bs with [] => b | _ => from + zlen (history_data bs) end)%Z.
  Proof.
    induction bs as [|x bs IH]; intros p from b l Hb F L; [reflexivity|].
    inversion F as [|? ? (A & B & C) Fc]; subst.
    change (history_data (x :: bs)) with (batch_data (fst x) ++ history_data bs) in *. rewrite zlen_app in *.
    pose proof (zlen_nonneg (history_data bs)). pose proof (batch_data_pos _ A B).
    cbn [history_keys]. rewrite <- app_assoc. rewrite keys_next_place by (auto; lia).
    destruct (fst x) as [|c cs] eqn:E; [congruence|]. rewrite <- E in *.
    rewrite IH by (auto; lia). f_equal. destruct bs; [cbn; lia|lia].
  Qed.

  Lemma keys_next_all bs : Forall ok_batch bs -> (zlen (history_data bs) < two63)%Z ->
    keys_next (history_keys H mv None 0 bs) = zlen (history_data bs).
  Proof.
    intros F L. unfold keys_next.
    rewrite <- (app_nil_r (history_keys H mv None 0 bs)).
    rewrite keys_next_history by (auto; lia). cbn [keys_next_from].
    destruct bs; [reflexivity|lia].
  Qed.

  (** ** updateReference *)
  Lemma pending_keys_place h cs : forall from, (0 <= from)%Z -> Forall ok_content cs ->
    (from + zlen (batch_data cs) < two63)%Z -> pending_keys h from cs = Ok (place h from cs).
  Proof.
    induction cs as [|c cs IH]; intros from Hf F L; [reflexivity|].
    inversion F as [|? ? (A & B & C) Fc]; subst.
    change (batch_data (c :: cs)) with (ct_data c ++ batch_data cs) in *. rewrite zlen_app in *.
    pose proof (zlen_nonneg (batch_data cs)).
    assert (0 < zlen (ct_data c))%Z by (unfold zlen; destruct (ct_data c); [congruence|cbn [length]; lia]).
    cbn [pending_keys place].
    rewrite !u64_small by (rewrite two63_val, two64_val in *; lia).
    unfold pointer_now. replace (zlen (ct_data c) <=? 0)%Z with false by (symmetry; apply Z.leb_gt; lia).
    cbn [bind]. rewrite i64_small by lia. rewrite IH by (auto; lia). reflexivity.
  Qed.

  Lemma chain_latest bs : bs <> [] -> forall p,
    exists c, commits_latest (chain H mv p bs) = Ok c /\ tip H mv p bs = Some (c_hash c).
  Proof.
    intros N. destruct (exists_last N) as (bs' & b & ->). intros p.
    exists (batch_commit H mv (tip H mv p bs') b). split.
    - unfold commits_latest. rewrite chain_app. cbn [chain]. rewrite rev_app_distr. reflexivity.
    - rewrite tip_app. reflexivity.
  Qed.

  Lemma update_reference_spec c bs now :
    x_ref c = history_ref H mv bs -> Forall ok_batch bs -> ok_batch (x_pending c, now) ->
    (zlen (history_data (bs ++ [(x_pending c, now)])) < two63)%Z ->
    exists r, update_reference H mv c now = Ok r /\
              history_ref H mv (bs ++ [(x_pending c, now)]) = Some r.
  Proof.
    intros Er F W L. rewrite history_ref_app_some. eexists. split; [|reflexivity].
    destruct W as (N & Fc & T). cbn [fst snd] in *.
    rewrite history_data_app, zlen_app in L.
    assert (EL : history_data [(x_pending c, now)] = batch_data (x_pending c))
      by (unfold history_data; cbn; now rewrite app_nil_r).
    rewrite EL in L. pose proof (zlen_nonneg (history_data bs)). pose proof (zlen_nonneg (batch_data (x_pending c))).
    unfold update_reference. rewrite Er. rewrite batch_tree_ok by auto.
    destruct bs as [|b bs].
    - cbn [history_ref bind app history_keys chain fst snd commits_now]. cbn [history_data map concat] in L.
      rewrite app_nil_r. rewrite pending_keys_place by (auto; cbn in *; lia).
      unfold batch_commit; cbn [bind fst snd]. destruct (x_pending c); [congruence|reflexivity].
    - assert (N' : b :: bs <> []) by discriminate. revert F L Er N' H0. generalize (b :: bs). clear b bs. intros bs F L Er N' H0.
      assert (Hr : history_ref H mv bs = Some (Reference (history_keys H mv None 0 bs) (chain H mv None bs)))
        by (destruct bs; [congruence|reflexivity]).
      rewrite Hr. cbn [r_commits r_keys].
      destruct (chain_latest bs N' None) as (l & El & Et). rewrite El. cbn [bind].
      rewrite <- Et. rewrite chain_app, history_keys_app. cbn [chain history_keys fst snd].
      fold (batch_commit H mv (tip H mv None bs) (x_pending c, now)).
      change (commit_now H mv (batch_tree H (x_pending c)) now (tip H mv None bs) None)
        with (batch_commit H mv (tip H mv None bs) (x_pending c, now)).
      unfold commits_now. destruct (chain H mv None bs ++ [_]) eqn:Ec; [destruct (chain H mv None bs); discriminate|].
      rewrite <- Ec. cbn [bind]. rewrite keys_next_all by (auto; lia). rewrite Z.add_0_l.
      rewrite pending_keys_place by (auto; lia). cbn [bind]. rewrite app_nil_r.
      unfold keys_now. destruct (history_keys H mv None 0 bs ++ place _ _ _) eqn:Ek.
      + apply app_eq_nil in Ek as [_ Ek]. destruct (x_pending c); [congruence|discriminate].
      + reflexivity.
  Qed.
End Hist.
