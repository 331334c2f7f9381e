(** Nothing ties the bytes of the contents to the rest of a database file. *)
From Coq Require Import List ZArith NArith Lia Bool Arith.
From Coq Require Import Init.Byte Strings.Byte.
From Verif Require Import Base BaseLemmas HashModel HashProofs SpecHash HashTreeModel HashTreeProofs
  RefModel RefProofs SpecRef DbModel SpecDb DbRefProofs DbFsProofs DbCommitProofs DbOpenProofs DbApiProofs
  DbSession DbSessionProofs DbMoreProofs DbHistoryProofs.
Import ListNotations.

(** ** Cutting other bytes to the lengths of a history *)
Definition alike (c c' : content) : Prop :=
  ct_hash c' = ct_hash c /\ ct_kind c' = ct_kind c /\ length (ct_data c') = length (ct_data c).

Lemma cut_batch cs : forall (d : bytes) m, length d = length (batch_data cs) + m ->
  exists cs' d', Forall2 alike cs cs' /\ d = batch_data cs' ++ d' /\ length d' = m.
Proof.
  induction cs as [|c cs IH]; intros d m L.
  - exists [], d. repeat split; auto.
  - change (batch_data (c :: cs)) with (ct_data c ++ batch_data cs) in L. rewrite app_length in L.
    destruct (IH (skipn (length (ct_data c)) d) m) as (cs' & d' & F & E & L').
    { rewrite skipn_length. lia. }
    exists (Content (ct_hash c) (firstn (length (ct_data c)) d) (ct_kind c) :: cs'), d'. repeat split; auto.
    + constructor; auto. repeat split. cbn [ct_data]. rewrite firstn_length. lia.
    + change (batch_data (?x :: cs')) with (ct_data x ++ batch_data cs'). cbn [ct_data].
      rewrite <- app_assoc, <- E. now rewrite firstn_skipn.
Qed.

Lemma cut_history bs : forall d, length d = length (history_data bs) ->
  exists bs', same_but_bytes bs bs' /\ history_data bs' = d.
Proof.
  induction bs as [|[cs t] bs IH]; intros d L.
  - destruct d; [|discriminate]. exists []. split; [constructor|reflexivity].
  - change (history_data ((cs, t) :: bs)) with (batch_data cs ++ history_data bs) in L. rewrite app_length in L.
    destruct (cut_batch cs d _ L) as (cs' & d' & F & E & L').
    destruct (IH d' L') as (bs' & S & E'). exists ((cs', t) :: bs'). split.
    + constructor; auto.
    + change (history_data ((cs', t) :: bs')) with (batch_data cs' ++ history_data bs'). now rewrite E', E.
Qed.

(** ** The header does not depend on the bytes *)
Section Forge.
  Variable H : bytes -> bytes.
  Variable mv : byte.
  Variable behind : bytes -> bytes.
  Hypothesis HL : forall x, length (H x) = 64.

  Lemma alike_hashes cs cs' : Forall2 alike cs cs' -> map ct_hash cs' = map ct_hash cs.
  Proof. induction 1 as [|c c' cs cs' (E & _) F IH]; cbn [map]; congruence. Qed.

  Lemma alike_len cs cs' : Forall2 alike cs cs' -> length (batch_data cs') = length (batch_data cs).
  Proof.
    induction 1 as [|c c' cs cs' (_ & _ & E) F IH]; auto.
    change (length (ct_data c' ++ batch_data cs') = length (ct_data c ++ batch_data cs)).
    rewrite !app_length. lia.
  Qed.

  Lemma alike_place h cs cs' : Forall2 alike cs cs' -> forall from, place h from cs' = place h from cs.
  Proof.
    induction 1 as [|c c' cs cs' (E1 & E2 & E3) F IH]; intros from; auto.
    cbn [place]. unfold zlen. rewrite E1, E2, E3, IH. reflexivity.
  Qed.

  Lemma alike_commit p b b' : snd b' = snd b -> Forall2 alike (fst b) (fst b') ->
    batch_commit H mv p b' = batch_commit H mv p b.
  Proof. intros E F. unfold batch_commit, batch_tree. now rewrite E, (alike_hashes _ _ F). Qed.

  Lemma alike_chain bs bs' : same_but_bytes bs bs' -> forall p, chain H mv p bs' = chain H mv p bs.
  Proof.
    induction 1 as [|b b' bs bs' (E & F) S IH]; intros p; auto.
    cbn [chain]. rewrite (alike_commit p b b' E F). now rewrite IH.
  Qed.

  Lemma alike_keys bs bs' : same_but_bytes bs bs' -> forall p from,
    history_keys H mv p from bs' = history_keys H mv p from bs.
  Proof.
    induction 1 as [|b b' bs bs' (E & F) S IH]; intros p from; auto.
    cbn [history_keys]. rewrite (alike_commit p b b' E F), (alike_place _ _ _ F). unfold zlen.
    rewrite (alike_len _ _ F). now rewrite IH.
  Qed.

  Lemma alike_ref bs bs' : same_but_bytes bs bs' -> history_ref H mv bs' = history_ref H mv bs.
  Proof.
    intros S. unfold history_ref. rewrite (alike_chain _ _ S), (alike_keys _ _ S). now destruct S.
  Qed.

  Lemma alike_data bs bs' : same_but_bytes bs bs' -> length (history_data bs') = length (history_data bs).
  Proof.
    induction 1 as [|b b' bs bs' (E & F) S IH]; auto.
    change (length (batch_data (fst b') ++ history_data bs') = length (batch_data (fst b) ++ history_data bs)).
    rewrite !app_length, (alike_len _ _ F). lia.
  Qed.

  Lemma alike_ok bs bs' : same_but_bytes bs bs' -> Forall ok_batch bs -> Forall ok_batch bs'.
  Proof.
    induction 1 as [|b b' bs bs' (E & F) S IH]; intros O; constructor; inversion O as [|? ? (N & Fc & T) O']; subst; auto.
    split; [|split].
    - destruct F; congruence.
    - clear - F Fc. induction F as [|c c' cs cs' (E1 & E2 & E3) F IH]; constructor; inversion Fc as [|? ? (L & N & K)]; subst; auto.
      split; [congruence|]. split; [|congruence]. destruct (ct_data c), (ct_data c'); cbn in *; congruence.
    - congruence.
  Qed.

  Lemma forged_file a s n i bs bs' : db_file H mv a s n i bs -> same_but_bytes bs bs' ->
    db_file H mv a (set_data s i (header (history_ref H mv bs) ++ history_data bs')) n i bs'.
  Proof.
    intros (A1 & A2 & (A3 & A3') & A4 & A5 & A6 & A7 & A8 & A9 & A10 & A11) S.
    assert (Li : i < length (f_data s)) by eauto.
    assert (Ef : header (history_ref H mv bs) ++ history_data bs' = history_file H mv bs')
      by (unfold history_file; now rewrite (alike_ref _ _ S)).
    repeat split; auto.
    - intros m j E. cbn. rewrite set_nth_length. eauto.
    - rewrite data_set_same; auto.
    - now apply (alike_ok bs).
    - unfold fits in *. rewrite <- Ef. unfold history_file in A11. unfold zlen in *. rewrite !app_length in *.
      now rewrite (alike_data _ _ S).
  Qed.
End Forge.

(** ** Decoded commits carry the hash of their fields *)
Section Decoded.
  Variable H : bytes -> bytes.
  Variable mv : byte.
  Variable behind : bytes -> bytes.

  Hypothesis HL : forall x, length (H x) = 64.

  Lemma commit_now_hashed values t parent proof : length (ht_head values) = 64 -> is_i64 t ->
    (forall z, proof = Some z -> (0 <= z)%Z) -> hashed_by H (commit_now H mv values t parent proof).
  Proof.
    intros L R P. destruct (decimal_exists t) as (d & D).
    pose proof (dec_string_spec t d R D) as Ed. pose proof (dec_string_len t) as Ld. rewrite Ed in Ld.
    set (x := ht_head values ++ d ++ match parent with Some p => p | None => [] end).
    assert (Eh : forall q, length (x ++ q) <> 64)
      by (intros q; unfold x; rewrite !app_length; lia).
    assert (Ec : c_hash (commit_now H mv values t parent proof) =
                 H (x ++ match proof with Some z => big_bytes z | None => [] end)).
    { rewrite <- from_bytes_other by apply Eh. cbn [commit_now c_hash]. unfold from_multi, x. f_equal. rewrite Ed.
      destruct parent, proof; cbn [concat app]; rewrite ?app_nil_r, <- ?app_assoc; reflexivity. }
    exists x. split; [exists d; split; auto|].
    destruct proof as [z|].
    - cbn [commit_now c_mine m_proof m_result]. exists (big_bytes z). split; [apply big_roundtrip; auto|].
      split; [exact Ec|]. unfold from_multi. cbn [concat]. rewrite app_nil_r.
      match goal with |- context [from_bytes H (?h ++ _)] =>
        change h with (c_hash (commit_now H mv values t parent (Some z))) end.
      assert (Lh : length (c_hash (commit_now H mv values t parent (Some z))) = 64) by (rewrite Ec; apply HL).
      destruct (big_bytes z) as [|y q] eqn:Eq.
      + rewrite app_nil_r. now apply from_bytes_64.
      + apply from_bytes_other. rewrite app_length, Lh. cbn [length]. lia.
    - cbn [commit_now c_mine]. rewrite <- (app_nil_r x). exact Ec.
  Qed.

  Ltac step E := apply bind_Ok_inv in E as (? & ? & E).

  Lemma decoded_head_length s t : ht_of_content H s = Ok t -> length (ht_head t) = 64.
  Proof.
    unfold ht_of_content, content_ht. destruct (_ <? _)%Z; [discriminate|]. intros E.
    step E. step E. step E. injection E as <-. now apply from_bytes_length.
  Qed.

  Lemma decoded_commit_hashed s c : commit_of_content H mv s = Ok c -> hashed_by H c.
  Proof.
    unfold commit_of_content. destruct (s_len s <? commit_min_size)%Z; [discriminate|]. intros E.
    step E. step E. step E. step E. step E. apply bind_Ok_inv in E as (values & Ev & E). step E.
    apply bind_Ok_inv in E as ([proof rem] & Ep & E). step E. injection E as <-. cbn [fst].
    apply commit_now_hashed; [eapply decoded_head_length; eauto|apply i64_range|]. intros z ->. clear - Ep.
    match type of Ep with (if ?b then _ else _) = _ => destruct b end; [|discriminate].
    step Ep. destruct (vis _) as [|y ?]; [discriminate|]. destruct (Byte.eqb y _); [|discriminate].
    do 5 step Ep. injection Ep as <- _. apply unle_range.
  Qed.

  Lemma decoded_commits_hashed fuel s : forall i l, commits_loop H mv fuel s i = Ok l -> Forall (hashed_by H) l.
  Proof.
    induction fuel as [|fuel IH]; intros i l E; [discriminate|]. cbn [commits_loop] in E.
    step E. destruct (s_len _ <=? 0)%Z; [injection E as <-; constructor|].
    step E. step E. step E. apply bind_Ok_inv in E as (c & Ec & E). apply bind_Ok_inv in E as (l' & El & E).
    injection E as <-. constructor; [eapply decoded_commit_hashed; eauto|eauto].
  Qed.

  Lemma decoded_reference_hashed s r : reference_of_content H mv s = Ok r -> Forall (hashed_by H) (r_commits r).
  Proof.
    unfold reference_of_content. destruct (_ <? _)%Z; [discriminate|]. intros E. step E. step E.
    destruct (_ <? _)%Z; [discriminate|]. step E. step E. step E. step E.
    destruct (_ <? _)%Z; [discriminate|]. step E. apply bind_Ok_inv in E as (cs & Ec & E). injection E as <-.
    cbn [r_commits]. unfold commits_of_content in Ec. destruct (_ <? _)%Z; [discriminate|].
    apply bind_Ok_inv in Ec as (l & El & En). apply decoded_commits_hashed in El.
    destruct l; [discriminate|]. now injection En as <-.
  Qed.

  Lemma opened_commits_hashed n a s s' a' id cs : open_db H mv behind n a s = (s', a', Ok id) ->
    commits_db a' id = Ok cs -> Forall (hashed_by H) cs.
  Proof.
    unfold open_db, commits_db. destruct (existsb _ _); [discriminate|].
    destruct (dir_get (f_dir s) n) as [[i|]|]; try discriminate.
    destruct (retrieve_reference H mv behind (a_chunk a) (data_of s i)) as [[ref off]| | |] eqn:Er; try discriminate.
    destruct (sys_open n s) as [s1 [h| | |]]; try discriminate.
    intros E. injection E as _ <- <-. cbn [with_ctxs a_ctxs]. rewrite ctx_get_set, Z.eqb_refl. cbn [x_ref].
    destruct ref as [r|]; [|discriminate]. intros E. injection E as <-.
    unfold retrieve_reference in Er. destruct (_ <? _)%Z; [discriminate|]. destruct (_ =? _)%Z; [discriminate|].
    step Er. apply bind_Ok_inv in Er as (r' & Er' & E). injection E as -> _. eapply decoded_reference_hashed; eauto.
  Qed.
End Decoded.
