(** Open while another process commits. *)
From Coq Require Import List ZArith NArith Lia Bool.
From Coq Require Import Init.Byte Strings.Byte.
From Verif Require Import Base BaseLemmas HashModel HashProofs SpecHash HashTreeModel HashTreeProofs
  RefModel RefProofs SpecRef DbModel SpecDb DbRefProofs DbFsProofs DbCommitProofs DbOpenProofs DbApiProofs
  DbSession DbSessionProofs DbMoreProofs DbMultiProofs DbFrameProofs DbForgeProofs DbConcurrent DbConcurrentProofs DbScheduleProofs.
Import ListNotations.

Section Open.
  Variable H : bytes -> bytes.
  Variable mv : byte.
  Variable behind : bytes -> bytes.
  Hypothesis HL : forall x, length (H x) = 64.

  (** What a context shows depends on its reference and the bytes of its file only. *)
  Lemma shows_at a s n id h i bs : good_config a ->
    ctx_get (a_ctxs a) id = Some (Ctx id n h (history_ref H mv bs) (zlen (header (history_ref H mv bs))) []) ->
    nth_error (f_handles s) h = Some (Handle i 0 true) -> data_of s i = history_file H mv bs ->
    i < length (f_data s) -> Forall ok_batch bs -> fits H mv bs -> shows H (a, s, id) bs.
  Proof.
    intros (G1 & G2) Ec Eh Ed Li F Ft.
    assert (S : synced H mv a (FSys [(n, EFile i)] (f_data s) (f_handles s) [] []) n id bs []).
    { exists i, h. split; [|split; [exact Ec|exact Eh]]. unfold db_file. cbn [f_dir f_faults f_locks dir_get].
      rewrite bytes_eqb_refl.
      rewrite !(bytes_eqb_neq n (side _ _)) by (intros X; symmetry in X; now apply side_neq in X).
      split; [exact G1|]. split; [exact G2|]. split; [|repeat split; auto; discriminate].
      split; cbn [f_dir f_data dir_get].
      - intros m j. destruct (bytes_eqb n m); [|discriminate]. intros X. injection X as <-. exact Li.
      - intros m m' j. destruct (bytes_eqb n m) eqn:X1; [|discriminate]. destruct (bytes_eqb n m') eqn:X2; [|discriminate].
        intros _ _. apply bytes_eqb_true in X1, X2. congruence. }
    exact (synced_shows H mv behind HL _ _ _ _ _ _ S).
  Qed.

  (** The lists of one history over the file of another one. *)
  Definition mixed (st : state) (a : dbapp) (id : Z) (old new : list batch) : Prop :=
    let '(b, s, id') := st in
    commits_db b id' = commits_db a id /\
    (forall kind, content_keys_by_kind b id' kind = content_keys_by_kind a id kind) /\
    (forall from len, (0 <= from)%Z -> (0 <= len)%Z ->
       (zlen (header (history_ref H mv old)) + from + len <= zlen (history_file H mv new))%Z ->
       read_db b s id' (Pointer from len) = Ok (sub (history_file H mv new) (zlen (header (history_ref H mv old)) + from) len)) /\
    (forall h, read_by_hash b s id' h = do ks <- content_keys a id; do k <- keys_fetch ks h; read_db b s id' (k_content k)).

  Lemma last_app {A} (l : list A) x y : last (l ++ [x]) y = x.
  Proof. induction l as [|z l IH]; [reflexivity|]. cbn. destruct (l ++ [x]) eqn:E; [destruct l; discriminate|exact IH]. Qed.

  Section One.
  Variables (a : dbapp) (s : fsys) (n : bytes) (id : Z) (bs : list batch) (pd : list content) (now : Z).
  Hypothesis Sy : synced H mv a s n id bs pd.
  Hypothesis Wb : ok_batch (pd, now).
  Hypothesis Ft : fits H mv (bs ++ [(pd, now)]).
  Hypothesis Ch : chunk_ok (a_chunk a) (history_data bs).
  Notation new := (bs ++ [(pd, now)]).

  Variable b : dbapp.
  Hypothesis Gb : good_config b.
  Hypothesis Nb : existsb (fun x => bytes_eqb (x_name (snd x)) n) (a_ctxs b) = false.

  Lemma new_ok : Forall ok_batch bs /\ fits H mv bs /\ Forall ok_batch new.
  Proof.
    destruct Sy as (i & h & (A1 & A2 & A3 & A4 & A5 & A6 & A7 & A8 & A9 & A10 & A11) & _).
    split; [exact A10|]. split; [exact A11|]. apply Forall_app. auto.
  Qed.

  Lemma retrieve_file chunk hs : Forall ok_batch hs -> fits H mv hs -> (0 < chunk)%Z ->
    retrieve_reference H mv behind chunk (history_file H mv hs) =
    Ok (history_ref H mv hs, zlen (header (history_ref H mv hs))).
  Proof.
    intros F T P. unfold history_file. apply retrieve_history; auto; [now intros ->|exact (fits_data H mv _ T)].
  Qed.

  Lemma opened_ctx m conn r : ctx_get (a_ctxs (opened b m conn r)) (zlen (a_ctxs b)) =
    Some (Ctx (zlen (a_ctxs b)) m conn (fst r) (snd r) []).
  Proof. cbn [opened with_ctxs a_ctxs]. now rewrite ctx_get_set, Z.eqb_refl. Qed.

  Lemma opened_ctx_file m conn hs : ctx_get (a_ctxs (opened b m conn (history_ref H mv hs, zlen (header (history_ref H mv hs))))) (zlen (a_ctxs b)) =
    Some (Ctx (zlen (a_ctxs b)) m conn (history_ref H mv hs) (zlen (header (history_ref H mv hs))) []).
  Proof. apply opened_ctx. Qed.

  Lemma second_end {A} (l : list A) x y : nth_error (l ++ [x; y]) (S (length l)) = Some y.
  Proof. rewrite nth_error_app2 by lia. now replace (S (length l) - length l) with 1 by lia. Qed.

  Lemma opened_mixed conn x k h : ctx_get (a_ctxs a) id = Some (Ctx id n h (history_ref H mv bs) (zlen (header (history_ref H mv bs))) pd) ->
    nth_error (f_handles x) conn = Some (Handle k 0 true) -> data_of x k = history_file H mv new ->
    mixed (opened b n conn (history_ref H mv bs, zlen (header (history_ref H mv bs))), x, zlen (a_ctxs b)) a id bs new.
  Proof.
    intros Ec En Ek0.
    assert (Ek : content_keys (opened b n conn (history_ref H mv bs, zlen (header (history_ref H mv bs)))) (zlen (a_ctxs b)) = content_keys a id).
    { unfold content_keys. rewrite opened_ctx_file, Ec. reflexivity. }
    split; [|split; [|split]].
    - unfold commits_db. rewrite opened_ctx_file, Ec. reflexivity.
    - intros kind. unfold content_keys_by_kind. now rewrite Ek.
    - intros from len A B C. unfold read_db. rewrite opened_ctx_file. cbn [x_conn x_off p_from p_length].
      unfold fits in Ft. pose proof (zlen_nonneg (header (history_ref H mv bs))).
      replace (two63 <=? len)%Z with false by (symmetry; apply Z.leb_gt; lia).
      rewrite u64_small by (rewrite two63_val, two64_val in *; lia). rewrite i64_small by lia.
      apply (read_at_file _ _ k); try lia; [exact En|exact Ek0].
    - intros hh. unfold read_by_hash. now rewrite Ek.
  Qed.

  Lemma open_watching hs pre z o hs' ys rest :
    states (p_commit H mv now a s id) s = (pre ++ [z]) ++ rest ->
    length (f_data s) <= length (f_data z) ->
    watch (p_open H mv behind b n) hs (pre ++ [z]) o hs' ys ->
    (o = Err /\ dir_get (f_dir z) n <> dir_get (f_dir s) n) \/
    exists b' id', o = Ok (b', id') /\
      ((shows H (b', with_handles z hs', id') bs) \/
       (shows H (b', with_handles z hs', id') new /\ dir_get (f_dir z) n <> dir_get (f_dir s) n) \/
       (mixed (b', with_handles z hs', id') a id bs new /\ dir_get (f_dir z) n <> dir_get (f_dir s) n)).
  Proof.
    intros Es Lz W. destruct new_ok as (F1 & T1 & F2). pose proof Gb as (G1 & G2).
    destruct (commit_parts H mv HL a s n id bs pd now Sy Wb Ft Ch) as (i & h & r & s1 & s6 & s7 & s8 & s9 & s10 & d & bk & off & P).
    set (old_at := old_at H mv n bs i). set (gap_at := gap_at H mv n bs i). set (new_at := new_at H mv n bs pd now i d).
    assert (Ph : phased H mv n bs pd now i d (states (p_commit H mv now a s id) s)) by (eapply commit_phased; exact P).
    rewrite Es in Ph. apply phased_prefix in Ph.
    pose proof (phased_steady _ _ _ _ _ _ _ _ _ Ph) as St.
    assert (En : dir_get (f_dir s) n = Some (EFile i)) by apply P.
    assert (Ndi : d <> i) by apply P.
    assert (Ec : ctx_get (a_ctxs a) id = Some (Ctx id n h (history_ref H mv bs) (zlen (header (history_ref H mv bs))) pd)) by apply P.
    assert (Li : i < length (f_data z)) by (eapply Nat.lt_le_trans; [apply P|exact Lz]).
    assert (Iz : In z (pre ++ [z])) by (apply in_or_app; right; now left).
    assert (Late : forall p x q, pre ++ [z] = p ++ x :: q -> x = z \/ In z q).
    { intros p x q E. destruct q as [|y q] using rev_ind; [left|right].
      - apply app_inj_tail in E. symmetry. apply E.
      - rewrite app_comm_cons, app_assoc in E. apply app_inj_tail in E as (_ & ->). apply in_or_app. right. now left. }
    assert (Zi : data_of z i = history_file H mv bs).
    { destruct (phased_each _ _ _ _ _ _ _ _ _ _ Ph Iz) as [Y|[Y|Y]]; apply Y. }
    assert (Ngap : forall x, gap_at x \/ new_at x -> dir_get (f_dir x) n <> dir_get (f_dir s) n).
    { intros x. rewrite En. intros [(Y & _)|(Y & _)]; rewrite Y; congruence. }
    assert (After : forall p x q, pre ++ [z] = p ++ x :: q -> gap_at x \/ new_at x -> gap_at z \/ new_at z).
    { intros p x q E Gx. destruct (Late p x q E) as [<-|Iq]; [exact Gx|].
      rewrite E in Ph. destruct (phased_at _ _ _ _ _ _ _ _ _ _ _ Ph) as [((Y & _) & _)|[(_ & Y)|(_ & Y)]].
      - apply Ngap in Gx. congruence.
      - rewrite Forall_forall in Y. now apply Y.
      - rewrite Forall_forall in Y. right. now apply Y. }
    assert (AfterN : forall p x q, pre ++ [z] = p ++ x :: q -> new_at x -> new_at z).
    { intros p x q E Gx. destruct (Late p x q E) as [<-|Iq]; [exact Gx|].
      rewrite E in Ph. destruct (phased_at _ _ _ _ _ _ _ _ _ _ _ Ph) as [((Y & _) & _)|[((Y & _) & _)|(_ & Y)]].
      - destruct Gx as (Gx & _). congruence.
      - destruct Gx as (Gx & _). congruence.
      - rewrite Forall_forall in Y. now apply Y. }
    apply watch_p_open in W as (p & x & q & Exs & M); auto.
    pose proof Ph as Ph'. rewrite Exs in Ph'.
    destruct (phased_at _ _ _ _ _ _ _ _ _ _ _ Ph') as [((X1 & X2) & Q)|[(X & Q)|(X & Q)]].
    - (* the old reference *)
      rewrite X1, X2, retrieve_file in M by auto. destruct M as (y & Iy & M).
      assert (Ey : exists p' q', pre ++ [z] = p' ++ y :: q').
      { assert (In y (pre ++ [z])) as I by (rewrite Exs; apply in_or_app; now right). now apply in_split. }
      destruct Ey as (p' & q' & Ey).
      assert (Iy' : In y (pre ++ [z])) by (rewrite Ey; apply in_or_app; right; now left).
      destruct (phased_each _ _ _ _ _ _ _ _ _ _ Ph Iy') as [(Y1 & Y2)|[Y|Y]].
      + rewrite Y1 in M. destruct M as (-> & ->). right. eexists _, _. split; [reflexivity|]. left.
        eapply (shows_at _ _ n _ (S (length hs)) i); auto; [apply opened_ctx_file|apply second_end].
      + left. pose proof Y as (Y1 & _). rewrite Y1 in M. split; [exact M|]. apply Ngap. eapply After; [exact Ey|now left].
      + pose proof Y as (Y1 & Y2 & Y3). rewrite Y1 in M. destruct M as (-> & ->). right. eexists _, _. split; [reflexivity|].
        right; right. pose proof (AfterN _ _ _ Ey Y) as Z. split; [|apply Ngap; now right].
        eapply (opened_mixed _ _ d); [exact Ec|apply second_end|apply Z].
    - left. pose proof X as (X1 & _). rewrite X1 in M. split; [exact M|]. apply Ngap. eapply After; [exact Exs|now left].
    - (* the new reference *)
      pose proof X as (X1 & X2 & X3). rewrite X1, X2, retrieve_file in M by auto. destruct M as (y & Iy & M).
      assert (Y : new_at y) by (destruct Iy as [<-|Iy]; [exact X|rewrite Forall_forall in Q; now apply Q]).
      pose proof Y as (Y1 & _). rewrite Y1 in M. destruct M as (-> & ->). right. eexists _, _. split; [reflexivity|].
      right; left. pose proof (AfterN _ _ _ Exs X) as Z. split; [|apply Ngap; now right].
      eapply (shows_at _ _ n _ (S (length hs)) d); auto; [apply opened_ctx_file|apply second_end|apply Z|].
      destruct (Nat.lt_ge_cases d (length (f_data z))) as [|G]; [assumption|].
      destruct Z as (_ & Z & _). unfold data_of in Z. rewrite nth_overflow in Z by exact G.
      assert (Nn : new <> []) by (intros X0; destruct bs; discriminate X0).
      pose proof (history_data_pos new Nn F2) as X0. unfold history_file in Z. symmetry in Z.
      apply app_eq_nil in Z as (_ & Z). rewrite Z in X0. cbn in X0. lia.
  Qed.
  End One.
End Open.
