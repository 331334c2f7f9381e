(** Further facts about the database: single commits, lost data, several applications. *)
From Coq Require Import List ZArith NArith Lia Bool.
From Coq Require Import Init.Byte Strings.Byte.
From Verif Require Import Base BaseLemmas HashModel HashProofs SpecHash HashTreeModel HashTreeProofs
  RefModel RefProofs SpecRef DbModel SpecDb DbRefProofs DbFsProofs DbCommitProofs DbOpenProofs DbApiProofs
  DbSession DbSessionProofs.
Import ListNotations.

Lemma ctx_del_idem l id : ctx_del (ctx_del l id) id = ctx_del l id.
Proof.
  unfold ctx_del. induction l as [|[k c] l IH]; cbn [filter fst]; auto.
  destruct (k =? id)%Z eqn:E; cbn [negb]; auto. cbn [filter fst]. rewrite E. cbn [negb]. now rewrite IH.
Qed.

Lemma ctx_set_set l id c c' : ctx_set (ctx_set l id c) id c' = ctx_set l id c'.
Proof.
  unfold ctx_set. f_equal. unfold ctx_del at 1. cbn [filter fst]. rewrite Z.eqb_refl. cbn [negb].
  apply ctx_del_idem.
Qed.

(** ** Writes and Cancel *)
Definition writes (a : dbapp) (id : Z) (l : list content) : dbapp :=
  fold_left (fun a c => fst (write_db a id (ct_hash c) (ct_data c) (ct_kind c))) l a.

Lemma write_cancel a id h d k : fst (cancel_db (fst (write_db a id h d k)) id) = fst (cancel_db a id).
Proof.
  unfold write_db. destruct (ctx_get (a_ctxs a) id) as [c|] eqn:E; [|reflexivity].
  destruct (content_now h d k); try reflexivity. cbn [fst].
  unfold cancel_db. cbn [with_ctxs a_ctxs]. rewrite ctx_get_set, Z.eqb_refl, E. cbn [fst].
  unfold with_ctxs; cbn. now rewrite ctx_set_set.
Qed.

Lemma writes_cancel l : forall a id, fst (cancel_db (writes a id l) id) = fst (cancel_db a id).
Proof.
  unfold writes. induction l as [|c l IH]; intros a id; [reflexivity|].
  cbn [fold_left]. rewrite IH. apply write_cancel.
Qed.

Lemma write_get a id h d k j :
  match ctx_get (a_ctxs (fst (write_db a id h d k))) j, ctx_get (a_ctxs a) j with
  | Some c', Some c => x_id c' = x_id c /\ x_name c' = x_name c /\ x_conn c' = x_conn c /\
                       x_ref c' = x_ref c /\ x_off c' = x_off c
  | None, None => True
  | _, _ => False
  end.
Proof.
  unfold write_db. destruct (ctx_get (a_ctxs a) id) as [c|] eqn:E; cbn [fst]; [|destruct (ctx_get (a_ctxs a) j); auto 10].
  destruct (content_now h d k); cbn [fst with_ctxs a_ctxs]; try (destruct (ctx_get (a_ctxs a) j); auto 10; fail).
  rewrite ctx_get_set. destruct (Z.eqb_spec id j) as [<-|N]; [|destruct (ctx_get (a_ctxs a) j); auto 10].
  rewrite E. cbn. auto 10.
Qed.

Lemma commits_now_inv l cs : commits_now l = Ok cs -> l = cs.
Proof. unfold commits_now. destruct l; [discriminate|]. now injection 1. Qed.

Lemma keys_now_inv l cs : keys_now l = Ok cs -> l = cs.
Proof. unfold keys_now. destruct l; [discriminate|]. now injection 1. Qed.

Lemma run_call_then {A B} (f : fsys -> fsys * outcome A) (k : A -> prog B) s :
  run (andthen (call f) k) s =
  match snd (f s) with
  | Ok a => run (k a) (fst (f s)) | Err => (fst (f s), Err) | Panic => (fst (f s), Panic) | Fuel => (fst (f s), Fuel)
  end.
Proof. unfold andthen. rewrite run_catch, run_call. now destruct (snd (f s)). Qed.

Section More.
  Variable H : bytes -> bytes.
  Variable mv : byte.
  Variable behind : bytes -> bytes.
  Hypothesis HL : forall x, length (H x) = 64.

  Notation synced := (synced H mv).
  Notation db_file := (db_file H mv).

  (** ** One commit on any context *)
  Lemma update_reference_inv c now r : update_reference H mv c now = Ok r ->
    exists t parent new,
      build_tree H (Some (map ct_hash (x_pending c))) = Ok t /\
      (match x_ref c with
       | None => parent = None
       | Some r0 => exists cs l, r_commits r0 = cs ++ [l] /\ parent = Some (c_hash l)
       end) /\
      r_commits r = match x_ref c with Some r0 => r_commits r0 | None => [] end ++
                    [commit_now H mv t now parent None] /\
      pending_keys (c_hash (commit_now H mv t now parent None))
        (match x_ref c with Some r0 => keys_next (r_keys r0) | None => 0%Z end) (x_pending c) = Ok new /\
      r_keys r = match x_ref c with Some r0 => r_keys r0 | None => [] end ++ new.
  Proof.
    unfold update_reference. intros E.
    destruct (match x_ref c with Some r0 => _ | None => Ok None end) as [parent| | |] eqn:Ep; try discriminate.
    cbn [bind] in E. destruct (build_tree H _) as [t| | |] eqn:Et; try discriminate. cbn [bind] in E.
    destruct (commits_now _) as [cs| | |] eqn:Ec; try discriminate. cbn [bind] in E.
    destruct (pending_keys _ _ _) as [new| | |] eqn:En; try discriminate. cbn [bind] in E.
    destruct (keys_now _) as [ks| | |] eqn:Ek; try discriminate. cbn [bind] in E. inversion E; subst r; clear E.
    exists t, parent, new. cbn [r_commits r_keys].
    split; [reflexivity|]. split.
    { destruct (x_ref c) as [r0|]; [|now inversion Ep].
      unfold commits_latest in Ep. destruct (rev (r_commits r0)) as [|l tl] eqn:Er; [discriminate|].
      cbn [bind] in Ep. inversion Ep. exists (rev tl), l. split; auto.
      rewrite <- (rev_involutive (r_commits r0)), Er. reflexivity. }
    split.
    { symmetry. now apply commits_now_inv. }
    split; [reflexivity || exact En|].
    symmetry. now apply keys_now_inv.
  Qed.

  Lemma commit_inv now a s id s' a' : commit_db H mv now a s id = (s', a', Ok tt) ->
    exists c r conn off, ctx_get (a_ctxs a) id = Some c /\ update_reference H mv c now = Ok r /\
      a' = with_ctxs a (ctx_set (a_ctxs a) id (Ctx (x_id c) (x_name c) conn (Some r) off (x_pending c))).
  Proof.
    unfold commit_db, commit_fuel. destruct (ctx_get (a_ctxs a) id) as [c|]; [|discriminate].
    destruct (update_reference H mv c now) as [r| | |] eqn:Er; try discriminate.
    destruct (run _ s) as [s1 [[conn off]| | |]]; try discriminate.
    intros E. inversion E; subst. do 4 eexists. repeat split; eauto.
  Qed.

  Lemma commit_states_last now a s id : In (fst (fst (commit_db H mv now a s id))) (commit_states H mv now a s id).
  Proof.
    unfold commit_db, commit_fuel, commit_states. destruct (ctx_get (a_ctxs a) id) as [c|]; [|now left].
    destruct (update_reference H mv c now) as [r| | |]; try (now left).
    pose proof (states_last (update_database (S (conn_size s c)) a c r) s) as L.
    destruct (run _ s) as [s1 [[conn off]| | |]]; exact L.
  Qed.

  (** ** Crash points *)
  Lemma commit_crash a s n id bs pd now : synced a s n id bs pd ->
    ok_batch (pd, now) -> (zlen (history_data (bs ++ [(pd, now)])) < two63)%Z ->
    let new := header (history_ref H mv (bs ++ [(pd, now)])) ++
               (match bs with [] => [] | _ => kept (make_chunk (a_chunk a) (zlen (history_data bs))) (history_data bs) end) ++
               batch_data pd in
    let ok x :=
      (file_at x n = Some (history_file H mv bs) \/ file_at x n = Some new \/
       (nothing_at x n /\ file_at x (side n (a_dst a)) = Some new /\
        file_at x (side n (a_bck a)) = Some (history_file H mv bs))) /\
      (forall m, m <> n -> m <> side n (a_dst a) -> m <> side n (a_bck a) -> file_at x m = file_at s m) /\
      fs_ok x /\ f_faults x = [] /\
      (dir_get (f_dir x) (side n (a_dst a)) <> Some EDir /\ dir_get (f_dir x) (side n (a_bck a)) <> Some EDir) in
    Forall ok (commit_states H mv now a s id) /\
    exists x i, In x (commit_states H mv now a s id) /\ nothing_at x n /\
      file_at x (side n (a_dst a)) = Some new /\ file_at x (side n (a_bck a)) = Some (history_file H mv bs) /\
      dir_get (f_dir s) n = Some (EFile i) /\ In i (f_locks x) /\ ok x.
  Proof.
    intros (i & h & (A1 & A2 & A3 & A4 & A5 & A6 & A7 & A8 & A9 & A10 & A11) & Ec & Eh) W L new ok.
    set (c := Ctx id n h (history_ref H mv bs) (zlen (header (history_ref H mv bs))) pd) in *.
    destruct (update_reference_spec H mv HL c bs now) as (r & Er & Hr); auto.
    cbn [x_pending c] in Hr. unfold commit_states. rewrite Ec, Er.
    assert (Nh : bs <> [] -> history_data bs <> []).
    { intros N E. pose proof (history_data_pos bs N A10) as X. rewrite E in X. cbn in X. lia. }
    assert (Hc : x_ref c <> None -> (0 < a_chunk a)%Z /\ (0 <= x_off c < zlen (data_of s i))%Z).
    { intros N. assert (Nb' : bs <> []) by (intros ->; now apply N). split; auto. cbn [x_off c].
      rewrite A9. unfold history_file. rewrite zlen_app.
      pose proof (zlen_nonneg (header (history_ref H mv bs))). specialize (Nh Nb').
      assert (0 < zlen (history_data bs))%Z by (unfold zlen; destruct (history_data bs); [congruence|cbn [length]; lia]). lia. }
    assert (Inj : forall e, dir_get (f_dir s) (side n e) <> Some (EFile i)).
    { intros e X. destruct A3 as (_ & I). apply (side_neq n e). eapply I; eauto. }
    assert (Lo : (zlen (data_of s i) < two63)%Z) by (rewrite A9; exact A11).
    assert (Lk : existsb (Nat.eqb i) (f_locks s) = false) by now rewrite A8.
    assert (Li : i < length (f_data s)) by (now apply A3 in A5).
    assert (Lf : length (data_of s i) < S (conn_size s c)).
    { unfold conn_size. cbn [x_conn c]. rewrite Eh. cbn [h_ino]. lia. }
    assert (En : newfile a c r s i = new).
    { unfold newfile, new. rewrite Hr. f_equal. f_equal. unfold copied. cbn [x_ref x_off c]. rewrite A9. unfold history_file.
      rewrite (skipn_app_exact _ (history_data bs)) by (unfold zlen; now rewrite Nat2Z.id). destruct bs; reflexivity. }
    assert (OK : forall x, crash_ok a c r s i i x -> ok x).
    { intros x. unfold crash_ok, ok. rewrite En, A9. auto. }
    pose proof (update_database_tri a c r s i i A1 A3 A4 A5 (conj Li (conj (Inj _) (Inj _))) Eh Lk A6 A7 Lo Hc _ Lf) as (F & _).
    split. { eapply Forall_impl; [exact OK|exact F]. }
    destruct (gap_state a c r s i i A1 A3 A4 A5 (conj Li (conj (Inj _) (Inj _))) Eh Lk A6 A7 Lo Hc _ Lf)
      as (x & I & N & D & B & K & C).
    rewrite En in D. rewrite A9 in B.
    exists x, i. repeat (split; auto). all: apply OK; exact C.
  Qed.

  (** ** What a fresh application finds in a file *)
  (** All processes are gone: no open files, no locks. *)
  Definition reboot (s : fsys) : fsys := with_locks (with_handles s []) [].

  Lemma open_file a x n bs : a_ctxs a = [] -> a_dst a <> a_bck a -> (0 < a_chunk a)%Z ->
    fs_ok x -> f_faults x = [] ->
    dir_get (f_dir x) (side n (a_dst a)) <> Some EDir -> dir_get (f_dir x) (side n (a_bck a)) <> Some EDir ->
    file_at x n = Some (history_file H mv bs) -> Forall ok_batch bs -> fits H mv bs ->
    exists s' a', open_db H mv behind n a (reboot x) = (s', a', Ok 0%Z) /\ synced a' s' n 0 bs [].
  Proof.
    intros Ea A1 A2 K F Nd Nb Ef Fb Ft. unfold file_at in Ef.
    destruct (dir_get (f_dir x) n) as [[i|]|] eqn:E; try discriminate. inversion Ef as [Ed].
    assert (D : db_file a (reboot x) n i bs).
    { unfold DbApiProofs.db_file. repeat (split; auto). all: apply K. }
    destruct (open_ok H mv behind HL a (reboot x) n i bs D) as (s' & a' & Eo & S & _).
    { now rewrite Ea. }
    rewrite Ea in *. cbn in Eo, S. exists s', a'. auto.
  Qed.

  (** ** Lost data *)
  Lemma make_chunk_le ck n : (ck <= n)%Z -> make_chunk ck n = ck.
  Proof. intros. unfold make_chunk. ltb_false. reflexivity. Qed.

  Lemma read_area s hd area h i from len a id c :
    ctx_get (a_ctxs a) id = Some c -> x_conn c = h -> x_off c = zlen hd ->
    nth_error (f_handles s) h = Some (Handle i 0 true) -> data_of s i = hd ++ area ->
    (0 <= from)%Z -> (0 <= len < two63)%Z -> (zlen hd + from < two63)%Z ->
    read_db a s id (Pointer from len) =
      (if (len =? 0)%Z then Ok [] else
       if (from + len <=? zlen area)%Z then Ok (sub area from len) else Err).
  Proof.
    intros Ec Ex Eo Eh Ed F L O. unfold read_db. rewrite Ec, Ex, Eo. cbn [p_from p_length].
    pose proof (zlen_nonneg hd). replace (two63 <=? len)%Z with false by (symmetry; apply Z.leb_gt; lia).
    rewrite u64_small by (rewrite two63_val, two64_val in *; lia). rewrite i64_small by lia.
    unfold read_at. rewrite Eh, Ed. ltb_false. destruct (len =? 0)%Z; [reflexivity|].
    rewrite zlen_app. destruct (Z.leb_spec (from + len) (zlen area)); destruct (Z.leb_spec (zlen hd + from + len) (zlen hd + zlen area)); try lia; auto.
    f_equal. now apply sub_skip.
  Qed.

  (** A commit over data that is longer than a chunk and not a whole number of chunks. *)
  Lemma commit_lossy a s n id bs pd now : synced a s n id bs pd ->
    ok_batch (pd, now) -> fits H mv (bs ++ [(pd, now)]) ->
    (a_chunk a < zlen (history_data bs))%Z -> (zlen (history_data bs) mod a_chunk a <> 0)%Z ->
    exists s' a' ks, commit_db H mv now a s id = (s', a', Ok tt) /\
      content_keys a' id = Ok ks /\
      Forall2 (fun ct k => k_hash k = ct_hash ct /\ k_kind k = ct_kind ct /\ p_length (k_content k) = zlen (ct_data ct))
              (history_contents (bs ++ [(pd, now)])) ks /\
      (forall from len, (0 <= from)%Z -> (0 < len)%Z ->
         (from + len <= zlen (history_data bs) - zlen (history_data bs) mod a_chunk a)%Z ->
         read_db a' s' id (Pointer from len) = read_db a s id (Pointer from len)) /\
      (exists k before, ks = before ++ [k] /\ read_db a' s' id (k_content k) = Err).
  Proof.
    intros S W Ft Lt Nm. pose proof S as (i & h & (A1 & A2 & A3 & A4 & A5 & A6 & A7 & A8 & A9 & A10 & A11) & Ec & Eh).
    assert (Nb : bs <> []).
    { intros ->. change (history_data []) with (@nil byte) in Lt. cbn in Lt. lia. }
    assert (Nh : history_data bs <> []).
    { intros E. pose proof (history_data_pos bs Nb A10) as X. rewrite E in X. cbn in X. lia. }
    assert (Inj : forall e, dir_get (f_dir s) (side n e) <> Some (EFile i)).
    { intros e X. destruct A3 as (_ & I). apply (side_neq n e). eapply I; eauto. }
    destruct (commit_general H mv HL a s n id bs pd h i i (history_data bs) now) as
      (s' & a' & E & Ea & (d & D1 & D2 & D3 & D4) & D5 & D6 & D7 & D8); auto.
    { now rewrite A8. }
    { now apply A3 in A5. }
    { rewrite A9. exact A11. }
    { now apply fits_data in Ft. }
    set (hd := header (history_ref H mv (bs ++ [(pd, now)]))) in *.
    assert (Lf := Ft). unfold fits, history_file in Lf. fold hd in Lf. rewrite zlen_app, history_data_app, zlen_app in Lf.
    assert (Ep : history_data [(pd, now)] = batch_data pd) by (unfold history_data; cbn; now rewrite app_nil_r).
    rewrite Ep in Lf. pose proof (zlen_nonneg hd). pose proof (zlen_nonneg (history_data bs)).
    assert (Pp : (0 < zlen (batch_data pd))%Z) by (destruct W as (W1 & W2 & _); now apply batch_data_pos).
    pose proof (Z.mod_pos_bound (zlen (history_data bs)) (a_chunk a) A2) as Mb.
    assert (Ek : match bs with [] => [] | _ => kept (make_chunk (a_chunk a) (zlen (history_data bs))) (history_data bs) end
                 = kept (a_chunk a) (history_data bs)).
    { destruct bs; [congruence|]. now rewrite make_chunk_le by lia. }
    rewrite Ek in D2. set (kp := kept (a_chunk a) (history_data bs)) in *.
    assert (Lk : zlen kp = (zlen (history_data bs) - zlen (history_data bs) mod a_chunk a)%Z)
      by (apply kept_zlen; auto).
    assert (Ec' : ctx_get (a_ctxs a') id = Some (Ctx id n (length (f_handles s)) (history_ref H mv (bs ++ [(pd, now)])) (zlen hd) pd)).
    { rewrite Ea. cbn [with_ctxs a_ctxs]. now rewrite ctx_get_set, Z.eqb_refl. }
    assert (Eh' : nth_error (f_handles s') (length (f_handles s)) = Some (Handle d 0 true)).
    { rewrite D4. rewrite nth_error_app2 by (rewrite set_nth_length; lia).
      now rewrite set_nth_length, Nat.sub_diag. }
    pose proof (history_located H mv (bs ++ [(pd, now)]) None []) as Loc. cbn [app] in Loc.
    exists s', a', (history_keys H mv None 0 (bs ++ [(pd, now)])). split; [exact E|].
    split. { unfold content_keys. rewrite Ec'. cbn [x_ref]. now rewrite history_ref_app_some. }
    split. { eapply Forall2_impl'; [|exact Loc]. intros ct k (X1 & X2 & X3 & _). auto. }
    split.
    - intros from len P1 P2 P3.
      rewrite (read_area s' hd (kp ++ batch_data pd) (length (f_handles s)) d from len a' id _ Ec' eq_refl eq_refl Eh' D2)
        by lia.
      rewrite (read_synced H mv a s n id bs pd from len S) by lia.
      replace (len =? 0)%Z with false by (symmetry; apply Z.eqb_neq; lia).
      rewrite zlen_app. replace (from + len <=? zlen kp + zlen (batch_data pd))%Z with true by (symmetry; apply Z.leb_le; lia).
      f_equal. unfold sub. unfold kp, kept. fold kp.
      assert (Hk : exists q, history_data bs = kp ++ q).
      { exists (skipn (Z.to_nat (zlen (history_data bs) / a_chunk a * a_chunk a)) (history_data bs)). symmetry. apply firstn_skipn. }
      destruct Hk as (q & Hq). change (firstn (Z.to_nat (zlen (history_data bs) / a_chunk a * a_chunk a)) (history_data bs)) with kp.
      rewrite Hq. rewrite !skipn_app, !firstn_app. unfold zlen in *. rewrite skipn_length.
      replace (Z.to_nat len - (length kp - Z.to_nat from)) with 0 by lia. cbn [firstn]. reflexivity.
    - assert (Np : pd <> []) by (apply W). destruct (exists_last Np) as (pd' & ct & Epd).
      rewrite history_keys_app. cbn [history_keys fst]. rewrite app_nil_r, Z.add_0_l.
      match goal with |- context [place ?x _ _] => generalize x end. intros hh.
      replace (place hh (zlen (history_data bs)) pd) with (place hh (zlen (history_data bs)) (pd' ++ [ct])) by now rewrite <- Epd.
      rewrite place_app. cbn [place]. eexists _, _. split; [apply app_assoc|]. cbn [k_content].
      assert (Lb : zlen (batch_data pd) = (zlen (batch_data pd') + zlen (ct_data ct))%Z).
      { rewrite Epd, batch_data_app, zlen_app. unfold batch_data at 2. cbn. now rewrite app_nil_r. }
      pose proof (zlen_nonneg (batch_data pd')).
      assert (0 < zlen (ct_data ct))%Z.
      { destruct W as (_ & W & _). cbn [fst] in W. rewrite Epd in W. apply Forall_app in W as (_ & W). inversion W as [|? ? (_ & X & _) _]; subst.
        unfold zlen. destruct (ct_data ct); [congruence|cbn [length]; lia]. }
      rewrite (read_area s' hd (kp ++ batch_data pd) (length (f_handles s)) d _ _ a' id _ Ec' eq_refl eq_refl Eh' D2) by lia.
      replace (zlen (ct_data ct) =? 0)%Z with false by (symmetry; apply Z.eqb_neq; lia).
      rewrite zlen_app, Lk.
      destruct (Z.leb_spec (zlen (history_data bs) + zlen (batch_data pd') + zlen (ct_data ct))
                  (zlen (history_data bs) - zlen (history_data bs) mod a_chunk a + zlen (batch_data pd))); [lia|reflexivity].
  Qed.

  (** ** Two applications on one database *)
  Lemma commit_other a1 a2 s n id1 id2 bs pd1 pd2 t1 t2 :
    synced a1 s n id1 bs pd1 -> synced a2 s n id2 bs pd2 ->
    a_dst a2 = a_dst a1 -> a_bck a2 = a_bck a1 ->
    (forall c1 c2, ctx_get (a_ctxs a1) id1 = Some c1 -> ctx_get (a_ctxs a2) id2 = Some c2 -> x_conn c1 <> x_conn c2) ->
    ok_batch (pd1, t1) -> ok_batch (pd2, t2) ->
    fits H mv (bs ++ [(pd1, t1)]) -> fits H mv (bs ++ [(pd2, t2)]) ->
    chunk_ok (a_chunk a1) (history_data bs) -> chunk_ok (a_chunk a2) (history_data bs) ->
    exists s1 a1' s2 a2',
      commit_db H mv t1 a1 s id1 = (s1, a1', Ok tt) /\
      synced a1' s1 n id1 (bs ++ [(pd1, t1)]) pd1 /\
      (forall p, read_db a2 s1 id2 p = read_db a2 s id2 p) /\
      commit_db H mv t2 a2 s1 id2 = (s2, a2', Ok tt) /\
      synced a2' s2 n id2 (bs ++ [(pd2, t2)]) pd2.
  Proof.
    intros S1 S2 Ed Eb Nc W1 W2 F1 F2 C1 C2.
    destruct (commit_ok H mv HL a1 s n id1 bs pd1 t1 S1 W1 F1 C1) as (s1 & a1' & E1 & S1' & Ea1 & _).
    pose proof S1 as (i & h & (A1 & A2 & A3 & A4 & A5 & A6 & A7 & A8 & A9 & A10 & A11) & Ec & Eh).
    pose proof S2 as (i2 & h2 & (B1 & B2 & B3 & B4 & B5 & B6 & B7 & B8 & B9 & B10 & B11) & Ec2 & Eh2).
    assert (i2 = i) by congruence. subst i2.
    assert (Nh : bs <> [] -> history_data bs <> []).
    { intros N E. pose proof (history_data_pos bs N A10) as X. rewrite E in X. cbn in X. lia. }
    assert (Inj : forall e, dir_get (f_dir s) (side n e) <> Some (EFile i)).
    { intros e X. destruct A3 as (_ & I). apply (side_neq n e). eapply I; eauto. }
    destruct (commit_general H mv HL a1 s n id1 bs pd1 h i i (history_data bs) t1) as
      (s' & a' & E & Ea & (d & D1 & D2 & D3 & D4) & D5 & D6 & D7 & D8); auto.
    { now rewrite A8. }
    { now apply A3 in A5. }
    { rewrite A9. exact A11. }
    { now apply fits_data in F1. }
    assert (s' = s1) by congruence. assert (a' = a1') by congruence. subst s'. rewrite H1 in *. clear H1 a' E1.
    assert (Li : i < length (f_data s)) by (now apply A3 in A5).
    destruct (D3 i Li (Inj _) (Inj _)) as (Nid & Di).
    assert (Hh : h2 <> h) by (intros X; apply (Nc _ _ Ec Ec2); cbn; congruence).
    assert (Eh2' : nth_error (f_handles s1) h2 = Some (Handle i 0 true)).
    { rewrite D4. rewrite nth_error_app1 by (rewrite set_nth_length; apply nth_error_Some; congruence).
      rewrite nth_error_set_nth by (apply nth_error_Some; congruence).
      replace (Nat.eqb h h2) with false by (symmetry; apply Nat.eqb_neq; auto). exact Eh2. }
    exists s1, a1'.
    assert (Fr : forall e, bytes_eqb n (side n e) = false)
      by (intros e; apply bytes_eqb_neq; intros X; symmetry in X; now apply side_neq in X).
    assert (Ndst : dir_get (f_dir s1) (side n (a_dst a2)) = None).
    { rewrite Ed, D1, Fr, bytes_eqb_refl. reflexivity. }
    assert (Nbck : dir_get (f_dir s1) (side n (a_bck a2)) = None).
    { rewrite Eb, D1, Fr, bytes_eqb_refl. now destruct (bytes_eqb (side n (a_dst a1)) (side n (a_bck a1))). }
    destruct (commit_general H mv HL a2 s1 n id2 bs pd2 h2 i d (history_data bs) t2) as
      (s2 & a2' & E2 & Ea2 & (d2 & G1 & G2 & G3 & G4) & G5 & G6 & G7 & G8); auto.
    { rewrite D1. now rewrite bytes_eqb_refl. }
    { now rewrite Ndst. }
    { now rewrite Nbck. }
    { now rewrite D8, A8. }
    { lia. }
    { now rewrite Ndst. }
    { now rewrite Nbck. }
    { rewrite Di. exact A9. }
    { rewrite Di, A9. exact A11. }
    { now apply fits_data in F2. }
    exists s2, a2'. split; [exact E|]. split; [exact S1'|]. split.
    { intros p. unfold read_db. rewrite Ec2. cbn [x_conn]. destruct (two63 <=? p_length p)%Z; auto.
      unfold read_at. rewrite Eh2, Eh2', Di. reflexivity. }
    split; [exact E2|].
    assert (Ek : match bs with [] => [] | _ => kept (make_chunk (a_chunk a2) (zlen (history_data bs))) (history_data bs) end
                 = history_data bs).
    { destruct bs; [reflexivity|]. destruct C2. apply kept_ok; auto. apply Nh. discriminate. }
    rewrite Ek in G2.
    exists d2, (length (f_handles s1)). split; [|split].
    - unfold DbApiProofs.db_file. rewrite Ea2. cbn [with_ctxs a_dst a_bck a_chunk].
      split; [exact B1|]. split; [exact B2|]. split; [exact G7|]. split; [exact G5|].
      split. { rewrite G1. now rewrite bytes_eqb_refl. }
      split. { rewrite G1, Fr, bytes_eqb_refl. discriminate. }
      split. { rewrite G1, Fr, bytes_eqb_refl. destruct (bytes_eqb (side n (a_dst a2)) (side n (a_bck a2))); discriminate. }
      split. { now rewrite G8, D8. }
      split. { rewrite G2. unfold history_file. rewrite history_data_app. unfold history_data at 3. cbn. now rewrite app_nil_r. }
      split; [|exact F2]. apply Forall_app. split; auto.
    - rewrite Ea2. cbn [with_ctxs a_ctxs]. rewrite ctx_get_set, Z.eqb_refl. reflexivity.
    - rewrite G4. rewrite nth_error_app2 by (rewrite set_nth_length; lia).
      rewrite set_nth_length, Nat.sub_diag. reflexivity.
  Qed.

  (** ** Sessions *)
  Lemma session_synced a0 n s0 os a s id : session H mv behind a0 n s0 os (a, s, id) ->
    synced a s n id (committed os) (pending os) /\ Forall ok_content (pending os) /\
    a_chunk a = a_chunk a0 /\ a_dst a = a_dst a0 /\ a_bck a = a_bck a0.
  Proof.
    intros (G & C & Cl & Fr & A & st0 & E0 & E).
    destruct (new_synced H mv behind HL a0 n s0 G C Cl Fr) as (a1 & s1 & id1 & E1 & S1 & Ch & Ed & Eb).
    rewrite E1 in E0. injection E0 as <-. rewrite <- Ch in A.
    destruct (session_run H mv behind HL n os a1 s1 id1 [] [] S1 (Forall_nil _) A) as (a2 & s2 & id2 & E2 & S2 & F2 & C2).
    rewrite E2 in E. injection E as <- <- <-.
    split; [exact S2|]. split; [exact F2|].
    assert (X : a_dst a2 = a_dst a1 /\ a_bck a2 = a_bck a1).
    { clear - E2. revert a1 s1 id1 E2. induction os as [|o os IH]; intros a1 s1 id1 E; cbn [exec] in E.
      - injection E as -> -> ->. auto.
      - destruct (exec_step H mv behind n (a1, s1, id1) o) as [[[a3 s3] id3]| | |] eqn:E3; try discriminate.
        cbn [bind] in E. apply IH in E as (-> & ->). clear IH.
        destruct o as [h d k| |now|]; cbn [exec_step] in E3.
        + unfold write_db in E3. destruct (ctx_get _ _); [|discriminate].
          destruct (content_now h d k); try discriminate. cbn [bind] in E3. injection E3 as <- _ _. auto.
        + unfold cancel_db in E3. destruct (ctx_get _ _); [|discriminate]. cbn [bind] in E3. injection E3 as <- _ _. auto.
        + destruct (commit_db H mv now a1 s1 id1) as [[sx ax] [[]| | |]] eqn:Ec; try discriminate.
          cbn [bind] in E3. injection E3 as <- <- <-.
          apply commit_inv in Ec as (c & r & conn & off & _ & _ & ->). auto.
        + unfold close_db in E3. destruct (ctx_get _ _) as [c|]; [|discriminate].
          destruct (sys_close (x_conn c) s1) as [sx [[]| | |]]; try discriminate. cbn [bind] in E3.
          unfold open_db in E3. cbn [with_ctxs a_ctxs existsb] in E3.
          destruct (dir_get (f_dir sx) n) as [[i|]|]; try discriminate.
          destruct (retrieve_reference _ _ _ _ _) as [[ref off]| | |]; try discriminate.
          destruct (sys_open n sx) as [sy [hh| | |]]; try discriminate.
          cbn [bind] in E3. injection E3 as <- <- <-. auto. }
    destruct X. repeat split; congruence.
  Qed.

  Lemma session_exists a0 n s0 os : good_config a0 -> calm s0 -> clear a0 s0 n ->
    dir_get (f_dir s0) n = None -> all_allowed H mv (a_chunk a0) ([], []) os ->
    exists st, session H mv behind a0 n s0 os st.
  Proof.
    intros G C Cl Fr A. destruct (session_ok H mv behind HL a0 n s0 os G C Cl Fr A) as (st0 & st & E0 & E & _).
    exists st. repeat (split; [assumption|]). eauto.
  Qed.

  Lemma synced_same a s n id bs pd a' s' n' id' pd' : synced a s n id bs pd -> synced a' s' n' id' bs pd' ->
    commits_db a' id' = commits_db a id /\ content_keys a' id' = content_keys a id /\
    (forall p, read_db a' s' id' p = read_db a s id p) /\ (forall h, read_by_hash a' s' id' h = read_by_hash a s id h).
  Proof.
    intros S S'.
    assert (K : content_keys a' id' = content_keys a id) by now rewrite (synced_keys _ _ _ _ _ _ _ _ S), (synced_keys _ _ _ _ _ _ _ _ S').
    assert (R : forall p, read_db a' s' id' p = read_db a s id p).
    { destruct S as (i & h & (_ & _ & _ & _ & _ & _ & _ & _ & D & _) & Ec & Eh).
      destruct S' as (i' & h' & (_ & _ & _ & _ & _ & _ & _ & _ & D' & _) & Ec' & Eh').
      intros p. unfold read_db. rewrite Ec, Ec'. cbn [x_conn x_off]. unfold read_at. now rewrite Eh, Eh', D, D'. }
    split; [now rewrite (synced_commits _ _ _ _ _ _ _ _ S), (synced_commits _ _ _ _ _ _ _ _ S')|].
    split; [exact K|]. split; [exact R|].
    intros h. unfold read_by_hash. rewrite K. destruct (content_keys a id); auto. cbn [bind].
    destruct (keys_fetch a0 h); auto. cbn [bind]. apply R.
  Qed.

  (** ** A deleted database *)
  Lemma commit_created now a s id c n i : ctx_get (a_ctxs a) id = Some c -> x_name c = n ->
    dir_get (f_dir s) n = None ->
    nth_error (f_handles s) (x_conn c) = Some i -> h_ino i < length (f_data s) -> f_locks s = [] ->
    (exists r, update_reference H mv c now = Ok r) ->
    commit_db H mv now a s id = commit_db H mv now a (fst (sys_create n s)) id.
  Proof.
    intros Ec En Ef Eh Li El (r & Er). unfold commit_db, commit_fuel. rewrite Ec, Er.
    unfold sys_create. rewrite Ef. cbn [fst].
    assert (Es : conn_size (with_data (with_dir s (dir_set (f_dir s) n (EFile (length (f_data s))))) (f_data s ++ [[]])) c = conn_size s c).
    { unfold conn_size. cbn [with_data with_dir f_handles]. rewrite Eh. unfold data_of. cbn [with_data f_data].
      now rewrite app_nth1 by auto. }
    rewrite Es. unfold update_database. rewrite !run_call_then, En.
    unfold sys_trylock. rewrite Ef. cbn [with_data with_dir f_dir f_locks f_data].
    rewrite dir_get_set, bytes_eqb_refl, El. cbn [existsb fst snd]. reflexivity.
  Qed.

  Lemma commit_deleted a s n id bs pd now : synced a s n id bs pd ->
    ok_batch (pd, now) -> fits H mv (bs ++ [(pd, now)]) -> chunk_ok (a_chunk a) (history_data bs) ->
    exists s0 s' a', delete_db n s = (s0, Ok tt) /\ nothing_at s0 n /\
      commit_db H mv now a s0 id = (s', a', Ok tt) /\ synced a' s' n id (bs ++ [(pd, now)]) pd.
  Proof.
    intros (i & h & (A1 & A2 & A3 & A4 & A5 & A6 & A7 & A8 & A9 & A10 & A11) & Ec & Eh) W Ft (Pc & Ch).
    unfold delete_db, sys_stat, sys_remove. rewrite A5.
    set (s0 := with_dir s (dir_del (f_dir s) n)).
    assert (N0 : dir_get (f_dir s0) n = None).
    { change (f_dir s0) with (dir_del (f_dir s) n). now rewrite dir_get_del, bytes_eqb_refl. }
    assert (Li : i < length (f_data s)) by (now apply A3 in A5).
    assert (Nh : bs <> [] -> history_data bs <> []).
    { intros N E. pose proof (history_data_pos bs N A10) as X. rewrite E in X. cbn in X. lia. }
    assert (K0 : fs_ok s0) by (apply fs_ok_del; auto).
    destruct (sys_create_spec n s0 K0) as (s1 & i' & Ecr & Dir & Dd & Do & Ll & Ld & Eh1 & El1 & Ef1 & Orig & K1).
    { rewrite N0. discriminate. }
    assert (Fr : forall e, bytes_eqb n (side n e) = false)
      by (intros e; apply bytes_eqb_neq; intros X; symmetry in X; now apply side_neq in X).
    assert (Ds : forall e, dir_get (f_dir s1) (side n e) = dir_get (f_dir s) (side n e)).
    { intros e. rewrite Dir, Fr. change (f_dir s0) with (dir_del (f_dir s) n). now rewrite dir_get_del, Fr. }
    assert (Ei : i' = length (f_data s)).
    { unfold sys_create in Ecr. rewrite N0 in Ecr. injection Ecr as _ <-. reflexivity. }
    assert (Di : data_of s1 i = data_of s i).
    { rewrite Do by lia. reflexivity. }
    assert (Inj : forall e, dir_get (f_dir s) (side n e) <> Some (EFile i)).
    { intros e X. destruct A3 as (_ & I). apply (side_neq n e). eapply I; eauto. }
    destruct (commit_general H mv HL a s1 n id bs pd h i i' (history_data bs) now) as
      (s' & a' & E & Ea & (d & D1 & D2 & D3 & D4) & D5 & D6 & D7 & D8); auto.
    { rewrite Ef1. exact A4. }
    { rewrite Dir. now rewrite bytes_eqb_refl. }
    { now rewrite Ds. }
    { now rewrite Ds. }
    { rewrite El1. change (f_locks s0) with (f_locks s). now rewrite A8. }
    { rewrite Eh1. exact Eh. }
    { change (f_data s0) with (f_data s) in Ll. lia. }
    { now rewrite Ds. }
    { now rewrite Ds. }
    { rewrite Di. exact A9. }
    { rewrite Di, A9. exact A11. }
    { now apply fits_data in Ft. }
    exists s0, s', a'. split; [reflexivity|]. split; [exact N0|].
    rewrite (commit_created now a s0 id _ n (Handle i 0 true) Ec eq_refl N0 Eh Li A8).
    2:{ destruct (update_reference_spec H mv HL (Ctx id n h (history_ref H mv bs) (zlen (header (history_ref H mv bs))) pd) bs now)
          as (r & Er & _); auto; [now apply fits_data in Ft|]. eauto. }
    rewrite Ecr. cbn [fst]. split; [exact E|].
    assert (Ek : match bs with [] => [] | _ => kept (make_chunk (a_chunk a) (zlen (history_data bs))) (history_data bs) end
                 = history_data bs).
    { destruct bs; [reflexivity|]. apply kept_ok; auto. apply Nh. discriminate. }
    rewrite Ek in D2.
    exists d, (length (f_handles s1)). split; [|split].
    - unfold DbApiProofs.db_file. rewrite Ea. cbn [with_ctxs a_dst a_bck a_chunk].
      split; [exact A1|]. split; [exact A2|]. split; [exact D7|]. split; [exact D5|].
      split. { rewrite D1. now rewrite bytes_eqb_refl. }
      split. { rewrite D1, Fr, bytes_eqb_refl. discriminate. }
      split. { rewrite D1, Fr, bytes_eqb_refl. destruct (bytes_eqb (side n (a_dst a)) (side n (a_bck a))); discriminate. }
      split. { rewrite D8, El1. exact A8. }
      split. { rewrite D2. unfold history_file. rewrite history_data_app. unfold history_data at 3. cbn. now rewrite app_nil_r. }
      split; [|exact Ft]. apply Forall_app. split; auto.
    - rewrite Ea. cbn [with_ctxs a_ctxs]. rewrite ctx_get_set, Z.eqb_refl. reflexivity.
    - rewrite D4. rewrite nth_error_app2 by (rewrite set_nth_length; lia).
      rewrite set_nth_length, Nat.sub_diag. reflexivity.
  Qed.

  (** ** Chunk size zero *)
  Lemma run_bytes d off w res : forall s, exists s', run (p_bytes d off w res) s = (s', res) /\
    f_handles s' = f_handles s /\ f_faults s' = f_faults s /\ f_locks s' = f_locks s /\ f_dir s' = f_dir s.
  Proof.
    revert off. induction w as [|b w IH]; intros off s; cbn [p_bytes run]; [exists s; auto|].
    destruct (IH (S off) (set_data s d (put_byte (data_of s d) off b))) as (s' & E & A & B & C & D).
    exists s'. rewrite E. auto.
  Qed.

  Lemma run_write d off w s : f_faults s = [] -> exists s', run (p_write d off w) s = (s', Ok tt) /\
    f_handles s' = f_handles s /\ f_faults s' = [] /\ f_locks s' = f_locks s /\ f_dir s' = f_dir s.
  Proof.
    intros F. unfold p_write. cbn [run]. rewrite F.
    destruct (run_bytes d off w (Ok tt) s) as (s' & E & A & B & C & D). exists s'. rewrite E. rewrite F in B. auto.
  Qed.

  Lemma copy_loop_zero conn roff dst i p : (0 <= roff)%Z -> forall fuel s woff,
    nth_error (f_handles s) conn = Some (Handle i p true) -> f_faults s = [] ->
    snd (run (copy_loop fuel conn 0 roff dst woff) s) = Fuel.
  Proof.
    intros R. induction fuel as [|fuel IH]; intros s woff Eh F; [reflexivity|].
    cbn [copy_loop run]. unfold read_at. rewrite Eh. ltb_false. cbn [Z.eqb].
    rewrite run_catch. destruct (run_write dst woff [] s F) as (s' & E & A & B & _).
    rewrite E. cbn [fst snd length]. rewrite Z.add_0_r. apply IH; congruence.
  Qed.

  Lemma commit_zero a s id c now r i p : a_chunk a = 0%Z ->
    ctx_get (a_ctxs a) id = Some c -> x_ref c = Some r -> (0 <= x_off c)%Z ->
    nth_error (f_handles s) (x_conn c) = Some (Handle i p true) -> f_faults s = [] -> f_locks s = [] ->
    dir_get (f_dir s) (x_name c) <> Some EDir -> dir_get (f_dir s) (side (x_name c) (a_dst a)) <> Some EDir ->
    (exists r', update_reference H mv c now = Ok r') ->
    forall fuel, snd (commit_fuel H mv fuel now a s id) = Fuel.
  Proof.
    intros Ch Ec Er Off Eh Ff El Nd Nd2 (r' & Eu) fuel. unfold commit_fuel. rewrite Ec, Eu.
    assert (T : exists s1 l, sys_trylock (x_name c) s = (s1, Ok l) /\ f_handles s1 = f_handles s /\ f_faults s1 = [] /\
              dir_get (f_dir s1) (side (x_name c) (a_dst a)) <> Some EDir).
    { unfold sys_trylock. destruct (dir_get (f_dir s) (x_name c)) as [[j|]|] eqn:E; [|congruence|].
      - rewrite El. cbn [existsb]. eexists _, _. split; [reflexivity|]. auto.
      - eexists _, _. split; [reflexivity|]. cbn [with_locks with_data with_dir f_handles f_faults f_dir].
        repeat split; auto. rewrite dir_get_set. destruct (bytes_eqb _ _); [discriminate|auto]. }
    destruct T as (s1 & l & T & Th & Tf & Td).
    assert (C : exists s2 d, sys_create (side (x_name c) (a_dst a)) s1 = (s2, Ok d) /\ f_handles s2 = f_handles s1 /\ f_faults s2 = []).
    { unfold sys_create. destruct (dir_get (f_dir s1) (side (x_name c) (a_dst a))) as [[j|]|]; [|congruence|];
        eexists _, _; (split; [reflexivity|]); auto. }
    destruct C as (s2 & d & C & Hh2 & Hf2).
    assert (X : snd (run (update_database fuel a c r') s) = Fuel).
    { unfold update_database. rewrite (run_then _ _ _ _ _ (eq_trans (run_call _ _) T)). rewrite run_catch. cbn [run snd].
      assert (Y : snd (run (swap_files fuel a c r') s1) = Fuel).
      { unfold swap_files. unfold andthen. rewrite run_catch.
        assert (Z : snd (run (prepare_files fuel a c r') s1) = Fuel).
        { unfold prepare_files. unfold andthen. rewrite run_catch.
          assert (W : snd (run (write_destination fuel a c r') s1) = Fuel).
          { unfold write_destination. rewrite (run_then _ _ _ _ _ (eq_trans (run_call _ _) C)).
            destruct (run_write d 0 (reference_to_content r') s2 Hf2) as (s3 & W1 & W2 & W3 & _).
            rewrite (run_then _ _ _ _ _ W1). rewrite Er.
            assert (Eh3 : nth_error (f_handles s3) (x_conn c) = Some (Handle i p true)) by congruence.
            unfold andthen. rewrite run_catch. rewrite run_catch, run_call. cbn [fst snd]. rewrite Eh3.
            rewrite Ch. unfold make_chunk at 1 2.
            set (u := u64 _). assert (U : (u <? 0)%Z = false).
            { apply Z.ltb_ge. unfold u, u64. apply Z.mod_pos_bound. reflexivity. }
            rewrite U. replace (two63 <=? 0)%Z with false by reflexivity.
            rewrite (copy_loop_zero (x_conn c) (x_off c) d i p Off); auto. }
          destruct (run _ s1) as [sx ox]. cbn [snd] in W. subst ox. reflexivity. }
        destruct (run _ s1) as [sx ox]. cbn [snd] in Z. subst ox. reflexivity. }
      rewrite Y. reflexivity. }
    destruct (run _ s) as [sx ox]. cbn [snd] in X. subst ox. reflexivity.
  Qed.

  Lemma retrieve_zero d : (8 <= zlen d)%Z -> retrieve_reference H mv behind 0 d = Panic.
  Proof.
    intros L. unfold retrieve_reference. ltb_false.
    assert (E : forall x, i64 (make_chunk 0 (u64 x)) = 0%Z).
    { intros x. unfold make_chunk. replace (u64 x <? 0)%Z with false; [reflexivity|].
      symmetry. apply Z.ltb_ge. unfold u64. apply Z.mod_pos_bound. reflexivity. }
    rewrite E. reflexivity.
  Qed.

  Lemma retrieve_zeros chunk d : (0 <= chunk)%Z -> retrieve_reference H mv behind chunk (repeat x00 8 ++ d) = Panic.
  Proof.
    intros L. unfold retrieve_reference. rewrite zlen_app. pose proof (zlen_nonneg d).
    change (zlen (repeat x00 8)) with 8%Z. ltb_false.
    replace (firstn 8 (repeat x00 8 ++ d)) with (repeat x00 8) by reflexivity.
    change (i64 (unle (repeat x00 8))) with 0%Z. change (u64 0) with 0%Z.
    unfold make_chunk. destruct (Z.ltb_spec 0 chunk); [reflexivity|].
    replace chunk with 0%Z by lia. reflexivity.
  Qed.
End More.
