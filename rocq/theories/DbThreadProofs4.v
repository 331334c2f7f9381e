(** Goroutines that share one application: two calls that change the same thing. *)
From Coq Require Import List ZArith NArith Lia Bool.
From Coq Require Import Init.Byte Strings.Byte.
From Verif Require Import Base BaseLemmas HashModel HashProofs SpecHash HashTreeModel HashTreeProofs
  RefModel RefProofs SpecRef DbModel SpecDb DbRefProofs DbFsProofs DbCommitProofs DbOpenProofs DbApiProofs
  DbSession DbSessionProofs DbMoreProofs DbMultiProofs DbFrameProofs DbConcurrent DbConcurrentProofs
  DbScheduleProofs DbSchedule3 DbSizeProofs DbPowerProofs DbThreads SpecThreads DbThreadProofs DbThreadProofs2 DbThreadProofs3.
Import ListNotations.

(** ** Schedules by parts *)
Lemma goes_part {A B C} (k : outcome A -> gprog B) (q : gprog C) (p : gprog A) : forall m,
  goes (Team (g_catch p k) q m) (Team (k (snd (g_run p m))) q (fst (g_run p m))).
Proof.
  revert p. fix IH 1. intros [o|f] m; cbn [g_catch g_run]; [constructor|]. destruct (f m) as [m' p'] eqn:E.
  apply (goes_one _ _ _ m' (g_catch p' k)); [now rewrite E|]. apply IH.
Qed.

Lemma goes_next {A B C} (p : gprog A) (k : A -> gprog B) (q : gprog C) m m' v : g_run p m = (m', Ok v) ->
  goes (Team (g_then p k) q m) (Team (k v) q m').
Proof. intros E. unfold g_then. pose proof (goes_part (fun o => match o with Ok a => k a | Err => GRet Err | Panic => GRet Panic | Fuel => GRet Fuel end) q p m) as G. rewrite E in G. exact G. Qed.

Lemma goes_other {A B} (p : gprog A) (q : gprog B) : forall m,
  goes (Team p q m) (Team p (GRet (snd (g_run q m))) (fst (g_run q m))).
Proof.
  revert q. fix IH 1. intros [o|f] m; cbn [g_run]; [constructor|]. destruct (f m) as [m' q'] eqn:E.
  eapply goes_two; [exact E|]. apply IH.
Qed.

Lemma goes_then {A B} (p : gprog A) (q : gprog B) m m' o w : g_run q m = (m', o) -> goes (Team p (GRet o) m') w -> goes (Team p q m) w.
Proof. intros E G. eapply goes_trans; [apply goes_other|]. rewrite E. exact G. Qed.

(** ** Two writes *)
Section Two.
  Variables (a : dbapp) (s : fsys) (m : mem).
  Hypothesis Im : in_memory a s m.

  Lemma two_writes id h1 d1 k1 h2 d2 k2 :
    snd (write_db a id h1 d1 k1) = Ok tt -> snd (write_db a id h2 d2 k2) = Ok tt ->
    exists m', goes (Team (g_write id h1 d1 k1) (g_write id h2 d2 k2) m) (Team (GRet (Ok tt)) (GRet (Ok tt)) m') /\
      in_memory (fst (write_db a id h1 d1 k1)) s m'.
  Proof.
    intros O1 O2. destruct (alone_write a s m Im id h2 d2 k2) as (m2 & R2 & I2). rewrite O2 in R2.
    unfold write_db in *. destruct (ctx_get (a_ctxs a) id) as [c|] eqn:Ec; [|discriminate].
    destruct (in_memory_ctx _ _ _ _ _ Im Ec) as (p & Ep & Eh).
    destruct (content_now h1 d1 k1) as [ct1| | |] eqn:E1; try discriminate.
    destruct (content_now h2 d2 k2) as [ct2| | |] eqn:E2; try discriminate. cbn [fst] in *.
    assert (Rf : g_run (g_find id) m = (m, Ok p)) by (destruct (still_find id m p Ep) as (R & _); exact R).
    assert (Rp : g_run (g_field p x_pending) m = (m, Ok (x_pending c))) by (cbn [g_field g_run]; now rewrite Eh).
    (* the second write, field by field *)
    assert (M2 : m2 = Mem (ptr_set (m_ctxs m) id p) (set_nth (m_heap m) p (with_pending c (x_pending c ++ [ct2]))) s).
    { unfold g_write in R2. rewrite (find_some m id p Ep) in R2. rewrite E2 in R2.
      unfold g_then, g_field, g_store, g_enter in R2. cbn [g_catch g_run] in R2. rewrite Eh in R2. cbn [g_catch g_run] in R2. rewrite Eh in R2.
      cbn [g_catch g_run m_ctxs m_heap m_fs] in R2. destruct Im as (<- & _). now inversion R2. }
    eexists. split.
    - unfold g_write at 1. eapply goes_trans; [eapply goes_next; exact Rf|]. cbv beta. rewrite E1.
      eapply goes_trans; [eapply goes_next; exact Rp|]. eapply goes_then; [exact R2|]. rewrite M2.
      unfold g_then, g_store, g_enter. cbn [g_catch].
      eapply goes_one; [cbn [m_heap]; rewrite (nth_set_same _ _ _ _ Eh); reflexivity|]. cbn [g_catch m_ctxs m_heap m_fs].
      eapply goes_one; [reflexivity|]. cbn [m_ctxs m_heap m_fs]. constructor.
    - assert (Sn : forall l i (x y : ctx), set_nth (set_nth l i x) i y = set_nth l i y).
      { clear. induction l as [|z l IH]; intros [|i] x y; cbn; auto. now rewrite IH. }
      rewrite Sn. unfold with_pending at 1. cbn [x_id x_name x_conn x_ref x_off with_pending].
      assert (Sp : ptr_set (ptr_set (m_ctxs m) id p) id p = ptr_set (m_ctxs m) id p).
      { unfold ptr_set at 1 3. f_equal. unfold ptr_set, ptr_del. cbn [filter fst]. rewrite Z.eqb_refl. cbn [negb].
        clear. induction (m_ctxs m) as [|x l IH]; [reflexivity|]. cbn [filter]. destruct (negb (fst x =? id)%Z) eqn:E; cbn [filter]; [rewrite E; congruence|auto]. }
      rewrite Sp. eapply (in_memory_change a s m); eauto.
  Qed.
End Two.

(** ** Two opens *)
Section Opens.
  Variable H : bytes -> bytes.
  Variable mv : byte.
  Variable behind : bytes -> bytes.
  Variables (a : dbapp) (s : fsys) (m : mem).
  Hypothesis Im : in_memory a s m.

  Lemma open_went n x s' a' id : run (p_open H mv behind a n) x = (s', Ok (a', id)) ->
    existsb (fun x => bytes_eqb (x_name (snd x)) n) (a_ctxs a) = false /\ id = zlen (a_ctxs a) /\
    exists s1 r conn, run (p_retrieve H mv behind (a_chunk a) n) x = (s1, Ok r) /\ sys_open n s1 = (s', Ok conn) /\
      a' = with_ctxs a (ctx_set (a_ctxs a) id (Ctx id n conn (fst r) (snd r) [])).
  Proof.
    unfold p_open. destruct (existsb _ (a_ctxs a)) eqn:Ex; [discriminate|].
    unfold andthen at 1. rewrite run_catch. destruct (run (p_retrieve H mv behind (a_chunk a) n) x) as [s1 [r| | |]]; try discriminate.
    cbn [fst snd]. unfold andthen at 1. rewrite run_catch, run_call. destruct (sys_open n s1) as [s2 [conn| | |]] eqn:Eo; try discriminate.
    cbn [run fst snd]. intros E. assert (s2 = s') by (inversion E; reflexivity). subst s2.
    assert (id = zlen (a_ctxs a)) by (inversion E; reflexivity). subst id. split; [reflexivity|]. split; [reflexivity|].
    exists s1, r, conn. split; [reflexivity|]. split; [exact Eo|]. now inversion E.
  Qed.

  Lemma two_opens n1 n2 s1 a1 i1 s2 a2 i2 :
    run (p_open H mv behind a n1) s = (s1, Ok (a1, i1)) -> run (p_open H mv behind a n2) s1 = (s2, Ok (a2, i2)) ->
    i1 = i2 /\ exists m' a' c1, goes (Team (g_open H mv behind a n1) (g_open H mv behind a n2) m) (Team (GRet (Ok i1)) (GRet (Ok i2)) m') /\
      in_memory a' s2 m' /\ ctx_get (a_ctxs a1) i1 = Some c1 /\ x_name c1 = n1 /\
      (forall k, ctx_get (a_ctxs a') k = if (k =? i1)%Z then Some c1 else ctx_get (a_ctxs a) k) /\
      (forall k c, ctx_get (a_ctxs a') k = Some c -> x_name c = n2 -> n1 = n2).
  Proof.
    intros O1 O2. destruct (open_went _ _ _ _ _ O1) as (X1 & I1 & t1 & r1 & c1 & R1 & Y1 & A1).
    assert (Im1 : in_memory a s1 (on_fs m s1)) by exact (in_memory_fs a s m s1 Im).
    pose proof (alone_open H mv behind a s1 (on_fs m s1) Im1 n2) as Al. rewrite O2 in Al. destruct Al as (m2 & R2 & J2). cbn [bind fst snd] in R2, J2.
    destruct (open_went _ _ _ _ _ O2) as (X2 & I2 & t2 & r2 & c2 & _ & _ & A2).
    assert (i1 = i2) as -> by congruence.
    split; [reflexivity|]. set (x1 := Ctx i2 n1 c1 (fst r1) (snd r1) []) in *.
    exists (Mem (ptr_set (m_ctxs m2) i2 (length (m_heap m2))) (m_heap m2 ++ [x1]) s2), (with_ctxs a2 (ctx_set (a_ctxs a2) i2 x1)), x1.
    assert (G' : forall k, ctx_get (a_ctxs (with_ctxs a2 (ctx_set (a_ctxs a2) i2 x1))) k = if (k =? i2)%Z then Some x1 else ctx_get (a_ctxs a) k).
    { intros k. rewrite A2. cbn [with_ctxs a_ctxs]. rewrite !ctx_get_set, (Z.eqb_sym k). destruct (i2 =? k)%Z; reflexivity. }
    assert (Ef : m_fs m = s) by apply Im. assert (Ef2 : m_fs m2 = s2) by apply J2.
    split; [|split; [exact (in_memory_add a2 s2 m2 J2 i2 x1 s2)|split; [rewrite A1; cbn [with_ctxs a_ctxs]; rewrite ctx_get_set, Z.eqb_refl; reflexivity|split; [reflexivity|split; [exact G'|]]]]].
    - unfold g_open at 1. eapply goes_trans; [eapply goes_next; cbn [g_run]; reflexivity|]. cbv beta.
      rewrite (names_taken a s m Im), X1.
      eapply goes_trans; [eapply goes_next; rewrite run_lift, Ef, R1; reflexivity|]. cbv beta. cbn [fst].
      eapply goes_trans; [eapply goes_next; rewrite run_lift; cbn [on_fs m_fs]; rewrite run_call, Y1; reflexivity|]. cbv beta. cbn [fst].
      eapply goes_trans; [eapply goes_next; cbn [g_run on_fs m_ctxs]; reflexivity|]. cbv beta.
      assert (L : zlen (m_ctxs m) = i2) by (rewrite I1; unfold zlen; destruct Im as (_ & _ & _ & _ & L & _); now rewrite L).
      rewrite L. eapply goes_then; [exact R2|].
      eapply goes_trans; [eapply goes_next; cbn [g_run]; reflexivity|]. cbv beta.
      eapply goes_trans; [eapply goes_next; cbn [g_enter g_run m_ctxs m_heap m_fs]; reflexivity|]. cbv beta. rewrite Ef2. constructor.
    - intros k c. rewrite G'. destruct (k =? i2)%Z; intros E N.
      + inversion E; subst c. exact N.
      + exfalso. apply ctx_get_in in E. assert (Y : existsb (fun x => bytes_eqb (x_name (snd x)) n2) (a_ctxs a) = true); [|congruence].
        apply existsb_exists. exists (k, c). split; [exact E|]. cbn [snd]. rewrite N. apply bytes_eqb_refl.
  Qed.
End Opens.

(** ** A write during a commit *)
Section Between.
  Variable H : bytes -> bytes.
  Variable mv : byte.
  Hypothesis HL : forall x, length (H x) = 64.
  Variables (a : dbapp) (s : fsys) (m : mem) (n : bytes) (id : Z) (bs : list batch) (pd : list content) (now : Z).
  Variable ct : content.
  Hypothesis Sy : synced H mv a s n id bs pd.
  Hypothesis Wb : ok_batch (pd, now).
  Hypothesis Ft : fits H mv (bs ++ [(pd, now)]).
  Hypothesis Ch : chunk_ok (a_chunk a) (history_data bs).
  Hypothesis Im : in_memory a s m.
  Hypothesis Wc : ok_content ct.
  Notation bs' := (bs ++ [(pd, now)]).
  Notation G := (g_commit H mv a (rounds a s id) now id).
  Notation hd := (header (history_ref H mv bs')).

  Lemma write_between : exists m' a' s' i h,
    goes (Team G (g_write id (ct_hash ct) (ct_data ct) (ct_kind ct)) m) (Team (GRet (Ok tt)) (GRet (Ok tt)) m') /\
    in_memory a' s' m' /\ a_chunk a' = a_chunk a /\ a_dst a' = a_dst a /\ a_bck a' = a_bck a /\
    ctx_get (a_ctxs a') id = Some (Ctx id n h (history_ref H mv bs') (zlen hd) (pd ++ [ct])) /\
    nth_error (f_handles s') h = Some (Handle i 0 true) /\
    dir_get (f_dir s') n = Some (EFile i) /\ data_of s' i = history_file H mv bs' ++ ct_data ct /\
    dir_get (f_dir s') (side n (a_dst a)) = None /\ dir_get (f_dir s') (side n (a_bck a)) = None /\
    fs_ok s' /\ f_faults s' = [] /\ f_locks s' = [].
  Proof.
    pose proof Sy as (i & h & (A1 & A2 & A3 & A4 & A5 & A6 & A7 & A8 & A9 & A10 & A11) & Ec & Eh).
    set (c := Ctx id n h (history_ref H mv bs) (zlen (header (history_ref H mv bs))) pd) in *.
    set (c1 := with_pending c (pd ++ [ct])).
    destruct (in_memory_ctx _ _ _ _ _ Im Ec) as (p & Ep & Ehp).
    assert (Rn : rounds a s id = S (conn_size s c)) by (unfold rounds; now rewrite Ec).
    destruct (update_reference_spec H mv HL c bs now) as (r & Er & Hr); auto.
    { now apply fits_data in Ft. }
    cbn [x_pending c] in Hr.
    destruct (still_update_reference H mv id now m p c Ep Ehp) as (Rr & _). rewrite Er in Rr.
    (* the write *)
    destruct Wc as (_ & Nd & _).
    assert (Cn : content_now (ct_hash ct) (ct_data ct) (ct_kind ct) = Ok ct) by (unfold content_now; destruct ct as [? [|? ?] ?]; [cbn in Nd; congruence|reflexivity]).
    destruct (alone_write a s m Im id (ct_hash ct) (ct_data ct) (ct_kind ct)) as (m1 & R1 & I1).
    unfold write_db in R1, I1. rewrite Ec, Cn in R1, I1. cbn [fst snd] in R1, I1. change (with_pending c (x_pending c ++ [ct])) with c1 in I1.
    set (aw := with_ctxs a (ctx_set (a_ctxs a) id c1)) in *.
    assert (Ec1 : ctx_get (a_ctxs aw) id = Some c1) by (cbn [aw with_ctxs a_ctxs]; rewrite ctx_get_set, Z.eqb_refl; reflexivity).
    destruct (in_memory_ctx _ _ _ _ _ I1 Ec1) as (p1 & Ep1 & Eh1).
    (* the file *)
    assert (Inj : forall e, dir_get (f_dir s) (side n e) <> Some (EFile i)).
    { intros e Y. destruct A3 as (_ & I). apply (side_neq n e). eapply I; eauto. }
    assert (Nh : bs <> [] -> (0 < zlen (history_data bs))%Z) by (intros N; exact (history_data_pos bs N A10)).
    assert (Hc : x_ref c1 <> None -> (0 < a_chunk a)%Z /\ (0 <= x_off c1 < zlen (data_of s i))%Z).
    { intros N. assert (Nb' : bs <> []) by (intros ->; now apply N). split; [exact A2|]. cbn [x_off c1 with_pending c]. rewrite A9.
      unfold history_file. rewrite zlen_app. pose proof (zlen_nonneg (header (history_ref H mv bs))). specialize (Nh Nb'). lia. }
    assert (Li : i < length (f_data s)) by (now apply A3 in A5).
    assert (Lk : existsb (Nat.eqb i) (f_locks s) = false) by now rewrite A8.
    assert (Lo : (zlen (data_of s i) < two63)%Z) by (rewrite A9; exact A11).
    assert (T := update_database_tri a c1 r s i i A1 A3 A4 A5 (conj Li (conj (Inj _) (Inj _))) Eh Lk A6 A7 Lo Hc (S (conn_size s c))).
    assert (Lf : length (data_of s i) < S (conn_size s c)) by (unfold conn_size; cbn [x_conn c]; rewrite Eh; cbn [h_ino]; lia).
    specialize (T Lf). apply tri_run in T.
    destruct (run (update_database (S (conn_size s c)) a c1 r) s) as [s' o] eqn:Ed. cbn [fst snd] in T.
    destruct T as ((-> & d & D1 & D2 & D3 & D4 & D5 & D6 & D7) & D8).
    change (x_name c1) with n in D1.
    assert (Ehd : hd = reference_to_content r) by (rewrite Hr; reflexivity).
    assert (Ek : copied a c1 s i = history_data bs).
    { unfold copied. cbn [x_ref x_off c1 with_pending c]. rewrite A9. unfold history_file.
      rewrite (skipn_app_exact _ (history_data bs)) by (unfold zlen; now rewrite Nat2Z.id).
      destruct bs as [|b l] eqn:Eb; [reflexivity|]. cbn [history_ref]. destruct Ch as (Pc & Ch').
      apply kept_ok; auto. intros X. assert (Nb' : b :: l <> []) by discriminate. specialize (Nh Nb'). rewrite X in Nh. cbn in Nh. lia. }
    (* the rest of the commit *)
    set (h' := length (f_handles s)) in *.
    set (cf := Ctx id n h' (Some r) (zlen hd) (pd ++ [ct])).
    assert (Em1 : m1 = Mem (m_ctxs m1) (m_heap m1) s) by exact (in_memory_eta _ _ _ I1).
    set (hp := m_heap m1) in *. set (cs := m_ctxs m1) in *.
    destruct (sim_update_database a cs hp p1 c1 Eh1 (S (conn_size s c)) r s) as (Ru & _). rewrite Ed in Ru. cbn [fst snd] in Ru.
    assert (E1 : nth_error (set_nth hp p1 (set_ref r c1)) p1 = Some (set_ref r c1)) by (eapply nth_set_same; eauto).
    set (h1 := set_nth hp p1 (set_ref r c1)) in *. 
    set (h2 := set_nth h1 p1 (set_off (zlen (reference_to_content r)) (set_ref r c1))) in *.
    assert (E2 : nth_error h2 p1 = Some (set_off (zlen (reference_to_content r)) (set_ref r c1))) by (eapply nth_set_same; eauto).
    destruct (assign_run cs id p1 Ep1 (set_ref r) hp s' c1 Eh1) as (W1 & _).
    destruct (assign_run cs id p1 Ep1 (set_off (zlen (reference_to_content r))) h1 s' _ E1) as (W2 & _).
    destruct (assign_run cs id p1 Ep1 (set_conn h') h2 s' _ E2) as (W3 & _).
    assert (Sn : forall l j (x y : ctx), set_nth (set_nth l j x) j y = set_nth l j y).
    { clear. induction l as [|z l IH]; intros [|j] x y; cbn; auto. now rewrite IH. }
    exists (Mem cs (set_nth hp p1 cf) s'), (with_ctxs aw (ctx_set (a_ctxs aw) id cf)), s', d, h'.
    split; [|split; [|split; [reflexivity|split; [reflexivity|split; [reflexivity|split; [|split; [|split; [|split; [|split; [|split; [|split; [exact D7|split; [exact D5|]]]]]]]]]]]]].
    - rewrite Rn. unfold g_commit. eapply goes_trans; [eapply goes_next; exact Rr|]. cbv beta.
      eapply goes_then; [exact R1|]. rewrite Em1.
      eapply goes_trans; [eapply goes_next; destruct (still_find id (Mem cs hp s) p1 Ep1) as (Rf & _); exact Rf|]. cbv beta.
      eapply goes_trans; [eapply goes_next; exact Ru|]. cbv beta. cbn [fst snd].
      eapply goes_trans; [eapply goes_next; exact W1|]. cbv beta. eapply goes_trans; [eapply goes_next; exact W2|]. cbv beta.
      pose proof (goes_end (GRet (Ok tt) : gprog unit) (g_assign id (set_conn h')) (Mem cs h2 s')) as Ge. rewrite W3 in Ge. cbn [fst snd] in Ge.
      assert (Eq : set_nth h2 p1 (set_conn h' (set_off (zlen (reference_to_content r)) (set_ref r c1))) = set_nth hp p1 cf).
      { unfold h2, h1. rewrite !Sn. unfold cf. rewrite Ehd. reflexivity. }
      rewrite Eq in Ge. exact Ge.
    - exact (in_memory_change aw s (Mem cs hp s) id p1 c1 cf s' cs ltac:(rewrite <- Em1; exact I1) Ep1 Eh1 (or_introl eq_refl)).
    - cbn [with_ctxs a_ctxs]. rewrite ctx_get_set, Z.eqb_refl. unfold cf. now rewrite Hr.
    - rewrite D4. unfold h'. rewrite nth_error_app2 by (rewrite set_nth_len; lia). rewrite set_nth_len, Nat.sub_diag. reflexivity.
    - rewrite D1, bytes_eqb_refl. reflexivity.
    - rewrite D2. unfold newfile. rewrite Ek, <- Ehd. cbn [c1 with_pending x_pending]. unfold history_file, batch_data.
      assert (Hd1 : history_data [(pd, now)] = concat (map ct_data pd)) by (unfold history_data; cbn [map concat fst]; now rewrite app_nil_r).
      rewrite history_data_app, Hd1, map_app, concat_app. cbn [map concat]. rewrite app_nil_r, <- !app_assoc. reflexivity.
    - rewrite D1. rewrite (proj2 (bytes_eqb_false n (side n (a_dst a)))) by (intros X; symmetry in X; now apply side_neq in X). now rewrite bytes_eqb_refl.
    - rewrite D1. rewrite (proj2 (bytes_eqb_false n (side n (a_bck a)))) by (intros X; symmetry in X; now apply side_neq in X).
      rewrite bytes_eqb_refl. now destruct (bytes_eqb (side n (a_dst a)) (side n (a_bck a))).
    - now rewrite D8.
  Qed.

  Lemma after_between a' s' i h now2 :
    a_chunk a' = a_chunk a -> a_dst a' = a_dst a -> a_bck a' = a_bck a ->
    ctx_get (a_ctxs a') id = Some (Ctx id n h (history_ref H mv bs') (zlen hd) (pd ++ [ct])) ->
    nth_error (f_handles s') h = Some (Handle i 0 true) ->
    dir_get (f_dir s') n = Some (EFile i) -> data_of s' i = history_file H mv bs' ++ ct_data ct ->
    dir_get (f_dir s') (side n (a_dst a)) = None -> dir_get (f_dir s') (side n (a_bck a)) = None ->
    fs_ok s' -> f_faults s' = [] -> f_locks s' = [] ->
    (- two63 <= now2 < two63)%Z -> (zlen (history_file H mv (bs' ++ [(pd ++ [ct], now2)])) + zlen (ct_data ct) < two63)%Z ->
    chunk_ok (a_chunk a) (history_data bs' ++ ct_data ct) ->
    exists s'' a'', commit_db H mv now2 a' s' id = (s'', a'', Ok tt) /\
      read_by_hash a'' s'' id (ct_hash ct) =
      Ok (firstn (length (ct_data ct)) (skipn (length (batch_data pd)) (ct_data ct ++ batch_data pd ++ ct_data ct))).
  Proof.
    intros K1 K2 K3 Ec' Eh' Ed' Dd' N1 N2 Fo Ff Fl Wn Fz (Pc & Ck).
    pose proof Sy as (i0 & h0 & (A1 & A2 & A3 & A4 & A5 & A6 & A7 & A8 & A9 & A10 & A11) & _).
    set (bs2 := bs' ++ [(pd ++ [ct], now2)]) in *.
    assert (Fb' : Forall ok_batch bs') by (apply Forall_app; split; [exact A10|constructor; [exact Wb|constructor]]).
    assert (Wb2 : ok_batch (pd ++ [ct], now2)).
    { split; [cbn [fst]; destruct pd; discriminate|split; [|exact Wn]]. cbn [fst]. apply Forall_app. split; [apply Wb|constructor; [exact Wc|constructor]]. }
    assert (Zd : (0 <= zlen (ct_data ct))%Z) by apply zlen_nonneg.
    assert (Ft2 : fits H mv bs2) by (unfold fits; lia). pose proof (fits_data H mv bs2 Ft2) as Fd2.
    assert (Hd2 : history_data bs2 = history_data bs' ++ batch_data pd ++ ct_data ct).
    { unfold bs2. rewrite history_data_app. f_equal. unfold history_data. cbn [map concat fst]. rewrite app_nil_r.
      unfold batch_data. rewrite map_app, concat_app. cbn [map concat]. now rewrite app_nil_r. }
    assert (Na : history_data bs' ++ ct_data ct <> []).
    { intros X. apply app_eq_nil in X as (_ & X). destruct Wc as (_ & Y & _). congruence. }
    destruct (commit_general H mv HL a' s' n id bs' (pd ++ [ct]) h i i (history_data bs' ++ ct_data ct) now2) as
      (s2 & a2 & E & Ea & (d & D1 & D2 & D3 & D4) & D5 & D6 & D7 & D8); auto.
    { rewrite K2, K3. exact A1. }
    { rewrite K2, N1. discriminate. }
    { rewrite K3, N2. discriminate. }
    { now rewrite Fl. }
    { apply Fo in Ed'. exact Ed'. }
    { rewrite K2, N1. discriminate. }
    { rewrite K3, N2. discriminate. }
    { rewrite Dd'. unfold history_file. now rewrite <- app_assoc. }
    { rewrite Dd'. rewrite zlen_app. 
      assert (zlen (history_file H mv bs') <= zlen (history_file H mv bs2))%Z; [|lia].
      unfold history_file. rewrite !zlen_app, Hd2, zlen_app. pose proof (zlen_nonneg (batch_data pd ++ ct_data ct)).
      assert (F2 : Forall ok_batch (bs' ++ [(pd ++ [ct], now2)])) by (apply Forall_app; split; [exact Fb'|constructor; [exact Wb2|constructor]]).
      pose proof (header_grows H mv HL bs' (pd ++ [ct], now2) F2 Fd2) as Hg.
      match goal with |- (?x + _ <= ?y + _)%Z => assert (Hg' : (x + 152 <= y)%Z) by exact Hg end. lia. }
    { intros _. split; [rewrite K1; exact A2|exact Na]. }
    exists s2, a2. split; [exact E|]. fold bs2 in Ea, D2. 
    assert (Kp : match bs' with [] => [] | _ => kept (make_chunk (a_chunk a') (zlen (history_data bs' ++ ct_data ct))) (history_data bs' ++ ct_data ct) end = history_data bs' ++ ct_data ct).
    { rewrite K1. destruct bs' as [|b l] eqn:Eb; [destruct bs; discriminate|]. apply kept_ok; auto. }
    rewrite Kp in D2. clear Kp.
    set (hd2 := header (history_ref H mv bs2)) in *.
    assert (Nb2 : history_ref H mv bs2 = Some (Reference (history_keys H mv None 0 bs2) (chain H mv None bs2))).
    { unfold bs2. destruct bs as [|b l]; reflexivity. }
    assert (Ec2 : ctx_get (a_ctxs a2) id = Some (Ctx id n (length (f_handles s')) (history_ref H mv bs2) (zlen hd2) (pd ++ [ct]))).
    { rewrite Ea. cbn [with_ctxs a_ctxs]. now rewrite ctx_get_set, Z.eqb_refl. }
    assert (Ect : history_contents bs2 = (history_contents bs' ++ pd) ++ ct :: []).
    { unfold bs2. rewrite history_contents_app. unfold history_contents at 2. cbn [map concat fst]. now rewrite app_nil_r, <- app_assoc. }
    destruct (history_key_at H mv bs2 _ _ _ Ect) as (k0 & ks1 & ks2 & Q1 & Q2 & Q3 & Q4 & Q5 & Q6).
    assert (ks2 = []) as -> by (destruct ks2; [reflexivity|discriminate]).
    assert (Kf : keys_fetch (history_keys H mv None 0 bs2) (ct_hash ct) = Ok k0).
    { destruct (keys_fetch_spec (history_keys H mv None 0 bs2) (ct_hash ct)) as [(k' & -> & (l1 & l2 & El & Ek & Fn))|(_ & Fn)].
      - rewrite Q1 in El. destruct l2 as [|z l2].
        + apply app_inj_tail in El as (_ & ->). reflexivity.
        + exfalso. destruct (exists_last (l := z :: l2)) as (u & v & Eu); [discriminate|]. rewrite Eu in El, Fn.
          change (l1 ++ k' :: u ++ [v]) with (l1 ++ (k' :: u) ++ [v]) in El. rewrite app_assoc in El. apply app_inj_tail in El as (_ & ->).
          apply Forall_app in Fn as (_ & Fn). inversion Fn; subst. auto.
      - exfalso. rewrite Q1 in Fn. apply Forall_app in Fn as (_ & Fn). inversion Fn; subst. auto. }
    unfold read_by_hash, content_keys. rewrite Ec2. cbn [x_ref]. rewrite Nb2. cbn [bind r_keys]. rewrite Kf. cbn [bind]. rewrite Q5.
    unfold read_db. rewrite Ec2. cbn [p_length p_from x_off x_conn].
    set (pre := history_data bs') in *. 
    assert (Bd : batch_data (history_contents bs' ++ pd) = pre ++ batch_data pd).
    { unfold batch_data. rewrite map_app, concat_app. f_equal. unfold pre, history_data, history_contents. generalize bs'. clear. induction l as [|b l IH]; [reflexivity|].
      cbn [map concat]. rewrite map_app, concat_app, <- IH. reflexivity. }
    rewrite Bd. set (bp := batch_data pd) in *. set (dd := ct_data ct) in *.
    assert (Bl : batch_data (pd ++ [ct]) = bp ++ dd).
    { unfold bp, dd, batch_data. rewrite map_app, concat_app. cbn [map concat]. now rewrite app_nil_r. }
    rewrite Bl in D2.
    pose proof (zlen_nonneg hd2). pose proof (zlen_nonneg pre). pose proof (zlen_nonneg bp).
    assert (Fz' : (zlen hd2 + zlen pre + zlen bp + zlen dd + zlen dd < two63)%Z).
    { unfold history_file in Fz. fold hd2 in Fz. rewrite Hd2, !zlen_app in Fz. lia. }
    replace (two63 <=? zlen dd)%Z with false by (symmetry; apply Z.leb_gt; lia).
    rewrite zlen_app. rewrite u64_small by (rewrite two63_val, two64_val in *; lia). rewrite i64_small by lia.
    rewrite (read_at_file s2 (length (f_handles s')) d (hd2 ++ (pre ++ dd) ++ bp ++ dd)); [|rewrite D4; rewrite nth_error_app2 by (rewrite set_nth_len; lia); rewrite set_nth_len, Nat.sub_diag; reflexivity|exact D2|lia|lia|rewrite !zlen_app; lia].
    f_equal. unfold sub. replace (Z.to_nat (zlen dd)) with (length dd) by (unfold zlen; now rewrite Nat2Z.id). f_equal.
    replace (Z.to_nat (zlen hd2 + (zlen pre + zlen bp))) with (length hd2 + (length pre + length bp)) by (unfold zlen; lia).
    rewrite skipn_app, skipn_all2 by lia. cbn [app]. rewrite <- app_assoc.
    replace (length hd2 + (length pre + length bp) - length hd2) with (length pre + length bp) by lia.
    rewrite skipn_app, skipn_all2 by lia. cbn [app]. f_equal. lia.
  Qed.
End Between.

(** ** Any number of readers beside a goroutine that changes what they read *)
Section Watchers.
  Variable A : Type.

  (** [follows l t Q]: the thread only reads, and finding memories of [l] it comes to a result as [Q] says. *)
  Definition follows (l : list mem) (t : thread) (Q : {B : Type & outcome B} -> Prop) : Prop :=
    exists B q, t = existT gprog B q /\ reads q /\ forall o, sees q l o -> Q (existT outcome B o).

  Lemma follows_end l t Q r : follows l t Q -> came_to t = Some r -> Q r.
  Proof.
    intros (B & q & -> & R & K). unfold came_to. cbn [projT1 projT2]. destruct q as [o|f]; [|discriminate].
    intros [= <-]. apply K. constructor.
  Qed.

  Lemma follows_move l t Q t' m m1 : follows (m :: l) t Q -> move t m = Some (t', m1) -> m1 = m /\ follows (m :: l) t' Q.
  Proof.
    intros (B & q & -> & R & K). unfold move. cbn [projT1 projT2]. destruct q as [o|f]; [discriminate|].
    inversion R as [|f' E1 R1]; subst. specialize (E1 m). specialize (R1 m).
    destruct (f m) as [m2 q2] eqn:Ef. cbn [fst snd] in *. intros [= <- <-]. split; [exact E1|]. subst m2. exists B, q2.
    split; [reflexivity|]. split; [exact R1|]. intros o S. apply K. apply (sees_step f [] m l). now rewrite Ef.
  Qed.

  Lemma follows_later l t Q m : follows (m :: l) t Q -> follows l t Q.
  Proof. intros (B & q & -> & R & K). exists B, q. split; [reflexivity|]. split; [exact R|]. intros o S. apply K. now apply sees_more. Qed.

  Lemma watched ts m ts' m' : together ts m ts' m' -> forall (p : gprog A) qs Qs, ts = thread_of p :: qs ->
    Forall2 (follows (g_states p m)) qs Qs ->
    exists p' qs', ts' = thread_of p' :: qs' /\ g_run p' m' = g_run p m /\ Forall2 (follows (g_states p' m')) qs' Qs.
  Proof.
    intros T. induction T as [ts m|ts m k t t' m1 ts' m' Ek Em T IH]; intros p qs Qs -> F2; [exists p, qs; auto|].
    destruct k as [|k]; cbn [nth_error set_nth] in *.
    - injection Ek as <-. unfold move, thread_of in Em. cbn [projT1 projT2] in Em. destruct p as [o|f]; [discriminate|].
      cbn [g_states] in F2. cbn [g_run]. destruct (f m) as [m2 q2]. injection Em as <- <-.
      apply (IH q2 qs Qs eq_refl). eapply Forall2_impl'; [|exact F2]. cbv beta. intros t Q Fo. now apply follows_later in Fo.
    - rewrite g_states_head in F2.
      destruct (nth_error_split _ _ Ek) as (l1 & l2 & El & _).
      assert (X : exists Q, follows (m :: tl (g_states p m)) t Q).
      { subst qs. apply Forall2_app_inv_l in F2 as (e1 & e2 & _ & F2 & _). inversion F2; subst. eauto. }
      destruct X as (Q0 & X). destruct (follows_move _ _ _ _ _ _ X Em) as (-> & _).
      apply (IH p _ Qs eq_refl). rewrite g_states_head. apply (forall2_set _ _ _ _ t t' F2 Ek). intros Q Y. now apply (follows_move _ t Q t' m m).
  Qed.
End Watchers.

(** ** A memory for every application *)
Definition memory_of (a : dbapp) (s : fsys) : mem :=
  Mem (combine (map fst (a_ctxs a)) (seq 0 (length (a_ctxs a)))) (map snd (a_ctxs a)) s.

Lemma memory_of_ok a s : NoDup (map fst (a_ctxs a)) -> in_memory a s (memory_of a s).
Proof.
  intros Nd. unfold memory_of.
  assert (F : forall (l : list (Z * ctx)) k, map fst (combine (map fst l) (seq k (length l))) = map fst l /\
    map snd (combine (map fst l) (seq k (length l))) = seq k (length l)).
  { induction l as [|[i c] l IH]; intros k; [auto|]. cbn [map length seq combine fst snd]. destruct (IH (S k)) as (-> & ->). auto. }
  destruct (F (a_ctxs a) 0) as (F1 & F2).
  split; [reflexivity|]. split; [exact Nd|]. cbn [m_ctxs m_heap]. rewrite F1, F2. split; [exact Nd|]. split; [apply seq_NoDup|].
  split; [rewrite combine_length, map_length, seq_length; lia|]. split.
  - apply Forall_forall. intros [i p] I. cbn [snd]. rewrite map_length. apply (in_map snd) in I. rewrite F2 in I. apply in_seq in I. cbn [snd] in I. lia.
  - intros id. clear F1 F2 Nd.
    assert (X : forall (l : list (Z * ctx)) pre, ctx_get l id =
      match ptr_get (combine (map fst l) (seq (length pre) (length l))) id with Some p => nth_error (pre ++ map snd l) p | None => None end).
    { clear. induction l as [|[i c] l IH]; intros pre; [reflexivity|]. cbn [map length seq combine fst snd ctx_get ptr_get].
      destruct (i =? id)%Z.
      - rewrite nth_error_app2 by lia. now rewrite Nat.sub_diag.
      - rewrite (IH (pre ++ [c])). rewrite app_length, Nat.add_1_r. cbn [length]. rewrite <- app_assoc. reflexivity. }
    exact (X (a_ctxs a) []).
Qed.
