(** Descriptors: two Commits on one database at once. *)
From Coq Require Import List ZArith NArith Lia Bool.
From Coq Require Import Init.Byte Strings.Byte.
From Verif Require Import Base BaseLemmas HashModel HashTreeModel RefModel DbModel DbConcurrent DbFsProofs DbThreads SpecThreads DbThreadProofs DbThreadProofs2
  DbDescriptors SpecDescriptors DbDescriptorProofs DbDescriptorProofs2.
Import ListNotations.

(** ** Schedules *)
Lemma d_goes_trans {A B} (w1 w2 w3 : dteam A B) : d_goes w1 w2 -> d_goes w2 w3 -> d_goes w1 w3.
Proof. intros G. induction G; intros G'; auto; econstructor; eauto. Qed.

Lemma d_goes_run {A B} (x : dprog B) (p : dprog A) q : d_goes (DTeam p x q) (DTeam (DRet (snd (d_run p q))) x (fst (d_run p q))).
Proof.
  revert p q. fix IH 1. intros [o|f] q; cbn [d_run]; [constructor|]. destruct (f q) as [q' p'] eqn:E. econstructor; [exact E|]. apply IH.
Qed.

Lemma d_goes_other {A B} (x : dprog A) (p : dprog B) q : d_goes (DTeam x p q) (DTeam x (DRet (snd (d_run p q))) (fst (d_run p q))).
Proof.
  revert p q. fix IH 1. intros [o|f] q; cbn [d_run]; [constructor|]. destruct (f q) as [q' p'] eqn:E. econstructor 3; [exact E|]. apply IH.
Qed.

Lemma d_goes_catch {A B C} (k : outcome A -> dprog C) (x x' : dprog B) (p p' : dprog A) q q' : d_goes (DTeam p x q) (DTeam p' x' q') ->
  d_goes (DTeam (d_catch p k) x q) (DTeam (d_catch p' k) x' q').
Proof.
  intros G. remember (DTeam p x q) as w eqn:E. remember (DTeam p' x' q') as w' eqn:E'. revert p x q E.
  induction G as [w|f y r r' z w F G IH|y f r r' z w F G IH]; intros p x q E; subst.
  - injection E as -> -> ->. constructor.
  - injection E as <- <- <-. cbn [d_catch]. econstructor; [|apply IH; reflexivity]. now rewrite F.
  - injection E as <- <- <-. econstructor 3; [exact F|]. now apply IH.
Qed.

Lemma d_goes_then {A B C} (k : A -> dprog C) (x x' : dprog B) (p p' : dprog A) q q' : d_goes (DTeam p x q) (DTeam p' x' q') ->
  d_goes (DTeam (d_then p k) x q) (DTeam (d_then p' k) x' q').
Proof. apply d_goes_catch. Qed.

Lemma d_goes_next {A B C} (k : A -> dprog C) (x : dprog B) (p : dprog A) q q' v : d_run p q = (q', Ok v) ->
  d_goes (DTeam (d_then p k) x q) (DTeam (k v) x q').
Proof. intros E. pose proof (d_goes_then k _ _ _ _ _ _ (d_goes_run x p q)) as G. rewrite E in G. exact G. Qed.

Lemma d_goes_caught {A B C} (k : outcome A -> dprog C) (x : dprog B) (p : dprog A) q q' o : d_run p q = (q', o) ->
  d_goes (DTeam (d_catch p k) x q) (DTeam (k o) x q').
Proof. intros E. pose proof (d_goes_catch k _ _ _ _ _ _ (d_goes_run x p q)) as G. rewrite E in G. exact G. Qed.

(** ** Calls that leave the entry of a name and the locks alone *)
Definition quiet {A} (n : bytes) (g : gprog A) : Prop := forall m,
  dir_get (f_dir (m_fs (fst (g_run g m)))) n = dir_get (f_dir (m_fs m)) n /\ f_locks (m_fs (fst (g_run g m))) = f_locks (m_fs m).

Section Quiet.
  Variable n : bytes.
  Lemma quiet_ret {A} (o : outcome A) : quiet n (GRet o).
  Proof. intros m. now split. Qed.
  Lemma quiet_catch {A B} (g : gprog A) (k : outcome A -> gprog B) : quiet n g -> (forall o, quiet n (k o)) -> quiet n (g_catch g k).
  Proof. intros S K m. rewrite g_run_catch. destruct (K (snd (g_run g m)) (fst (g_run g m))) as (X & Y). rewrite X, Y. apply S. Qed.
  Lemma quiet_then {A B} (g : gprog A) (k : A -> gprog B) : quiet n g -> (forall v, quiet n (k v)) -> quiet n (g_then g k).
  Proof. intros S K. apply quiet_catch; auto. intros [v| | |]; auto using quiet_ret. Qed.
  Lemma quiet_reads {A} (g : gprog A) : reads g -> quiet n g.
  Proof. intros R m. rewrite (reads_run g m R). now split. Qed.
  Lemma quiet_field {A} p (f : ctx -> A) : quiet n (g_field p f).
  Proof. apply quiet_reads, reads_look. Qed.
  Lemma quiet_lift {A} (p : prog A) : (forall s, f_dir (fst (run p s)) = f_dir s /\ f_locks (fst (run p s)) = f_locks s) -> quiet n (lift p).
  Proof. intros E m. rewrite run_lift. cbn [fst on_fs m_fs]. destruct (E (m_fs m)) as (-> & ->). now split. Qed.
  Lemma bytes_quiet i d o : forall off s, f_dir (fst (run (p_bytes i off d o) s)) = f_dir s /\ f_locks (fst (run (p_bytes i off d o) s)) = f_locks s.
  Proof. induction d as [|b d IH]; intros off s; cbn [p_bytes run]; [now split|]. destruct (IH (S off) (set_data s i (put_byte (data_of s i) off b))) as (-> & ->). now split. Qed.
  Lemma write_quiet i off d s : f_dir (fst (run (p_write i off d) s)) = f_dir s /\ f_locks (fst (run (p_write i off d) s)) = f_locks s.
  Proof.
    unfold p_write. cbn [run]. destruct (f_faults s) as [|[x|] l]; [apply bytes_quiet| |].
    - destruct (bytes_quiet i (firstn x d) Err off (with_faults s l)) as (-> & ->). now split.
    - destruct (bytes_quiet i d (Ok tt) off (with_faults s l)) as (-> & ->). now split.
  Qed.
  Lemma pending_quiet dst l : forall woff s, f_dir (fst (run (write_pending dst woff l) s)) = f_dir s /\ f_locks (fst (run (write_pending dst woff l) s)) = f_locks s.
  Proof.
    induction l as [|c l IH]; intros woff s; cbn [write_pending]; [now split|]. rewrite run_catch_fst.
    pose proof (write_quiet dst woff (ct_data c) s) as (X & Y).
    destruct (snd (run (p_write dst woff (ct_data c)) s)) as [v| | |]; cbn [run fst]; [|now split..].
    destruct (IH (woff + length (ct_data c)) (fst (run (p_write dst woff (ct_data c)) s))) as (-> & ->). now split.
  Qed.
  Lemma quiet_copy_loop fuel : forall p chunk roff dst woff, quiet n (g_copy_loop fuel p chunk roff dst woff).
  Proof.
    induction fuel as [|fuel IH]; intros; cbn [g_copy_loop]; [apply quiet_ret|].
    apply quiet_then; [apply quiet_field|]. intros conn. apply quiet_catch; [apply quiet_reads, reads_lift_read|].
    intros [b| | |]; try apply quiet_ret. apply quiet_catch; [apply quiet_lift; intros; apply write_quiet|].
    intros [x| | |]; try apply quiet_ret. apply IH.
  Qed.
  Lemma quiet_create x : x <> n -> quiet n (lift (call (sys_create x))).
  Proof.
    intros N m. rewrite g_run_call. cbn [fst on_fs m_fs]. unfold sys_create. destruct (dir_get (f_dir (m_fs m)) x) as [[i|]|]; [now split|now split|].
    cbn [fst with_data with_dir f_dir f_locks]. split; [|reflexivity]. rewrite dir_get_set. apply bytes_eqb_false in N. now rewrite N.
  Qed.
  Lemma quiet_close h : quiet n (lift (call (sys_close h))).
  Proof.
    intros m. rewrite g_run_call. cbn [fst on_fs m_fs]. unfold sys_close. destruct (nth_error _ h) as [[i x [|]]|]; now split.
  Qed.
  Lemma quiet_copy b conn : quiet n (lift (p_copy b conn)).
  Proof.
    apply quiet_lift. intros s. unfold p_copy, andthen. rewrite run_catch_fst. cbn [call run].
    destruct (nth_error (f_handles s) conn) as [[i x [|]]|]; cbn [run fst snd]; try now split.
    destruct (skipn x (data_of s i)) as [|b0 d0]; [now split|]. 
    match goal with |- context [run (p_write b 0 ?d) ?s1] => destruct (write_quiet b 0 d s1) as (-> & ->) end. now split.
  Qed.
End Quiet.

Section Accident.
  Variable H : bytes -> bytes.
  Variable mv : byte.
  Variable a : dbapp.

  Lemma quiet_prepare m fuel p c r : nth_error (m_heap m) p = Some c -> 
    let m' := fst (g_run (g_prepare_files a fuel p (x_name c) r) m) in
    dir_get (f_dir (m_fs m')) (x_name c) = dir_get (f_dir (m_fs m)) (x_name c) /\ f_locks (m_fs m') = f_locks (m_fs m).
  Proof.
    intros Ec. cbv zeta. set (n := x_name c).
    assert (Q : quiet n (go* dst <- lift (call (sys_create (side n (a_dst a)))); g_fill a fuel p r dst)).
    { apply quiet_then; [apply quiet_create, side_neq|]. intros dst. unfold g_fill. cbv zeta.
      apply quiet_then; [apply quiet_lift; intros; apply write_quiet|]. intros _.
      apply quiet_then; [apply quiet_field|]. intros roff. apply quiet_then; [apply quiet_field|]. intros seen.
      apply quiet_then.
      - destruct seen; [|apply quiet_ret]. apply quiet_then; [apply quiet_field|]. intros conn.
        apply quiet_then; [apply quiet_lift; intros s; cbn [call run]; now split|]. intros size. apply quiet_then; [apply quiet_field|]. intros off.
        destruct (_ <=? _)%Z; [apply quiet_ret|apply quiet_copy_loop].
      - intros woff. apply quiet_then; [apply quiet_field|]. intros pd. apply quiet_then; [apply quiet_lift; intros; apply pending_quiet|].
        intros _. apply quiet_ret. }
    assert (Q' : forall v, quiet n (go* bck <- lift (call (sys_create (side n (a_bck a)))); go* conn <- g_field p x_conn; go* _ <- lift (p_copy bck conn);
      go* conn' <- g_field p x_conn; go* _ <- lift (call (sys_close conn')); GRet (Ok v : outcome Z))).
    { intros v. apply quiet_then; [apply quiet_create, side_neq|]. intros b. apply quiet_then; [apply quiet_field|]. intros cn.
      apply quiet_then; [apply quiet_copy|]. intros _. apply quiet_then; [apply quiet_field|]. intros cn'. apply quiet_then; [apply quiet_close|].
      intros _. apply quiet_ret. }
    unfold g_prepare_files. rewrite g_run_bind.
    change (g_write_destination a fuel p r) with (go* name <- g_field p x_name; go* dst <- lift (call (sys_create (side name (a_dst a)))); g_fill a fuel p r dst).
    rewrite g_run_bind. cbn [g_field g_run]. rewrite Ec. fold n. destruct (Q m) as (Q1 & Q2).
    destruct (g_run (go* dst <- lift (call (sys_create (side n (a_dst a)))); g_fill a fuel p r dst) m) as [m1 o1]. cbn [fst] in Q1, Q2.
    destruct o1 as [off| | |]; cbn [fst]; [|now split..]. destruct (Q' off m1) as (X & Y). rewrite X, Y. now split.
  Qed.

  Lemma assign_fs id f m s : g_run (g_assign id f) (on_fs m s) = (on_fs (fst (g_run (g_assign id f) m)) s, snd (g_run (g_assign id f) m)).
  Proof.
    unfold g_assign. rewrite !g_run_bind. cbn [g_lookup g_run on_fs m_ctxs]. destruct (ptr_get (m_ctxs m) id) as [p|]; [|reflexivity].
    cbn [g_store g_run on_fs m_heap m_ctxs]. destruct (nth_error (m_heap m) p); reflexivity.
  Qed.

  (** The lock of the first is refused to the second, the number that the second closes is the one of the new
      connection, and the first closes this connection when it unlocks. *)
  Lemma accident id now1 now2 fuel1 fuel2 q p c k0 r2 m2 :
    numbered q -> locks_ok (m_fs (q_mem q)) ->
    ptr_get (m_ctxs (q_mem q)) id = Some p -> nth_error (m_heap (q_mem q)) p = Some c ->
    num_get (q_files q) (x_conn c) = Some k0 -> (forall j, j < k0 -> fd_get (q_table q) j <> None) ->
    dir_get (f_dir (m_fs (q_mem q))) (x_name c) <> None ->
    g_run (g_commit H mv a fuel1 now1 id) (q_mem q) = (m2, Ok tt) -> update_reference H mv c now2 = Ok r2 ->
    exists q' s3 i h',
      d_goes (DTeam (d_commit H mv a fuel1 now1 id) (d_commit H mv a fuel2 now2 id) q) (DTeam (DRet (Ok tt)) (DRet Err) q') /\
      m_fs m2 = sys_unlock i s3 /\ q_mem q' = on_fs m2 (shut h' s3) /\
      (exists c2, ptr_get (m_ctxs m2) id = Some p /\ nth_error (m_heap m2) p = Some c2 /\ x_conn c2 = h') /\
      (exists pos j, nth_error (f_handles s3) h' = Some (Handle j pos true)) /\
      num_get (q_files q') h' = Some k0 /\ fd_get (q_table q') k0 = None /\ (forall j, j < k0 -> fd_get (q_table q') j <> None).
  Proof.
    intros N Lk Ep Ec Ek Ng Dn R E2.
    (* what the first does alone *)
    unfold g_commit in R. rewrite g_run_bind in R. destruct (still_update_reference H mv id now1 (q_mem q) p c Ep Ec) as (Rr & _). rewrite Rr in R.
    destruct (update_reference H mv c now1) as [r1| | |]; try discriminate.
    rewrite g_run_bind in R. destruct (still_find id (q_mem q) p Ep) as (Rf & _). rewrite Rf in R.
    rewrite g_run_bind in R. unfold g_update_database in R. rewrite g_run_bind in R. cbn [g_field g_run] in R. rewrite Ec in R.
    rewrite g_run_bind, g_run_call in R. pose proof (trylock_run p (x_name c) q (fun _ => Lk)) as Tr.
    assert (Hd : dir_get (f_dir (fst (sys_trylock (x_name c) (m_fs (q_mem q))))) (x_name c) = dir_get (f_dir (m_fs (q_mem q))) (x_name c)).
    { unfold sys_trylock. destruct (dir_get _ _) as [[i|]|] eqn:Ed; [destruct (existsb _ _)| |congruence]; auto. }
    assert (Hh : f_handles (fst (sys_trylock (x_name c) (m_fs (q_mem q)))) = f_handles (m_fs (q_mem q))).
    { unfold sys_trylock. destruct (dir_get _ _) as [[i|]|]; [destruct (existsb _ _)| |]; reflexivity. }
    assert (Hl : forall i, snd (sys_trylock (x_name c) (m_fs (q_mem q))) = Ok i -> dir_get (f_dir (m_fs (q_mem q))) (x_name c) = Some (EFile i) /\
      In i (f_locks (fst (sys_trylock (x_name c) (m_fs (q_mem q)))))).
    { intros i. unfold sys_trylock. destruct (dir_get _ _) as [[i0|]|] eqn:Ed; [destruct (existsb _ _)| |congruence]; cbn [snd]; try discriminate.
      intros [= <-]. split; [reflexivity|]. cbn. now left. }
    destruct (sys_trylock (x_name c) (m_fs (q_mem q))) as [s1 o1]. cbn [fst snd] in *.
    destruct Tr as (q1 & R1 & M1 & F1 & Tr). destruct o1 as [i| | |]; try discriminate. destruct Tr as (Ln1 & T1). cbn [bind] in R1.
    destruct (Hl i eq_refl) as (Di & Li). set (kl := lowest (q_table q)) in *.
    assert (N1 : numbered q1).
    { apply (numbered_more q q1 kl (Desc i None true) F1); auto; [|apply lowest_free]. intros h j. rewrite M1. unfold open_at. cbn [on_fs m_fs]. now rewrite Hh. }
    rewrite g_run_catch in R. unfold g_swap_files in R. rewrite g_run_bind, <- M1 in R.
    assert (Ec1 : nth_error (m_heap (q_mem q1)) p = Some c) by now rewrite M1.
    destruct (prepare_alone a fuel1 p (x_name c) r1 q1 N1) as (q2 & R2 & M2 & K2 & N2 & P2).
    destruct (quiet_prepare (q_mem q1) fuel1 p c r1 Ec1) as (Qd & Ql).
    destruct (lasting_prepare a fuel1 p (x_name c) r1 (q_mem q1)) as (Lc & Lh).
    destruct (g_run (g_prepare_files a fuel1 p (x_name c) r1) (q_mem q1)) as [m2' o2]. cbn [fst snd] in *.
    destruct o2 as [off| | |]; try (cbn [g_run fst snd] in R; discriminate).
    destruct (P2 off eq_refl) as (c' & k & Ec' & Ek' & T2). rewrite Ec1 in Ec'. injection Ec' as <-. rewrite F1, Ek in Ek'. injection Ek' as <-.
    (* the number is free now *)
    assert (Nk : kl <> k0).
    { intros E. specialize (N (x_conn c)). rewrite Ek in N. destruct N as (? & _ & X). rewrite <- E in X. unfold kl in X. rewrite lowest_free in X. discriminate. }
    assert (Lw : lowest (q_table q2) = k0).
    { apply lowest_is; [rewrite T2, Nat.eqb_refl; reflexivity|]. intros j L. rewrite T2. destruct (Nat.eqb_spec k0 j); [lia|]. rewrite T1. destruct (Nat.eqb kl j); [discriminate|auto]. }
    (* the second *)
    assert (Ep2 : ptr_get (m_ctxs (q_mem q2)) id = Some p) by (rewrite M2, Lc, M1; exact Ep).
    assert (Ec2 : nth_error (m_heap (q_mem q2)) p = Some c) by (rewrite M2, Lh; exact Ec1).
    assert (D2 : dir_get (f_dir (m_fs (q_mem q2))) (x_name c) = Some (EFile i)).
    { rewrite M2, Qd, M1. cbn [on_fs m_fs]. now rewrite Hd. }
    assert (L2 : In i (f_locks (m_fs (q_mem q2)))) by (rewrite M2, Ql, M1; exact Li).
    pose proof (trylock_run p (x_name c) q2 ltac:(rewrite D2; discriminate)) as Tr2. unfold sys_trylock in Tr2. rewrite D2 in Tr2.
    assert (X : existsb (Nat.eqb i) (f_locks (m_fs (q_mem q2))) = true) by (apply existsb_exists; exists i; split; [exact L2|apply Nat.eqb_refl]).
    rewrite X in Tr2. destruct Tr2 as (q3 & R3 & M3 & F3 & _ & T3 & Ln3). specialize (Ln3 ltac:(discriminate)). rewrite Lw in Ln3. rewrite on_fs_same in M3. cbn [bind] in R3.
    assert (G2 : d_run (d_commit H mv a fuel2 now2 id) q2 = (q3, Err)).
    { unfold d_commit. rewrite d_run_bind, reads_run_d by apply reads_update_reference.
      destruct (still_update_reference H mv id now2 (q_mem q2) p c Ep2 Ec2) as (Rr2 & _). rewrite Rr2, E2. cbn [snd].
      rewrite d_run_bind, reads_run_d by apply reads_find. destruct (still_find id (q_mem q2) p Ep2) as (Rf2 & _). rewrite Rf2. cbn [snd].
      rewrite d_run_bind. unfold d_update_database. rewrite d_run_bind, field_run, Ec2. cbn [fst snd]. rewrite d_run_bind, R3. reflexivity. }
    (* the rest of the first *)
    assert (N3 : numbered q3).
    { apply (numbered_ext q2 q3 F3); [intros; now rewrite T3|intros; now rewrite M3|exact N2]. }
    assert (Lw3 : lowest (q_table q3) = k0).
    { apply lowest_is; [rewrite T3, <- Lw; apply lowest_free|]. intros j L. rewrite T3. apply lowest_below. now rewrite Lw. }
    destruct (replace_alone a (x_name c) off q3 N3) as (q4 & R4 & M4 & K4 & N4 & P4). rewrite M3, M2 in *.
    destruct (lasting_replace a (x_name c) off m2') as (Lc4 & Lh4).
    destruct (g_run (g_replace_files a (x_name c) off) m2') as [m3 o3]. cbn [fst snd g_run] in *.
    destruct o3 as [[h' off']| | |]; try discriminate.
    destruct (P4 h' off' eq_refl) as (i' & F4 & Fn4 & (pos & O4) & T4). rewrite Lw3 in *.
    assert (Ln4 : lock_number q4 p = k0) by (unfold lock_number in *; destruct K4 as (-> & _); exact Ln3).
    assert (Tk4 : fd_get (q_table q4) k0 = Some (Desc i' (Some h') false)) by now rewrite T4, Nat.eqb_refl.
    rewrite !g_run_bind in R.
    set (mu := on_fs m3 (sys_unlock i (m_fs m3))) in R. set (q5 := on_files (with_table q4 (set_nth (q_table q4) k0 None)) (shut h' (m_fs m3))).
    assert (R5 : d_run (d_close_lock p) q4 = (q5, Ok tt)).
    { unfold d_close_lock. rewrite d_run_call, Ln4. unfold drop_number. rewrite Tk4. cbn [d_handle d_lock]. rewrite M4. reflexivity. }
    assert (M5 : q_mem q5 = on_fs mu (shut h' (m_fs m3))) by (unfold q5, mu; cbn [on_files on_mem with_table q_mem]; rewrite M4; reflexivity).
    (* the three assignments *)
    assert (As : forall f m mm s, g_run (g_assign id f) m = (mm, Ok tt) -> g_run (g_assign id f) (on_fs m s) = (on_fs mm s, Ok tt)).
    { intros f m mm s E. rewrite assign_fs, E. reflexivity. }
    assert (Aq : forall f qq m s mm, q_mem qq = on_fs m s -> g_run (g_assign id f) m = (mm, Ok tt) -> d_run (d_lift (g_assign id f)) qq = (on_mem qq (on_fs mm s), Ok tt)).
    { intros f qq m s mm E Rg. rewrite d_run_lift, E, (As _ _ _ s Rg). reflexivity. }
    destruct (g_run (g_assign id (set_ref r1)) mu) as [ma oa] eqn:Ea. destruct oa as [[]| | |]; try discriminate. rewrite g_run_bind in R.
    destruct (g_run (g_assign id (set_off (snd (h', off')))) ma) as [mb ob] eqn:Eb. destruct ob as [[]| | |]; try discriminate. cbn [fst snd] in R, Eb.
    pose proof (Aq _ _ _ _ _ M5 Ea) as A1. pose proof (Aq _ (on_mem q5 (on_fs ma (shut h' (m_fs m3)))) _ _ _ eq_refl Eb) as A2.
    pose proof (Aq _ (on_mem q5 (on_fs mb (shut h' (m_fs m3)))) _ _ _ eq_refl R) as A3.
    assert (Af : forall f m mm, g_run (g_assign id f) m = (mm, Ok tt) -> exists x, ptr_get (m_ctxs m) id = Some x /\ exists y, nth_error (m_heap m) x = Some y /\
      mm = Mem (m_ctxs m) (set_nth (m_heap m) x (f y)) (m_fs m)).
    { intros f m mm E. unfold g_assign in E. rewrite g_run_bind in E. cbn [g_lookup g_run] in E. destruct (ptr_get (m_ctxs m) id) as [x|]; [|discriminate].
      cbn [g_store g_run] in E. destruct (nth_error (m_heap m) x) as [y|] eqn:Ey; [|discriminate]. injection E as <-. exists x. split; [reflexivity|]. exists y. auto. }
    assert (Pm : ptr_get (m_ctxs mu) id = Some p) by (unfold mu; cbn [on_fs m_ctxs]; rewrite Lc4, Lc, M1; exact Ep).
    destruct (Af _ _ _ Ea) as (x1 & X1 & y1 & Y1 & Ema). destruct (Af _ _ _ Eb) as (x2 & X2 & y2 & Y2 & Emb). destruct (Af _ _ _ R) as (x3 & X3 & y3 & Y3 & Emc).
    assert (x1 = p) by congruence. subst x1. assert (x2 = p) by (subst ma; cbn [m_ctxs] in X2; congruence). subst x2.
    assert (x3 = p) by (subst mb ma; cbn [m_ctxs] in X3; congruence). subst x3.
    exists (on_mem q5 (on_fs m2 (shut h' (m_fs m3)))), (m_fs m3), i, h'.
    split; [|split; [|split; [|split; [|split; [|split; [|split]]]]]].
    - unfold d_commit at 1. eapply d_goes_trans; [eapply d_goes_next; rewrite reads_run_d by apply reads_update_reference; rewrite Rr; reflexivity|]. cbv beta.
      eapply d_goes_trans; [eapply d_goes_next; rewrite reads_run_d by apply reads_find; rewrite Rf; reflexivity|]. cbv beta.
      unfold d_update_database at 1. eapply d_goes_trans; [eapply d_goes_then, d_goes_next; rewrite field_run, Ec; reflexivity|]. cbv beta.
      eapply d_goes_trans; [eapply d_goes_then, d_goes_next; exact R1|]. cbv beta.
      eapply d_goes_trans; [eapply d_goes_then, d_goes_catch, d_goes_next; exact R2|]. cbv beta.
      pose proof (d_goes_other (d_then (d_catch (d_replace_files a (x_name c) off) (fun o => d_catch (d_close_lock p) (fun _ => DRet o)))
        (fun x => d* _ <- d_lift (g_assign id (set_ref r1)); d* _ <- d_lift (g_assign id (set_off (snd x))); d_lift (g_assign id (set_conn (fst x)))))
        (d_commit H mv a fuel2 now2 id) q2) as Go. rewrite G2 in Go. cbn [fst snd] in Go.
      eapply d_goes_trans; [exact Go|]. clear Go.
      eapply d_goes_trans; [eapply d_goes_then, d_goes_caught; exact R4|]. cbv beta.
      eapply d_goes_trans; [eapply d_goes_then, d_goes_caught; exact R5|]. cbv beta.
      unfold d_then at 1. cbn [d_catch]. eapply d_goes_trans; [eapply d_goes_next; exact A1|]. cbv beta.
      eapply d_goes_trans; [eapply d_goes_next; exact A2|]. cbv beta. cbn [fst snd].
      pose proof (d_goes_run (DRet (@Err unit)) (d_lift (g_assign id (set_conn h'))) (on_mem q5 (on_fs mb (shut h' (m_fs m3))))) as Go. rewrite A3 in Go. exact Go.
    - rewrite Emc, Emb, Ema. reflexivity.
    - reflexivity.
    - exists (set_conn h' y3). rewrite Emc. cbn [m_ctxs m_heap]. split; [exact X3|]. split; [eapply nth_set_same; exact Y3|reflexivity].
    - exists pos, i'. rewrite M4 in O4. exact O4.
    - unfold q5. cbn [on_mem on_files with_table q_files]. rewrite F4. cbn [num_get]. now rewrite Nat.eqb_refl.
    - unfold q5. cbn [on_mem on_files with_table q_table]. rewrite fd_get_set by congruence. now rewrite Nat.eqb_refl.
    - intros j L. unfold q5. cbn [on_mem on_files with_table q_table]. rewrite fd_get_set by congruence. destruct (Nat.eqb_spec k0 j); [lia|].
      rewrite T4. destruct (Nat.eqb_spec k0 j); [lia|]. rewrite <- Lw3 in L. now apply lowest_below.
  Qed.
End Accident.
