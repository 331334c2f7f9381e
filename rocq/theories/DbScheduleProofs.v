(** The steps of a commit, and what other processes meet between them. *)
From Coq Require Import List ZArith NArith Lia Bool.
From Coq Require Import Init.Byte Strings.Byte.
From Verif Require Import Base BaseLemmas HashModel HashProofs SpecHash HashTreeModel HashTreeProofs
  RefModel RefProofs SpecRef DbModel SpecDb DbRefProofs DbFsProofs DbCommitProofs DbOpenProofs DbApiProofs
  DbSession DbSessionProofs DbMoreProofs DbMultiProofs DbFrameProofs DbConcurrent DbConcurrentProofs.
Import ListNotations.

Lemma states_call_then {A B} (f : fsys -> fsys * outcome A) (k : A -> prog B) s s' v :
  f s = (s', Ok v) -> states (andthen (call f) k) s = s :: states (k v) s'.
Proof. intros E. unfold andthen, call. cbn [catch states]. rewrite E. reflexivity. Qed.

(** ** The parts of a commit *)
Section Parts.
  Variable H : bytes -> bytes.
  Variable mv : byte.
  Hypothesis HL : forall x, length (H x) = 64.

  Variables (a : dbapp) (s : fsys) (n : bytes) (id : Z) (bs : list batch) (pd : list content) (now : Z).
  Notation dn := (side n (a_dst a)).
  Notation bn := (side n (a_bck a)).

  (** The state with the lock, the state before the source is removed, and the four after it. *)
  Record parts (i h : nat) (r : reference) (s1 s6 s7 s8 s9 s10 : fsys) (d b : nat) (off : Z) : Prop := Parts {
    pa_ctx : ctx_get (a_ctxs a) id =
      Some (Ctx id n h (history_ref H mv bs) (zlen (header (history_ref H mv bs))) pd);
    pa_ref : update_reference H mv (Ctx id n h (history_ref H mv bs) (zlen (header (history_ref H mv bs))) pd) now = Ok r;
    pa_new : history_ref H mv (bs ++ [(pd, now)]) = Some r;
    pa_off : off = zlen (header (history_ref H mv (bs ++ [(pd, now)])));
    pa_name : dir_get (f_dir s) n = Some (EFile i);
    pa_data : data_of s i = history_file H mv bs;
    pa_conn : nth_error (f_handles s) h = Some (Handle i 0 true);
    pa_lock : sys_trylock n s = (s1, Ok i);
    pa_s1 : s1 = with_locks s [i];
    pa_prepare : run (prepare_files (S (length (history_file H mv bs))) a
      (Ctx id n h (history_ref H mv bs) (zlen (header (history_ref H mv bs))) pd) r) s1 = (s6, Ok off);
    pa_frame : Forall (fun x => dir_get (f_dir x) n = Some (EFile i) /\ data_of x i = history_file H mv bs /\ f_locks x = [i])
      (states (prepare_files (S (length (history_file H mv bs))) a
        (Ctx id n h (history_ref H mv bs) (zlen (header (history_ref H mv bs))) pd) r) s1);
    pa_prepared : prepared a (Ctx id n h (history_ref H mv bs) (zlen (header (history_ref H mv bs))) pd) r s i i s1 s6 d b;
    pa_file : data_of s6 d = history_file H mv (bs ++ [(pd, now)]);
    pa_backup : data_of s6 b = history_file H mv bs;
    pa_di : d <> i; pa_bi : b <> i; pa_db : d <> b;
    pa_live : i < length (f_data s);
    pa_old : data_of s6 i = history_file H mv bs;
    pa_remove : sys_remove n s6 = (s7, Ok tt);
    pa_rename : sys_rename dn n s7 = (s8, Ok tt);
    pa_clean : sys_remove bn s8 = (s9, Ok tt);
    pa_reopen : sys_open n s9 = (s10, Ok (length (f_handles s9)));
    pa_s7 : s7 = with_dir s6 (dir_del (f_dir s6) n);
    pa_s8 : s8 = with_dir s7 (dir_set (dir_del (f_dir s7) dn) n (EFile d));
    pa_s9 : s9 = with_dir s8 (dir_del (f_dir s8) bn);
    pa_s10 : s10 = with_handles s9 (f_handles s9 ++ [Handle d 0 true]) }.

  Lemma commit_parts : synced H mv a s n id bs pd -> ok_batch (pd, now) ->
    fits H mv (bs ++ [(pd, now)]) -> chunk_ok (a_chunk a) (history_data bs) ->
    exists i h r s1 s6 s7 s8 s9 s10 d b off, parts i h r s1 s6 s7 s8 s9 s10 d b off.
  Proof.
    intros (i & h & (A1 & A2 & A3 & A4 & A5 & A6 & A7 & A8 & A9 & A10 & A11) & Ec & Eh) W Ft (Pc & Ch).
    set (c := Ctx id n h (history_ref H mv bs) (zlen (header (history_ref H mv bs))) pd) in *.
    pose proof (fits_data H mv _ Ft) as L.
    destruct (update_reference_spec H mv HL c bs now) as (r & Er & Hr); auto.
    cbn [x_pending c] in Hr.
    assert (Nh : bs <> [] -> history_data bs <> []).
    { intros N E. pose proof (history_data_pos bs N A10) as X. rewrite E in X. cbn in X. lia. }
    assert (Hc : x_ref c <> None -> (0 < a_chunk a)%Z /\ (0 <= x_off c < zlen (data_of s i))%Z).
    { intros N. assert (Nb' : bs <> []) by (intros ->; now apply N). split; auto. cbn [x_off c].
      rewrite A9. unfold history_file. rewrite zlen_app.
      pose proof (zlen_nonneg (header (history_ref H mv bs))). specialize (Nh Nb').
      assert (0 < zlen (history_data bs))%Z by (unfold zlen; destruct (history_data bs); [congruence|cbn [length]; lia]). lia. }
    assert (Inj : forall e, dir_get (f_dir s) (side n e) <> Some (EFile i)).
    { intros e X. destruct A3 as (_ & I). apply (side_neq n e). eapply I; eauto. }
    assert (Lo : (zlen (data_of s i) < two63)%Z) by (rewrite A9; exact A11).
    assert (Lk : existsb (Nat.eqb i) (f_locks s) = false) by now rewrite A8.
    assert (Li : i < length (f_data s)) by (now apply A3 in A5).
    assert (En : newfile a c r s i = history_file H mv (bs ++ [(pd, now)])).
    { unfold newfile, history_file at 1. rewrite Hr. cbn [header]. unfold reference_to_content. f_equal.
      rewrite history_data_app. replace (history_data [(pd, now)]) with (batch_data pd)
        by (unfold history_data; cbn; now rewrite app_nil_r).
      f_equal. unfold copied. cbn [x_ref x_off c]. rewrite A9. unfold history_file.
      rewrite (skipn_app_exact _ (history_data bs)) by (unfold zlen; now rewrite Nat2Z.id).
      destruct bs as [|b0 bs']; [reflexivity|]. cbn [history_ref]. apply kept_ok; auto. apply Nh. discriminate. }
    set (fuel := S (length (history_file H mv bs))).
    assert (Lf : length (data_of s i) < fuel) by (rewrite A9; unfold fuel; lia).
    set (s1 := with_locks s [i]).
    assert (E1 : sys_trylock n s = (s1, Ok i)) by (unfold sys_trylock; rewrite A5, Lk, A8; reflexivity).
    assert (M0 : mid a c s s1 (Some (EFile i)) (dir_get (f_dir s) dn) (dir_get (f_dir s) bn) None None).
    { split; auto. intros m. change (f_dir s1) with (f_dir s). cbn [x_name c].
      destruct (bytes_eqb n m) eqn:X; [apply bytes_eqb_true in X; now subst|].
      destruct (bytes_eqb dn m) eqn:X1; [apply bytes_eqb_true in X1; now subst|].
      destruct (bytes_eqb bn m) eqn:X2; [apply bytes_eqb_true in X2; now subst|]. auto. }
    pose proof (prepare_tri a c r s i i A1 A3 A5 (conj Li (conj (Inj _) (Inj _))) Eh A6 A7 Lo Hc s1 fuel Lf M0 eq_refl eq_refl A4 A3) as T.
    apply tri_run in T.
    destruct (run (prepare_files fuel a c r) s1) as [s6 o] eqn:Er6. cbn [fst snd] in T.
    destruct T as (_ & -> & d & b & P).
    assert (Dn : dn <> bn) by (intros X; apply side_inj in X; congruence).
    assert (Fr : Forall (fun x => frame (two a c) s x /\ f_locks x = [i]) (states (prepare_files fuel a c r) s1)).
    { apply (safe_states (fun x => frame (two a c) s x /\ f_locks x = [i]) any).
      - apply (safe_prepare _ (free (two a c) s)).
        + intros x j w (F1 & F2) Fj. split; [now apply frame_write|exact F2].
        + intros x fs (F1 & F2). split; [exact F1|exact F2].
        + intros x hs (F1 & F2). split; [exact F1|exact F2].
        + intros x (F1 & F2). destruct (frame_create (two a c) s (proj1 A3) x dn F1 (two_dn a c)) as (G & K).
          split; [split; [exact G|]|exact K]. unfold sys_create. cbn [x_name c]. destruct (dir_get (f_dir x) dn) as [[j|]|]; exact F2.
        + intros x (F1 & F2). destruct (frame_create (two a c) s (proj1 A3) x bn F1 (two_bn a c)) as (G & K).
          split; [split; [exact G|]|exact K]. unfold sys_create. cbn [x_name c]. destruct (dir_get (f_dir x) bn) as [[j|]|]; exact F2.
      - split; [|reflexivity]. repeat split; auto.
        intros m k j Om Ok Em Ek. destruct A3 as (_ & I). change (f_dir s1) with (f_dir s) in Ek.
        rewrite (I _ _ _ Em Ek) in Om. congruence. }
    pose proof P as (M6 & Od & Ob & Ndb & D6 & B6 & Ld & Lb & H6 & F6 & L6 & K6 & KF).
    assert (Ni : d <> i) by (apply (i_not_dn a c s i (conj Li (conj (Inj _) (Inj _))) d Od)).
    assert (Nbi : b <> i) by (apply (i_not_bn a c s i (conj Li (conj (Inj _) (Inj _))) b Ob)).
    set (s7 := with_dir s6 (dir_del (f_dir s6) n)).
    set (s8 := with_dir s7 (dir_set (dir_del (f_dir s7) dn) n (EFile d))).
    set (s9 := with_dir s8 (dir_del (f_dir s8) bn)).
    set (s10 := with_handles s9 (f_handles s9 ++ [Handle d 0 true])).
    assert (N1 : n <> dn) by (intros X; symmetry in X; now apply side_neq in X).
    assert (N2 : n <> bn) by (intros X; symmetry in X; now apply side_neq in X).
    assert (Gn : dir_get (f_dir s6) n = Some (EFile i)) by exact (mid_n a c s _ _ _ _ _ _ M6).
    assert (Gd : dir_get (f_dir s6) dn = Some (EFile d)) by exact (mid_dn a c s _ _ _ _ _ _ M6).
    assert (Gb : dir_get (f_dir s6) bn = Some (EFile b)) by exact (mid_bn a c s A1 _ _ _ _ _ _ M6).
    exists i, h, r, s1, s6, s7, s8, s9, s10, d, b, (zlen (reference_to_content r)). constructor; auto.
    - rewrite Hr. reflexivity.
    - eapply Forall_impl; [|exact Fr]. cbv beta. intros x (Fx & Lx).
      assert (O : two a c n = false) by exact (two_n a c).
      split; [|split; [|exact Lx]].
      + destruct Fx as (X & _). now rewrite X.
      + destruct Fx as (_ & X & _). now rewrite (X n i O A5).
    - now rewrite D6.
    - now rewrite B6.
    - destruct M6 as (_ & X). rewrite X; congruence.
    - unfold sys_remove. now rewrite Gn.
    - unfold sys_rename. unfold s7 at 1 2. cbn [with_dir f_dir]. rewrite !dir_get_del.
      rewrite (bytes_eqb_neq n dn), bytes_eqb_refl by auto. now rewrite Gd.
    - unfold sys_remove. unfold s8 at 1. cbn [with_dir f_dir]. rewrite dir_get_set, dir_get_del.
      unfold s7 at 1. cbn [with_dir f_dir]. rewrite dir_get_del.
      rewrite (bytes_eqb_neq n bn), (bytes_eqb_neq dn bn) by auto. now rewrite Gb.
    - unfold sys_open. change (f_dir s9) with (dir_del (dir_set (dir_del (f_dir s7) dn) n (EFile d)) bn).
      rewrite dir_get_del, dir_get_set, bytes_eqb_refl.
      rewrite (bytes_eqb_neq bn n) by auto. reflexivity.
  Qed.

  (** The states that Commit goes through, in order. *)
  Section Steps.
  Variables (i h : nat) (r : reference) (s1 s6 s7 s8 s9 s10 : fsys) (d b : nat) (off : Z).
  Hypothesis P : parts i h r s1 s6 s7 s8 s9 s10 d b off.
  Notation c := (Ctx id n h (history_ref H mv bs) (zlen (header (history_ref H mv bs))) pd).
  Notation fuel := (S (length (history_file H mv bs))).
  Notation old := (history_file H mv bs).
  Notation new := (history_file H mv (bs ++ [(pd, now)])).

  Definition finish (x : nat * Z) : prog dbapp :=
    Ret (Ok (with_ctxs a (ctx_set (a_ctxs a) id (Ctx id n (fst x) (Some r) (snd x) pd)))).
  Definition unlocking {A} (o : outcome A) : prog A := Step (fun s => (sys_unlock i s, Ret o)).
  Definition after_gap : prog (nat * Z) :=
    let* _ <- call (sys_rename dn n);
    let* _ <- call (sys_remove bn);
    let* conn <- call (sys_open n);
    Ret (Ok (conn, off)).

  Lemma commit_prog : p_commit H mv now a s id = andthen (update_database fuel a c r) finish.
  Proof.
    unfold p_commit. rewrite (pa_ctx _ _ _ _ _ _ _ _ _ _ _ _ P), (pa_ref _ _ _ _ _ _ _ _ _ _ _ _ P).
    unfold conn_size. cbn [x_conn]. rewrite (pa_conn _ _ _ _ _ _ _ _ _ _ _ _ P). cbn [h_ino].
    rewrite (pa_data _ _ _ _ _ _ _ _ _ _ _ _ P). reflexivity.
  Qed.

  Lemma after_gap_states : states after_gap s7 = [s7; s8; s9; s10].
  Proof.
    unfold after_gap. rewrite (states_call_then _ _ _ _ _ (pa_rename _ _ _ _ _ _ _ _ _ _ _ _ P)).
    rewrite (states_call_then _ _ _ _ _ (pa_clean _ _ _ _ _ _ _ _ _ _ _ _ P)).
    rewrite (states_call_then _ _ _ _ _ (pa_reopen _ _ _ _ _ _ _ _ _ _ _ _ P)). reflexivity.
  Qed.

  Lemma after_gap_run : run after_gap s7 = (s10, Ok (length (f_handles s9), off)).
  Proof.
    unfold after_gap. erewrite run_then by (rewrite run_call; exact (pa_rename _ _ _ _ _ _ _ _ _ _ _ _ P)).
    erewrite run_then by (rewrite run_call; exact (pa_clean _ _ _ _ _ _ _ _ _ _ _ _ P)).
    erewrite run_then by (rewrite run_call; exact (pa_reopen _ _ _ _ _ _ _ _ _ _ _ _ P)). reflexivity.
  Qed.

  Lemma commit_states_eq : states (p_commit H mv now a s id) s =
    s :: states (prepare_files fuel a c r) s1 ++ [s7; s8; s9; s10; sys_unlock i s10].
  Proof.
    rewrite commit_prog. unfold andthen at 1. rewrite states_catch_eq.
    assert (E : forall x, tl (states (match snd (run (update_database fuel a c r) s) with
      | Ok v => finish v | Err => Ret Err | Panic => Ret Panic | Fuel => Ret Fuel end) x) = []).
    { intros x. destruct (snd _); reflexivity. }
    rewrite E, app_nil_r. unfold update_database. cbn [x_name].
    rewrite (states_call_then _ _ _ _ _ (pa_lock _ _ _ _ _ _ _ _ _ _ _ _ P)). f_equal.
    rewrite states_catch_eq.
    assert (Es : states (swap_files fuel a c r) s1 = states (prepare_files fuel a c r) s1 ++ [s7; s8; s9; s10]).
    { unfold swap_files. rewrite (states_then_eq _ _ _ _ _ (pa_prepare _ _ _ _ _ _ _ _ _ _ _ _ P)). f_equal.
      unfold replace_files. cbn [x_name]. rewrite (states_call_then _ _ _ _ _ (pa_remove _ _ _ _ _ _ _ _ _ _ _ _ P)).
      cbn [tl]. exact after_gap_states. }
    assert (Er : run (swap_files fuel a c r) s1 = (s10, Ok (length (f_handles s9), off))).
    { unfold swap_files. erewrite run_then by exact (pa_prepare _ _ _ _ _ _ _ _ _ _ _ _ P).
      unfold replace_files. cbn [x_name]. erewrite run_then by (rewrite run_call; exact (pa_remove _ _ _ _ _ _ _ _ _ _ _ _ P)).
      exact after_gap_run. }
    rewrite Es, Er. cbn [fst snd states tl]. rewrite <- app_assoc. reflexivity.
  Qed.

  Definition old_at (x : fsys) : Prop := dir_get (f_dir x) n = Some (EFile i) /\ data_of x i = old.
  Definition gap_at (x : fsys) : Prop := dir_get (f_dir x) n = None /\ data_of x i = old.
  Definition new_at (x : fsys) : Prop := dir_get (f_dir x) n = Some (EFile d) /\ data_of x d = new /\ data_of x i = old.
  Lemma s7_dir m : dir_get (f_dir s7) m = if bytes_eqb n m then None else dir_get (f_dir s6) m.
  Proof. rewrite (pa_s7 _ _ _ _ _ _ _ _ _ _ _ _ P). cbn [with_dir f_dir]. apply dir_get_del. Qed.

  Lemma s8_dir m : dir_get (f_dir s8) m =
    if bytes_eqb n m then Some (EFile d) else if bytes_eqb dn m then None else dir_get (f_dir s6) m.
  Proof.
    rewrite (pa_s8 _ _ _ _ _ _ _ _ _ _ _ _ P). cbn [with_dir f_dir]. rewrite dir_get_set, dir_get_del, s7_dir.
    destruct (bytes_eqb n m); reflexivity.
  Qed.

  Lemma s9_dir m : dir_get (f_dir s9) m =
    if bytes_eqb bn m then None else if bytes_eqb n m then Some (EFile d) else if bytes_eqb dn m then None else dir_get (f_dir s6) m.
  Proof. rewrite (pa_s9 _ _ _ _ _ _ _ _ _ _ _ _ P). cbn [with_dir f_dir]. now rewrite dir_get_del, s8_dir. Qed.

  Lemma after_data : f_data s7 = f_data s6 /\ f_data s8 = f_data s6 /\ f_data s9 = f_data s6 /\ f_data s10 = f_data s6.
  Proof.
    rewrite (pa_s10 _ _ _ _ _ _ _ _ _ _ _ _ P), (pa_s9 _ _ _ _ _ _ _ _ _ _ _ _ P),
      (pa_s8 _ _ _ _ _ _ _ _ _ _ _ _ P), (pa_s7 _ _ _ _ _ _ _ _ _ _ _ _ P). repeat split.
  Qed.

  Lemma commit_phases : exists l1 l3, states (p_commit H mv now a s id) s = (s :: l1) ++ [s7] ++ l3 /\
    old_at s /\ Forall (fun x => old_at x /\ f_locks x = [i]) l1 /\ gap_at s7 /\ Forall new_at l3.
  Proof.
    exists (states (prepare_files fuel a c r) s1), [s8; s9; s10; sys_unlock i s10].
    split; [rewrite commit_states_eq; reflexivity|].
    destruct after_data as (D7 & D8 & D9 & D10).
    assert (Dt : forall x j, f_data x = f_data s6 -> data_of x j = data_of s6 j) by (intros x j E; unfold data_of; now rewrite E).
    assert (N2 : bytes_eqb bn n = false) by (apply bytes_eqb_neq, side_neq).
    assert (G9 : dir_get (f_dir s9) n = Some (EFile d)) by (rewrite s9_dir, N2; now rewrite bytes_eqb_refl).
    assert (E10 : f_dir s10 = f_dir s9) by (rewrite (pa_s10 _ _ _ _ _ _ _ _ _ _ _ _ P); reflexivity).
    split; [split; apply P|]. split; [|split].
    - eapply Forall_impl; [|exact (pa_frame _ _ _ _ _ _ _ _ _ _ _ _ P)]. cbv beta. unfold old_at. tauto.
    - split; [rewrite s7_dir; now rewrite bytes_eqb_refl|]. rewrite Dt by auto. apply P.
    - repeat constructor; unfold new_at.
      + rewrite s8_dir, bytes_eqb_refl; reflexivity.
      + rewrite Dt by auto; apply P.
      + rewrite Dt by auto; apply P.
      + exact G9.
      + rewrite Dt by auto; apply P.
      + rewrite Dt by auto; apply P.
      + now rewrite E10.
      + rewrite Dt by auto; apply P.
      + rewrite Dt by auto; apply P.
      + cbn. now rewrite E10.
      + change (data_of (sys_unlock i s10) d) with (data_of s10 d). rewrite Dt by auto; apply P.
      + change (data_of (sys_unlock i s10) i) with (data_of s10 i). rewrite Dt by auto; apply P.
  Qed.


  (** First the old file, then none, then the new one. *)
  Inductive phased : list fsys -> Prop :=
  | phased_nil : phased []
  | phased_old x l : old_at x -> phased l -> phased (x :: l)
  | phased_gap x l : gap_at x -> phased l -> Forall (fun y => gap_at y \/ new_at y) l -> phased (x :: l)
  | phased_new x l : new_at x -> phased l -> Forall new_at l -> phased (x :: l).

  Lemma commit_phased : phased (states (p_commit H mv now a s id) s).
  Proof.
    destruct commit_phases as (l1 & l3 & -> & O & F1 & G & F3).
    assert (P3 : phased l3).
    { clear - F3. induction l3; [constructor|]. inversion F3; subst. apply phased_new; auto. }
    assert (P2 : phased ([s7] ++ l3)).
    { apply phased_gap; auto. eapply Forall_impl; [|exact F3]. auto. }
    cbn [app] in *. apply phased_old; auto. clear - F1 P2.
    induction l1; cbn [app]; auto. inversion F1 as [|? ? (X & _) F1']; subst. apply phased_old; auto.
  Qed.

  Lemma phased_prefix xs ys : phased (xs ++ ys) -> phased xs.
  Proof.
    induction xs as [|x xs IH]; cbn [app]; intros Q; [constructor|].
    inversion Q as [|? ? X1 X2|? ? X1 X2 X3|? ? X1 X2 X3]; subst.
    - apply phased_old; auto.
    - apply phased_gap; auto. now apply Forall_app in X3.
    - apply phased_new; auto. now apply Forall_app in X3.
  Qed.

  Lemma phased_suffix xs ys : phased (xs ++ ys) -> phased ys.
  Proof. induction xs as [|x xs IH]; cbn [app]; auto. intros Q. inversion Q; subst; auto. Qed.

  Lemma phased_at pre x post : phased (pre ++ x :: post) ->
    (old_at x /\ phased post) \/ (gap_at x /\ Forall (fun y => gap_at y \/ new_at y) post) \/ (new_at x /\ Forall new_at post).
  Proof. intros Q. apply phased_suffix in Q. inversion Q; subst; auto. Qed.

  Lemma phased_each xs y : phased xs -> In y xs -> old_at y \/ gap_at y \/ new_at y.
  Proof. intros Q I. induction Q; [destruct I| | |]; (destruct I as [<-|I]; auto). Qed.

  Lemma phased_steady xs : phased xs -> steady n xs.
  Proof.
    intros Q pre x post j y -> E I. destruct (phased_at _ _ _ Q) as [((X1 & X2) & Q')|[((X1 & X2) & F)|((X1 & X2 & X3) & F)]].
    - rewrite X1 in E. injection E as <-. rewrite X2. destruct I as [<-|I]; [exact X2|].
      destruct (phased_each _ _ Q' I) as [Y|[Y|Y]]; apply Y.
    - congruence.
    - rewrite X1 in E. injection E as <-. rewrite X2. destruct I as [<-|I]; [exact X2|].
      rewrite Forall_forall in F. now apply F.
  Qed.
  End Steps.
End Parts.
