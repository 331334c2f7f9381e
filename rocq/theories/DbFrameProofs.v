(** Commit with failing writes: what it leaves alone, and what it does not report. *)
From Coq Require Import List ZArith NArith Lia Bool.
From Coq Require Import Init.Byte Strings.Byte.
From Verif Require Import Base BaseLemmas HashModel HashProofs SpecHash HashTreeModel HashTreeProofs
  RefModel RefProofs SpecRef DbModel SpecDb DbRefProofs DbFsProofs DbCommitProofs DbOpenProofs DbApiProofs
  DbSession DbSessionProofs DbMoreProofs DbMultiProofs.
Import ListNotations.

(** ** Invariants of programs, whatever the faults and the outcome *)
Section Keep.
  Variable J : fsys -> Prop.

  Definition kept_by {A} (p : prog A) : Prop := forall x, J x -> tri p x J (fun y _ => J y).

  Lemma kept_ret {A} (o : outcome A) : kept_by (Ret o).
  Proof. intros x F. now apply tri_ret. Qed.

  Lemma kept_catch {A B} (p : prog A) (k : outcome A -> prog B) : kept_by p -> (forall o, kept_by (k o)) -> kept_by (catch p k).
  Proof.
    intros P K x F. apply tri_catch. eapply tri_weaken; [apply P; auto|auto|]. intros y o G. now apply K.
  Qed.

  Lemma kept_then {A B} (p : prog A) (k : A -> prog B) : kept_by p -> (forall a, kept_by (k a)) -> kept_by (andthen p k).
  Proof. intros P K. apply kept_catch; auto. intros [a| | |]; auto using kept_ret. Qed.

  (** The result of the first part matters as well. *)
  Lemma kept_then' {A B} (R : A -> Prop) (p : prog A) (k : A -> prog B) :
    (forall x, J x -> tri p x J (fun y o => J y /\ forall a, o = Ok a -> R a)) ->
    (forall a, R a -> kept_by (k a)) -> kept_by (andthen p k).
  Proof.
    intros P K x F. apply tri_catch. eapply tri_weaken; [apply P; auto|auto|].
    intros y [a| | |] (G & Ra); try (now apply kept_ret). apply K; auto.
  Qed.

  Lemma kept_call {A} (f : fsys -> fsys * outcome A) : (forall x, J x -> J (fst (f x))) -> kept_by (call f).
  Proof. intros K x F. apply tri_call; auto. Qed.

  (** The inode [j] may be written, and the faults do not matter. *)
  Definition writable (j : nat) : Prop :=
    (forall x d, J x -> J (set_data x j d)) /\ (forall x fs, J x -> J (with_faults x fs)).

  Lemma kept_bytes j w : writable j -> forall off res, kept_by (p_bytes j off w res).
  Proof.
    intros Fj. induction w as [|b w IH]; intros off res x F; cbn [p_bytes]; [now apply tri_ret|].
    apply tri_step; auto. cbn [fst snd]. apply IH. now apply Fj.
  Qed.

  Lemma kept_write j off w : writable j -> kept_by (p_write j off w).
  Proof.
    intros Fj x F. unfold p_write. apply tri_step; auto.
    destruct (f_faults x) as [|[k|] fs]; cbn [fst snd]; apply kept_bytes; auto; now apply Fj.
  Qed.

  Lemma kept_copy_loop conn ck j : writable j -> forall fuel roff woff, kept_by (copy_loop fuel conn ck roff j woff).
  Proof.
    intros Fj. induction fuel as [|fuel IH]; intros roff woff x F; cbn [copy_loop]; [now apply tri_ret|].
    apply tri_step; auto. cbn [fst snd]. destruct (read_at x conn ck roff); try (now apply tri_ret).
    revert x F. apply kept_catch; [now apply kept_write|]. intros [u| | |]; auto using kept_ret.
  Qed.

  Lemma kept_write_pending j l : writable j -> forall woff, kept_by (write_pending j woff l).
  Proof.
    intros Fj. induction l as [|c l IH]; intros woff; cbn [write_pending]; [apply kept_ret|].
    apply kept_catch; [now apply kept_write|]. intros [u| | |]; auto using kept_ret.
  Qed.
End Keep.

(** ** Files with other names *)
Section Frame.
  Variable own : bytes -> bool.
  Variable s0 : fsys.
  Hypothesis valid : forall m j, dir_get (f_dir s0) m = Some (EFile j) -> j < length (f_data s0).

  Definition frame (x : fsys) : Prop :=
    (forall m, own m = false -> dir_get (f_dir x) m = dir_get (f_dir s0) m) /\
    (forall m j, own m = false -> dir_get (f_dir s0) m = Some (EFile j) -> data_of x j = data_of s0 j) /\
    length (f_data s0) <= length (f_data x) /\
    (forall m k j, own m = false -> own k = true -> dir_get (f_dir s0) m = Some (EFile j) ->
       dir_get (f_dir x) k <> Some (EFile j)).

  Definition free (j : nat) : Prop := forall m, own m = false -> dir_get (f_dir s0) m <> Some (EFile j).

  Lemma frame_file x m : frame x -> own m = false -> file_at x m = file_at s0 m.
  Proof.
    intros (A & B & _) O. unfold file_at. rewrite (A m O).
    destruct (dir_get (f_dir s0) m) as [[j|]|] eqn:E; auto. f_equal. exact (B m j O E).
  Qed.

  Lemma frame_same x y : f_dir y = f_dir x -> f_data y = f_data x -> frame x -> frame y.
  Proof. intros E1 E2. unfold frame, data_of. rewrite E1, E2. auto. Qed.

  Lemma frame_write x j d : frame x -> free j -> frame (set_data x j d).
  Proof.
    intros (A & B & C & D) F. repeat split; auto.
    - intros m k O E. rewrite data_set_other; [eauto|]. intros <-. exact (F m O E).
    - cbn. rewrite set_nth_length. exact C.
  Qed.

  Lemma frame_create x n : frame x -> own n = true ->
    frame (fst (sys_create n x)) /\ (forall i, snd (sys_create n x) = Ok i -> free i).
  Proof.
    intros Fx O. pose proof Fx as (A & B & C & D). unfold sys_create.
    destruct (dir_get (f_dir x) n) as [[j|]|] eqn:E; cbn [fst snd].
    - assert (Fj : free j) by (intros m Om Em; exact (D m n j Om O Em E)).
      split; [now apply frame_write|]. intros i [= <-]. exact Fj.
    - split; auto. discriminate.
    - split.
      + repeat split; cbn [with_data with_dir f_dir f_data].
        * intros m Om. rewrite dir_get_set. destruct (bytes_eqb n m) eqn:Em; auto.
          apply bytes_eqb_true in Em. subst. congruence.
        * intros m j Om Em. unfold data_of. cbn [with_data with_dir f_dir f_data].
          rewrite app_nth1; [exact (B m j Om Em)|]. pose proof (valid _ _ Em). lia.
        * rewrite app_length. lia.
        * intros m k j Om Ok Em. rewrite dir_get_set. destruct (bytes_eqb n k); [|eauto].
          intros X. injection X as X. apply valid in Em. lia.
      + intros i [= <-] m Om Em. apply valid in Em. lia.
  Qed.

  Lemma frame_del x n : frame x -> own n = true -> frame (with_dir x (dir_del (f_dir x) n)).
  Proof.
    intros (A & B & C & D) O. repeat split; cbn [with_dir f_dir f_data]; auto.
    - intros m Om. rewrite dir_get_del. destruct (bytes_eqb n m) eqn:Em; auto.
      apply bytes_eqb_true in Em. subst. congruence.
    - intros m k j Om Ok Em. rewrite dir_get_del. destruct (bytes_eqb n k); [discriminate|eauto].
  Qed.

  Lemma frame_remove x n : frame x -> own n = true -> frame (fst (sys_remove n x)).
  Proof.
    intros F O. unfold sys_remove. destruct (dir_get (f_dir x) n) as [[j|]|]; cbn [fst]; auto. now apply frame_del.
  Qed.

  Lemma frame_rename x n m : frame x -> own n = true -> own m = true -> frame (fst (sys_rename n m x)).
  Proof.
    intros F On Om. unfold sys_rename. destruct (dir_get (f_dir x) n) as [[j|]|] eqn:E; cbn [fst]; auto.
    assert (G : frame (with_dir x (dir_set (dir_del (f_dir x) n) m (EFile j)))).
    { pose proof (frame_del x n F On) as (A & B & C & D). destruct F as (_ & _ & _ & D').
      cbn [with_dir f_dir f_data] in *. repeat split; cbn [with_dir f_dir f_data]; auto.
      - intros k Ok. rewrite dir_get_set. destruct (bytes_eqb m k) eqn:Em; auto.
        apply bytes_eqb_true in Em. subst. congruence.
      - intros k k' i Ok Ok' Ek. rewrite dir_get_set. destruct (bytes_eqb m k'); [|eauto].
        intros X. injection X as ->. exact (D' k n i Ok On Ek E). }
    destruct (dir_get (f_dir x) m) as [[j'|]|]; auto.
  Qed.

  Lemma frame_trylock x n : frame x -> own n = true -> frame (fst (sys_trylock n x)).
  Proof.
    intros F O. pose proof (frame_create x n F O) as (G & _). unfold sys_trylock, sys_create in *.
    destruct (dir_get (f_dir x) n) as [[j|]|]; cbn [fst] in *; auto.
    destruct (existsb _ _); cbn [fst]; auto.
  Qed.

  Lemma frame_open x n : frame x -> frame (fst (sys_open n x)).
  Proof. unfold sys_open. destruct (dir_get (f_dir x) n) as [[j|]|]; auto. Qed.

  Lemma frame_close x h : frame x -> frame (fst (sys_close h x)).
  Proof. unfold sys_close. destruct (nth_error (f_handles x) h) as [[i p [|]]|]; auto. Qed.

  Lemma frame_writable j : free j -> writable frame j.
  Proof. intros F. split; [intros; now apply frame_write|auto]. Qed.

  Lemma create_tri n x : own n = true -> frame x ->
    tri (call (sys_create n)) x frame (fun y o => frame y /\ forall i, o = Ok i -> free i).
  Proof. intros O F. destruct (frame_create x n F O) as (G & K). apply tri_call; auto. Qed.

  Lemma kept_update fuel a c r : own (x_name c) = true -> own (side (x_name c) (a_dst a)) = true ->
    own (side (x_name c) (a_bck a)) = true -> kept_by frame (update_database fuel a c r).
  Proof.
    intros On Od Ob. unfold update_database. apply kept_then.
    { apply kept_call. intros x F. now apply frame_trylock. }
    intros lock. apply kept_catch.
    2:{ intros o x F. apply tri_step; auto. cbn [fst snd]. apply tri_ret; exact F. }
    unfold swap_files. apply kept_then.
    - unfold prepare_files. apply kept_then.
      + unfold write_destination. apply (kept_then' _ free); [intros; now apply create_tri|].
        intros d Fd. apply kept_then; [now apply kept_write, frame_writable|]. intros _. apply kept_then.
        * destruct (x_ref c); [|apply kept_ret]. apply kept_then; [apply kept_call; auto|].
          intros size. destruct (_ <=? _)%Z; [apply kept_ret|]. now apply kept_copy_loop, frame_writable.
        * intros woff. apply kept_then; [now apply kept_write_pending, frame_writable|]. intros _. apply kept_ret.
      + intros off. apply (kept_then' _ free); [intros; now apply create_tri|].
        intros b Fb. apply kept_then.
        * unfold p_copy. apply kept_then.
          { apply kept_call. intros x F. destruct (nth_error (f_handles x) (x_conn c)) as [[i p [|]]|]; exact F. }
          intros [|d0 d]; [apply kept_ret|]. now apply kept_write, frame_writable.
        * intros _. apply kept_then; [apply kept_call; intros; now apply frame_close|]. intros _. apply kept_ret.
    - intros off. unfold replace_files.
      apply kept_then; [apply kept_call; intros; now apply frame_remove|]. intros _.
      apply kept_then; [apply kept_call; intros; now apply frame_rename|]. intros _.
      apply kept_then; [apply kept_call; intros; now apply frame_remove|]. intros _.
      apply kept_then; [apply kept_call; intros; now apply frame_open|]. intros conn. apply kept_ret.
  Qed.
End Frame.

(** Commit changes three names at most. *)
Lemma commit_frame_all H mv now a s id c :
  fs_ok s -> ctx_get (a_ctxs a) id = Some c ->
  Forall (fun x => forall m, m <> x_name c -> m <> side (x_name c) (a_dst a) -> m <> side (x_name c) (a_bck a) ->
                   dir_get (f_dir x) m = dir_get (f_dir s) m /\ file_at x m = file_at s m)
         (commit_states H mv now a s id).
Proof.
  intros (V & I) Ec. unfold commit_states. rewrite Ec.
  destruct (update_reference H mv c now) as [r| | |]; [|constructor; auto ..].
  set (own := fun m => bytes_eqb (x_name c) m || bytes_eqb (side (x_name c) (a_dst a)) m || bytes_eqb (side (x_name c) (a_bck a)) m).
  assert (F0 : frame own s s).
  { repeat split; auto. intros m k j Om Ok Em Ek. rewrite (I _ _ _ Em Ek) in Om. congruence. }
  assert (K : kept_by (frame own s) (update_database (S (conn_size s c)) a c r)).
  { apply kept_update; [exact V| | |]; unfold own; rewrite bytes_eqb_refl, ?orb_true_r; reflexivity. }
  destruct (K s F0) as (Fa & _). eapply Forall_impl; [|exact Fa]. cbv beta.
  intros x Fx m N1 N2 N3.
  assert (O : own m = false) by (unfold own; rewrite !bytes_eqb_neq; auto).
  split; [now apply Fx|]. eapply frame_file; eauto.
Qed.

Lemma commit_grows H mv now a s id x : fs_ok s -> In x (commit_states H mv now a s id) ->
  length (f_data s) <= length (f_data x).
Proof.
  intros (V & I) Ix. unfold commit_states in Ix. destruct (ctx_get (a_ctxs a) id) as [c|]; [|destruct Ix as [<-|[]]; auto].
  destruct (update_reference H mv c now) as [r| | |]; [|destruct Ix as [<-|[]]; auto ..].
  assert (F0 : frame (fun _ => true) s s) by (repeat split; auto; discriminate).
  assert (K : kept_by (frame (fun _ => true) s) (update_database (S (conn_size s c)) a c r)) by (apply kept_update; auto).
  destruct (K s F0) as (Fa & _). eapply Forall_forall in Fa; [|exact Ix]. apply Fa.
Qed.

(** ** A content that is not written *)
Lemma run_bytes_exact s0 d res w : forall X, d < length (f_data s0) ->
  run (p_bytes d (length X) w res) (set_data s0 d X) = (set_data s0 d (X ++ w), res).
Proof.
  induction w as [|b w IH]; intros X L; cbn [p_bytes run]; [now rewrite app_nil_r|].
  rewrite data_set_same by auto. rewrite put_byte_end, set_data_twice.
  replace (S (length X)) with (length (X ++ [b])) by (rewrite app_length; cbn; lia).
  rewrite IH by auto. now rewrite <- app_assoc.
Qed.

Lemma run_write_ok s0 d X w fs : d < length (f_data s0) -> f_faults s0 = None :: fs ->
  run (p_write d (length X) w) (set_data s0 d X) = (set_data (with_faults s0 fs) d (X ++ w), Ok tt).
Proof.
  intros L F. unfold p_write. cbn [run]. assert (E : f_faults (set_data s0 d X) = None :: fs) by exact F. rewrite E.
  change (with_faults (set_data s0 d X) fs) with (set_data (with_faults s0 fs) d X). now apply run_bytes_exact.
Qed.

Lemma run_write_fault s0 d X w k fs : d < length (f_data s0) -> f_faults s0 = Some k :: fs ->
  run (p_write d (length X) w) (set_data s0 d X) = (set_data (with_faults s0 fs) d (X ++ firstn k w), Err).
Proof.
  intros L F. unfold p_write. cbn [run]. assert (E : f_faults (set_data s0 d X) = Some k :: fs) by exact F. rewrite E.
  change (with_faults (set_data s0 d X) fs) with (set_data (with_faults s0 fs) d X). now apply run_bytes_exact.
Qed.

Lemma run_pending_fault d c after k : forall before s0 X, d < length (f_data s0) ->
  f_faults s0 = repeat None (length before) ++ [Some k] ->
  run (write_pending d (length X) (before ++ c :: after)) (set_data s0 d X) =
    (set_data (with_faults s0 []) d (X ++ batch_data before ++ firstn k (ct_data c)), Ok tt).
Proof.
  induction before as [|b before IH]; intros s0 X L F; cbn [app write_pending]; rewrite run_catch.
  - rewrite (run_write_fault s0 d X _ k []) by auto. reflexivity.
  - cbn [length repeat app] in F. rewrite (run_write_ok s0 d X _ _ L F). cbn [fst snd].
    rewrite <- app_length. rewrite (IH (with_faults s0 _) (X ++ ct_data b)) by auto.
    change (batch_data (b :: before)) with (ct_data b ++ batch_data before). now rewrite <- !app_assoc.
Qed.

Section Fault.
  Variable H : bytes -> bytes.
  Variable mv : byte.
  Hypothesis HL : forall x, length (H x) = 64.

  (** The first commit of a database; the write of the content [ct] stops after [k] bytes. *)
  Lemma commit_fault a s n id before ct after k now :
    DbApiProofs.synced H mv a s n id [] (before ++ ct :: after) ->
    ok_batch (before ++ ct :: after, now) -> fits H mv [(before ++ ct :: after, now)] ->
    let s1 := with_faults s (None :: repeat None (length before) ++ [Some k]) in
    let r := history_ref H mv [(before ++ ct :: after, now)] in
    exists s2 a2 d h, commit_db H mv now a s1 id = (s2, a2, Ok tt) /\
      ctx_get (a_ctxs a2) id = Some (Ctx id n h r (zlen (header r)) (before ++ ct :: after)) /\
      nth_error (f_handles s2) h = Some (Handle d 0 true) /\
      dir_get (f_dir s2) n = Some (EFile d) /\
      data_of s2 d = header r ++ batch_data before ++ firstn k (ct_data ct) /\
      (f_faults s2 = [] /\ f_locks s2 = [] /\ d < length (f_data s2) /\
       dir_get (f_dir s2) (side n (a_dst a)) = None /\ a_dst a2 = a_dst a /\ a_chunk a2 = a_chunk a).
  Proof.
    intros (i & h & (A1 & A2 & A3 & A4 & A5 & A6 & A7 & A8 & A9 & A10 & A11) & Ec & Eh) W Ft s1 r.
    set (pd := before ++ ct :: after) in *.
    set (c := Ctx id n h (history_ref H mv []) (zlen (header (history_ref H mv []))) pd) in *.
    destruct (update_reference_spec H mv HL c [] now) as (ref & Er & Hr); auto.
    { now apply fits_data in Ft. }
    cbn [x_pending c app] in Hr. fold r in Hr.
    unfold commit_db, commit_fuel. rewrite Ec, Er.
    set (fuel := S _). clearbody fuel.
    (* lock *)
    set (t1 := with_locks s1 [i]).
    assert (T1 : sys_trylock n s1 = (t1, Ok i)).
    { unfold sys_trylock. cbn [s1 with_faults f_dir f_locks]. rewrite A5, A8. reflexivity. }
    assert (F1 : fs_ok t1) by exact A3.
    destruct (sys_create_spec (side n (a_dst a)) t1 F1 A6)
      as (t2 & d & C1 & C2 & C3 & C4 & C5 & C6 & C7 & C8 & C9 & C10 & C11).
    assert (Nd : d <> i).
    { intros ->. destruct C10 as [C10|(_ & C10)].
      - apply (side_neq n (a_dst a)). eapply (proj2 A3); eauto.
      - apply (proj1 A3) in A5. cbn [t1 s1 with_locks with_faults f_data] in C10. lia. }
    (* the destination *)
    assert (D1 : exists t3, run (write_destination fuel a c ref) t1 = (t3, Ok (zlen (header r))) /\
       data_of t3 d = header r ++ batch_data before ++ firstn k (ct_data ct) /\
       f_dir t3 = f_dir t2 /\ f_handles t3 = f_handles t2 /\ f_faults t3 = [] /\ length (f_data t3) = length (f_data t2) /\
       f_locks t3 = f_locks t2 /\ (forall j, j <> d -> data_of t3 j = data_of t2 j)).
    { assert (Eh' : reference_to_content ref = header r) by (rewrite Hr; reflexivity).
      eexists. split; [|split; [|split; [|split; [|split]]]].
      - unfold write_destination. cbn [x_name c x_ref x_pending].
        rewrite (run_then _ _ _ _ _ (eq_trans (run_call _ _) C1)). rewrite Eh'.
        assert (Es : t2 = set_data t2 d []) by (rewrite <- C3; now rewrite set_data_id).
        assert (R1 : run (p_write d 0 (header r)) t2 = (set_data (with_faults t2 (repeat None (length before) ++ [Some k])) d ([] ++ header r), Ok tt)).
        { rewrite Es at 1. apply (run_write_ok t2 d []); auto. }
        rewrite (run_then _ _ _ _ _ R1). cbn [app].
        change (history_ref H mv []) with (@None reference). cbv iota.
        rewrite (run_then (Ret (Ok (length (header r)))) _ _ _ _ eq_refl).
        assert (R2 := run_pending_fault d ct after k before (with_faults t2 (repeat None (length before) ++ [Some k])) (header r) C6 eq_refl).
        rewrite (run_then _ _ _ _ _ R2). reflexivity.
      - now rewrite data_set_same by exact C6.
      - reflexivity.
      - reflexivity.
      - reflexivity.
      - split; [cbn; now rewrite set_nth_length|]. split; [reflexivity|].
        intros j Nj. now rewrite data_set_other by auto. }
    destruct D1 as (t3 & D1 & D2 & D3 & D4 & D5 & D6 & D7 & D8).
    assert (F3 : fs_ok t3).
    { destruct C11 as (V & I). split; [intros m j|intros m m' j]; rewrite D3, ?D6; eauto. }
    assert (Nb3 : dir_get (f_dir t3) (side n (a_bck a)) <> Some EDir).
    { rewrite D3, C2. destruct (bytes_eqb _ _); [discriminate|exact A7]. }
    destruct (sys_create_spec (side n (a_bck a)) t3 F3 Nb3)
      as (t4 & b & B1 & B2 & B3 & B4 & B5 & B6 & B7 & B8 & B9 & B10 & B11).
    assert (Dd : dir_get (f_dir t3) (side n (a_dst a)) = Some (EFile d)) by (rewrite D3, C2, bytes_eqb_refl; reflexivity).
    assert (Sd : side n (a_bck a) <> side n (a_dst a)) by (intros E; apply A1; symmetry; eapply side_inj; eauto).
    assert (Nbd : b <> d).
    { intros ->. destruct B10 as [B10|(_ & B10)].
      - apply Sd. eapply (proj2 F3); eauto.
      - lia. }
    assert (Dn : dir_get (f_dir t4) n = Some (EFile i)).
    { rewrite B2. rewrite bytes_eqb_neq by apply side_neq. rewrite D3, C2. rewrite bytes_eqb_neq by apply side_neq. exact A5. }
    assert (Nbi : b <> i).
    { intros ->. assert (X : dir_get (f_dir t4) (side n (a_bck a)) = Some (EFile i)) by (rewrite B2, bytes_eqb_refl; reflexivity).
      apply (side_neq n (a_bck a)). eapply (proj2 B11); eauto. }
    assert (Eh4 : nth_error (f_handles t4) h = Some (Handle i 0 true)) by (rewrite B7, D4, C7; exact Eh).
    assert (Di : data_of t4 i = []).
    { rewrite B4 by auto. rewrite D8 by auto. rewrite C4 by auto. exact A9. }
    set (t5 := with_handles t4 (set_nth (f_handles t4) h (Handle i 0 true))).
    set (t6 := with_handles t5 (set_nth (f_handles t5) h (Handle i 0 false))).
    assert (Lh : h < length (f_handles t4)) by (apply nth_error_Some; congruence).
    assert (P1 : run (prepare_files fuel a c ref) t1 = (t6, Ok (zlen (header r)))).
    { unfold prepare_files. rewrite (run_then _ _ _ _ _ D1). cbn [x_name c x_conn].
      rewrite (run_then _ _ _ _ _ (eq_trans (run_call _ _) B1)).
      assert (Q : run (p_copy b h) t4 = (t5, Ok tt)).
      { unfold p_copy. assert (Q0 : run (call (fun s =>
          match nth_error (f_handles s) h with
          | Some (Handle i p true) =>
            let d := skipn p (data_of s i) in
            (with_handles s (set_nth (f_handles s) h (Handle i (p + length d) true)), Ok d)
          | _ => (s, Err)
          end)) t4 = (t5, Ok [])) by (rewrite run_call, Eh4, Di; reflexivity).
        rewrite (run_then _ _ _ _ _ Q0). reflexivity. }
      rewrite (run_then _ _ _ _ _ Q).
      assert (Q2 : sys_close h t5 = (t6, Ok tt)).
      { unfold sys_close. cbn [t5 with_handles f_handles]. rewrite nth_error_set_nth by auto. rewrite Nat.eqb_refl. reflexivity. }
      rewrite (run_then _ _ _ _ _ (eq_trans (run_call _ _) Q2)). reflexivity. }
    assert (Dn6 : dir_get (f_dir t6) n = Some (EFile i)) by exact Dn.
    set (t7 := with_dir t6 (dir_del (f_dir t6) n)).
    assert (Q7 : sys_remove n t6 = (t7, Ok tt)) by (unfold sys_remove; rewrite Dn6; reflexivity).
    assert (Dd7 : dir_get (f_dir t7) (side n (a_dst a)) = Some (EFile d)).
    { cbn [t7 with_dir f_dir]. rewrite dir_get_del. rewrite bytes_eqb_neq by (intros E; symmetry in E; now apply side_neq in E).
      cbn [t6 t5 with_handles f_dir]. rewrite B2. rewrite bytes_eqb_neq by auto. exact Dd. }
    assert (Dn7 : dir_get (f_dir t7) n = None) by (cbn [t7 with_dir f_dir]; rewrite dir_get_del, bytes_eqb_refl; reflexivity).
    set (t8 := with_dir t7 (dir_set (dir_del (f_dir t7) (side n (a_dst a))) n (EFile d))).
    assert (Q8 : sys_rename (side n (a_dst a)) n t7 = (t8, Ok tt)).
    { unfold sys_rename. rewrite Dd7, Dn7. reflexivity. }
    assert (Db8 : dir_get (f_dir t8) (side n (a_bck a)) = Some (EFile b)).
    { cbn [t8 with_dir f_dir]. rewrite dir_get_set, dir_get_del. rewrite bytes_eqb_neq by (intros E; symmetry in E; now apply side_neq in E).
      rewrite bytes_eqb_neq by auto. cbn [t7 with_dir f_dir]. rewrite dir_get_del.
      rewrite bytes_eqb_neq by (intros E; symmetry in E; now apply side_neq in E).
      cbn [t6 t5 with_handles f_dir]. rewrite B2, bytes_eqb_refl. reflexivity. }
    set (t9 := with_dir t8 (dir_del (f_dir t8) (side n (a_bck a)))).
    assert (Q9 : sys_remove (side n (a_bck a)) t8 = (t9, Ok tt)) by (unfold sys_remove; rewrite Db8; reflexivity).
    assert (Dn9 : dir_get (f_dir t9) n = Some (EFile d)).
    { cbn [t9 with_dir f_dir]. rewrite dir_get_del. rewrite bytes_eqb_neq by apply side_neq.
      cbn [t8 with_dir f_dir]. rewrite dir_get_set, bytes_eqb_refl. reflexivity. }
    set (t10 := with_handles t9 (f_handles t9 ++ [Handle d 0 true])).
    assert (Q10 : sys_open n t9 = (t10, Ok (length (f_handles t9)))) by (unfold sys_open; rewrite Dn9; reflexivity).
    assert (U : run (update_database fuel a c ref) s1 = (sys_unlock i t10, Ok (length (f_handles t9), zlen (header r)))).
    { unfold update_database. cbn [x_name c]. rewrite (run_then _ _ _ _ _ (eq_trans (run_call _ _) T1)). rewrite run_catch.
      unfold swap_files. rewrite (run_then _ _ _ _ _ P1). unfold replace_files. cbn [x_name c].
      rewrite (run_then _ _ _ _ _ (eq_trans (run_call _ _) Q7)).
      rewrite (run_then _ _ _ _ _ (eq_trans (run_call _ _) Q8)).
      rewrite (run_then _ _ _ _ _ (eq_trans (run_call _ _) Q9)).
      rewrite (run_then _ _ _ _ _ (eq_trans (run_call _ _) Q10)). reflexivity. }
    rewrite U. cbn [x_id x_name x_pending c].
    eexists _, _, d, (length (f_handles t9)). split; [reflexivity|]. split.
    { cbn [with_ctxs a_ctxs]. rewrite ctx_get_set, Z.eqb_refl. now rewrite Hr. }
    split. { cbn [sys_unlock with_locks f_handles t10 with_handles]. rewrite nth_error_app2 by lia. now rewrite Nat.sub_diag. }
    split; [exact Dn9|].
    split. { change (data_of t4 d = header r ++ batch_data before ++ firstn k (ct_data ct)). rewrite B4 by auto. exact D2. }
    split. { change (f_faults t4 = []). congruence. }
    split. { change (f_locks (sys_unlock i t4) = []). cbn [sys_unlock with_locks f_locks]. replace (f_locks t4) with [i].
      - cbn [filter]. now rewrite Nat.eqb_refl.
      - change (f_locks t1 = f_locks t4). congruence. }
    split. { change (d < length (f_data t4)). assert (X : dir_get (f_dir t4) (side n (a_dst a)) = Some (EFile d)).
      { rewrite B2. rewrite bytes_eqb_neq by auto. exact Dd. }
      exact (proj1 B11 _ _ X). }
    split; [|split; reflexivity].
    change (dir_get (f_dir t9) (side n (a_dst a)) = None).
    cbn [t9 with_dir f_dir]. rewrite dir_get_del. rewrite bytes_eqb_neq by auto. cbn [t8 with_dir f_dir].
    rewrite dir_get_set. rewrite bytes_eqb_neq by (intros E; symmetry in E; now apply side_neq in E).
    rewrite dir_get_del, bytes_eqb_refl. reflexivity.
  Qed.
End Fault.

(** ** A commit that fails *)
Section Failed.
  Variable H : bytes -> bytes.
  Variable mv : byte.
  Variable a : dbapp.
  Variable c : ctx.
  Variable s0 : fsys.
  Variable i : nat.
  Notation n := (x_name c).
  Notation dn := (side (x_name c) (a_dst a)).
  Notation bn := (side (x_name c) (a_bck a)).
  Hypothesis V : fs_ok s0.
  Hypothesis Nx : dn <> bn.
  Hypothesis En : dir_get (f_dir s0) n = Some (EFile i).

  (** The two names that are written. *)
  Definition two (m : bytes) : bool := bytes_eqb dn m || bytes_eqb bn m.

  (** The connection is open, the other connections are as they were. *)
  Definition conns (x : fsys) : Prop :=
    (exists p, nth_error (f_handles x) (x_conn c) = Some (Handle i p true)) /\
    (forall h, h <> x_conn c -> nth_error (f_handles x) h = nth_error (f_handles s0) h).

  Definition before_swap (x : fsys) : Prop := frame two s0 x /\ conns x /\ f_locks x = [i].
  Definition dst_made (x : fsys) : Prop := before_swap x /\ exists d, dir_get (f_dir x) dn = Some (EFile d) /\ free two s0 d.
  Definition both_made (x : fsys) : Prop := dst_made x /\ exists b, dir_get (f_dir x) bn = Some (EFile b) /\ free two s0 b.

  Lemma valid0 : forall m j, dir_get (f_dir s0) m = Some (EFile j) -> j < length (f_data s0).
  Proof. apply V. Qed.

  Lemma before_writable j : free two s0 j -> writable before_swap j.
  Proof.
    intros F. split.
    - intros x d (A & B). split; [now apply frame_write|exact B].
    - intros x fs (A & B). split; [exact A|exact B].
  Qed.

  Lemma dst_writable j : free two s0 j -> writable dst_made j.
  Proof.
    intros F. destruct (before_writable j F) as (W1 & W2). split.
    - intros x d (A & B). split; [now apply W1|exact B].
    - intros x fs (A & B). split; [now apply W2|exact B].
  Qed.

  Lemma both_writable j : free two s0 j -> writable both_made j.
  Proof.
    intros F. destruct (dst_writable j F) as (W1 & W2). split.
    - intros x d (A & B). split; [now apply W1|exact B].
    - intros x fs (A & B). split; [now apply W2|exact B].
  Qed.

  Lemma two_dn : two dn = true.
  Proof. unfold two. now rewrite bytes_eqb_refl. Qed.
  Lemma two_bn : two bn = true.
  Proof. unfold two. now rewrite bytes_eqb_refl, orb_true_r. Qed.
  Lemma two_n : two n = false.
  Proof. unfold two. rewrite !bytes_eqb_neq; auto using side_neq. Qed.

  Lemma destination_any fuel r x : before_swap x ->
    tri (write_destination fuel a c r) x before_swap
        (fun y o => match o with Ok _ => dst_made y | _ => before_swap y end).
  Proof.
    intros B. unfold write_destination. apply tri_then.
    pose proof B as (F & C).
    destruct (frame_create two s0 valid0 x dn F two_dn) as (G & K).
    apply tri_call; auto.
    { split; auto. unfold sys_create. destruct (dir_get (f_dir x) dn) as [[j|]|]; exact C. }
    destruct (sys_create dn x) as [y o] eqn:E. cbn [fst snd] in *.
    assert (By : before_swap y).
    { split; auto. unfold sys_create in E. destruct (dir_get (f_dir x) dn) as [[j|]|]; injection E as <- _; exact C. }
    destruct o as [d| | |]; try (split; auto; fail).
    assert (Fd : free two s0 d) by (apply K; reflexivity).
    assert (Dy : dst_made y).
    { split; auto. exists d. split; auto. unfold sys_create in E. destruct (dir_get (f_dir x) dn) as [[j|]|] eqn:Ed.
      - injection E as <- <-. cbn. exact Ed.
      - discriminate.
      - injection E as <- <-. cbn [with_data with_dir f_dir]. now rewrite dir_get_set, bytes_eqb_refl. }
    assert (P : kept_by dst_made
      (let* _ <- p_write d 0 (reference_to_content r) ;
       let* woff <- match x_ref c with
                    | Some _ => let* size <- call (fun s => (s, match nth_error (f_handles s) (x_conn c) with
                                   | Some (Handle i _ true) => Ok (zlen (data_of s i)) | _ => Panic end)) ;
                       (if (two63 <=? make_chunk (a_chunk a) (u64 (size - x_off c)))%Z then Ret Panic
                        else copy_loop fuel (x_conn c) (make_chunk (a_chunk a) (u64 (size - x_off c))) (x_off c) d (length (reference_to_content r)))
                    | None => Ret (Ok (length (reference_to_content r)))
                    end ;
       let* _ <- write_pending d woff (x_pending c) ; Ret (Ok (zlen (reference_to_content r))))).
    { apply kept_then; [apply kept_write, dst_writable; exact Fd|]. intros _. apply kept_then.
      - destruct (x_ref c); [|apply kept_ret]. apply kept_then; [apply kept_call; auto|].
        intros size. destruct (_ <=? _)%Z; [apply kept_ret|]. now apply kept_copy_loop, dst_writable.
      - intros woff. apply kept_then; [now apply kept_write_pending, dst_writable|]. intros _. apply kept_ret. }
    eapply tri_weaken; [exact (P y Dy)| |].
    - intros z Hz. apply Hz.
    - intros z [o| | |] Hz; auto; apply Hz.
  Qed.

  Lemma prepare_any fuel r x : before_swap x ->
    tri (prepare_files fuel a c r) x (frame two s0)
        (fun y o => match o with
                    | Ok _ => frame two s0 y /\ (exists d, dir_get (f_dir y) dn = Some (EFile d)) /\
                              (exists b, dir_get (f_dir y) bn = Some (EFile b))
                    | _ => before_swap y
                    end).
  Proof.
    intros B. unfold prepare_files. apply tri_then.
    eapply tri_weaken; [exact (destination_any fuel r x B)|intros z Hz; apply Hz|].
    intros y [off| | |] Hy; try (split; auto; apply Hy).
    apply tri_then. pose proof Hy as ((F & C) & (d & Ed & Fd)).
    destruct (frame_create two s0 valid0 y bn F two_bn) as (G & K).
    apply tri_call; auto.
    destruct (sys_create bn y) as [z o] eqn:E. cbn [fst snd] in *.
    assert (Dz : dst_made z).
    { split; [split; auto|].
      - unfold sys_create in E. destruct (dir_get (f_dir y) bn) as [[j|]|]; injection E as <- _; exact C.
      - exists d. split; auto. unfold sys_create in E.
        destruct (dir_get (f_dir y) bn) as [[j|]|]; injection E as <- _; cbn [set_data with_data with_dir f_dir]; auto.
        rewrite dir_get_set, bytes_eqb_neq; auto. }
    destruct o as [b| | |]; try (split; [apply Dz|apply Dz]; fail).
    assert (Fb : free two s0 b) by (apply K; reflexivity).
    assert (Bz : both_made z).
    { split; auto. exists b. split; auto. unfold sys_create in E. destruct (dir_get (f_dir y) bn) as [[j|]|] eqn:Eb.
      - injection E as <- <-. cbn. exact Eb.
      - discriminate.
      - injection E as <- <-. cbn [with_data with_dir f_dir]. now rewrite dir_get_set, bytes_eqb_refl. }
    assert (P : kept_by both_made (p_copy b (x_conn c))).
    { unfold p_copy. apply kept_then.
      - apply kept_call. intros w (((W1 & ((p & W2) & W3) & WL) & W4) & W5). rewrite W2. cbn [fst].
        split; [split; [split; [exact W1|split; [split|]]|]|]; cbn [with_handles f_handles f_dir f_locks]; auto.
        + eexists. rewrite nth_error_set_nth by (apply nth_error_Some; congruence). now rewrite Nat.eqb_refl.
        + intros h Nh. rewrite nth_error_set_nth by (apply nth_error_Some; congruence).
          replace (Nat.eqb (x_conn c) h) with false by (symmetry; apply Nat.eqb_neq; auto). auto.
      - intros [|d0 dd]; [apply kept_ret|]. now apply kept_write, both_writable. }
    apply tri_then. eapply tri_weaken; [exact (P z Bz)|intros w Hw; apply Hw|].
    intros w o Hw. cbv beta in Hw.
    destruct o as [u| | |]; [|split; apply Hw ..].
    destruct Hw as (((W1 & ((p & W2) & W3) & WL) & (d' & W4 & _)) & (b' & W5 & _)).
    apply tri_then. apply tri_call; auto.
    { unfold sys_close. rewrite W2. exact W1. }
    unfold sys_close. rewrite W2. cbn [fst snd]. apply tri_ret; [exact W1|].
    split; [exact W1|]. split; [exists d'; exact W4|exists b'; exact W5].
  Qed.

  Lemma replace_any off x : frame two s0 x -> (exists d, dir_get (f_dir x) dn = Some (EFile d)) ->
    (exists b, dir_get (f_dir x) bn = Some (EFile b)) -> exists y r, run (replace_files a c off) x = (y, Ok r).
  Proof.
    intros F (d & Ed) (b & Eb). unfold replace_files.
    assert (E1 : dir_get (f_dir x) n = Some (EFile i)) by (rewrite (proj1 F) by apply two_n; exact En).
    set (x1 := with_dir x (dir_del (f_dir x) n)).
    assert (Q1 : sys_remove n x = (x1, Ok tt)) by (unfold sys_remove; now rewrite E1).
    rewrite (run_then _ _ _ _ _ (eq_trans (run_call _ _) Q1)).
    assert (S1 : forall e, n <> side n e) by (intros e X; symmetry in X; now apply side_neq in X).
    assert (Ed1 : dir_get (f_dir x1) dn = Some (EFile d)).
    { cbn [x1 with_dir f_dir]. rewrite dir_get_del, bytes_eqb_neq; auto. }
    assert (En1 : dir_get (f_dir x1) n = None).
    { cbn [x1 with_dir f_dir]. now rewrite dir_get_del, bytes_eqb_refl. }
    set (x2 := with_dir x1 (dir_set (dir_del (f_dir x1) dn) n (EFile d))).
    assert (Q2 : sys_rename dn n x1 = (x2, Ok tt)) by (unfold sys_rename; now rewrite Ed1, En1).
    rewrite (run_then _ _ _ _ _ (eq_trans (run_call _ _) Q2)).
    assert (Eb2 : dir_get (f_dir x2) bn = Some (EFile b)).
    { cbn [x2 with_dir f_dir]. rewrite dir_get_set, bytes_eqb_neq by auto. rewrite dir_get_del, bytes_eqb_neq by auto.
      cbn [x1 with_dir f_dir]. rewrite dir_get_del, bytes_eqb_neq; auto. }
    set (x3 := with_dir x2 (dir_del (f_dir x2) bn)).
    assert (Q3 : sys_remove bn x2 = (x3, Ok tt)) by (unfold sys_remove; now rewrite Eb2).
    rewrite (run_then _ _ _ _ _ (eq_trans (run_call _ _) Q3)).
    assert (En3 : dir_get (f_dir x3) n = Some (EFile d)).
    { cbn [x3 with_dir f_dir]. rewrite dir_get_del, bytes_eqb_neq by apply side_neq.
      cbn [x2 with_dir f_dir]. now rewrite dir_get_set, bytes_eqb_refl. }
    set (x4 := with_handles x3 (f_handles x3 ++ [Handle d 0 true])).
    assert (Q4 : sys_open n x3 = (x4, Ok (length (f_handles x3)))) by (unfold sys_open; now rewrite En3).
    rewrite (run_then _ _ _ _ _ (eq_trans (run_call _ _) Q4)). cbn [run]. eauto.
  Qed.

  Lemma update_any fuel r y : conns s0 -> f_locks s0 = [] ->
    run (update_database fuel a c r) s0 = (y, Err) ->
    frame two s0 y /\ conns y /\ f_locks y = [].
  Proof.
    intros C L. unfold update_database.
    assert (Q1 : sys_trylock n s0 = (with_locks s0 [i], Ok i)) by (unfold sys_trylock; rewrite En, L; reflexivity).
    rewrite (run_then _ _ _ _ _ (eq_trans (run_call _ _) Q1)). rewrite run_catch. cbn [run].
    assert (B1 : before_swap (with_locks s0 [i])).
    { split; [|split; [exact C|reflexivity]]. repeat split; auto. cbn [with_locks f_dir]. intros m k j Om Ok Em Ek.
      assert (m = k) by (eapply (proj2 V); eauto). subst. congruence. }
    unfold swap_files. unfold andthen. rewrite run_catch.
    pose proof (tri_run _ _ _ _ (prepare_any fuel r _ B1)) as P.
    destruct (run (prepare_files fuel a c r) (with_locks s0 [i])) as [z [off| | |]]; cbn [fst snd run] in *.
    - destruct P as (P1 & P2 & P3). destruct (replace_any off z P1 P2 P3) as (w & q & E). rewrite E. discriminate.
    - intros [= <-]. destruct P as (P1 & P2 & P3). split; [exact P1|]. split; [exact P2|].
      cbn [sys_unlock with_locks f_locks]. rewrite P3. cbn [filter]. now rewrite Nat.eqb_refl.
    - discriminate.
    - discriminate.
  Qed.
End Failed.
