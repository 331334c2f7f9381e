(** The commit program: result, crash points, frame. *)
From Coq Require Import List ZArith NArith Lia Bool.
From Coq Require Import Init.Byte Strings.Byte.
From Verif Require Import Base BaseLemmas HashModel HashProofs SpecHash HashTreeModel HashTreeProofs
  RefModel RefProofs SpecRef DbModel SpecDb DbRefProofs DbFsProofs.
Import ListNotations.

Lemma tri_copy s0 d w (C : fsys -> Prop) (Q : fsys -> outcome unit -> Prop) :
  d < length (f_data s0) -> f_faults s0 = [] ->
  (forall k, k <= length w -> C (set_data s0 d (firstn k w))) ->
  Q (set_data s0 d w) (Ok tt) ->
  tri (match w with [] => Ret (Ok tt) | _ => p_write d 0 w end) (set_data s0 d []) C Q.
Proof.
  intros L F HC HQ. destruct w as [|x w].
  - apply tri_ret; auto. apply (HC 0). lia.
  - change 0 with (length (@nil byte)). now apply tri_write.
Qed.

Section Commit.
  Variable a : dbapp.
  Variable c : ctx.
  Variable r : reference.
  Variable s : fsys.
  (** The inode read by the context and the inode at the database's name. *)
  Variables i i' : nat.

  Let n := x_name c.
  Let dn := side n (a_dst a).
  Let bn := side n (a_bck a).
  Let old := data_of s i.
  Let cur := data_of s i'.
  Let area := skipn (Z.to_nat (x_off c)) old.
  Let refd := reference_to_content r.

  (** The part of the old data that the commit copies. *)
  Definition copied : bytes :=
    match x_ref c with
    | None => []
    | Some _ => kept (make_chunk (a_chunk a) (zlen area)) area
    end.

  Definition newfile : bytes := refd ++ copied ++ batch_data (x_pending c).

  Hypothesis Hext : a_dst a <> a_bck a.
  Hypothesis Hok : fs_ok s.
  Hypothesis Hff : f_faults s = [].
  Hypothesis Hn : dir_get (f_dir s) n = Some (EFile i').
  Hypothesis Hi : i < length (f_data s) /\ dir_get (f_dir s) dn <> Some (EFile i) /\
                  dir_get (f_dir s) bn <> Some (EFile i).
  Hypothesis Hconn : nth_error (f_handles s) (x_conn c) = Some (Handle i 0 true).
  Hypothesis Hlock : existsb (Nat.eqb i') (f_locks s) = false.
  Hypothesis Hdn : dir_get (f_dir s) dn <> Some EDir.
  Hypothesis Hbn : dir_get (f_dir s) bn <> Some EDir.
  Hypothesis Hlen : (zlen old < two63)%Z.
  Hypothesis Href : x_ref c <> None ->
    (0 < a_chunk a)%Z /\ (0 <= x_off c < zlen old)%Z.

  Definition crash_ok (x : fsys) : Prop :=
    (file_at x n = Some cur \/ file_at x n = Some newfile \/
     (nothing_at x n /\ file_at x dn = Some newfile /\ file_at x bn = Some old)) /\
    (forall m, m <> n -> m <> dn -> m <> bn -> file_at x m = file_at s m) /\
    fs_ok x /\ f_faults x = [] /\
    (dir_get (f_dir x) dn <> Some EDir /\ dir_get (f_dir x) bn <> Some EDir).

  Definition post (x : fsys) (o : outcome (nat * Z)) : Prop :=
    o = Ok (length (f_handles s), zlen refd) /\
    exists d,
      (forall m, dir_get (f_dir x) m =
         if bytes_eqb n m then Some (EFile d)
         else if bytes_eqb dn m then None else if bytes_eqb bn m then None else dir_get (f_dir s) m) /\
      data_of x d = newfile /\
      (forall j, j < length (f_data s) -> dir_get (f_dir s) dn <> Some (EFile j) ->
                 dir_get (f_dir s) bn <> Some (EFile j) -> j <> d /\ data_of x j = data_of s j) /\
      f_handles x = set_nth (f_handles s) (x_conn c) (Handle i (length old) false) ++ [Handle d 0 true] /\
      f_faults x = [] /\ length (f_data s) <= length (f_data x) /\ fs_ok x.

  Let n_dn : n <> dn. Proof. intros E. symmetry in E. now apply side_neq in E. Qed.
  Let n_bn : n <> bn. Proof. intros E. symmetry in E. now apply side_neq in E. Qed.
  Let dn_bn : dn <> bn. Proof. intros E. apply side_inj in E. congruence. Qed.

  Let data_same (x y : fsys) : f_data x = f_data y -> forall j, data_of x j = data_of y j.
  Proof. intros E j. unfold data_of. now rewrite E. Qed.

  Lemma set_data_fs_ok x j w : fs_ok x -> fs_ok (set_data x j w).
  Proof. intros (V & I). split; cbn; [|exact I]. intros m k E. rewrite set_nth_length. eapply V; eauto. Qed.

  Lemma fs_ok_del x m : fs_ok x -> fs_ok (with_dir x (dir_del (f_dir x) m)).
  Proof.
    intros (V & I). split; cbn [f_dir f_data with_dir].
    - intros q j. rewrite dir_get_del. destruct (bytes_eqb m q); [discriminate|]. apply V.
    - intros q q' j. rewrite !dir_get_del. destruct (bytes_eqb m q), (bytes_eqb m q'); try discriminate. apply I.
  Qed.

  Lemma fs_ok_rename x f t d : fs_ok x -> dir_get (f_dir x) f = Some (EFile d) ->
    fs_ok (with_dir x (dir_set (dir_del (f_dir x) f) t (EFile d))).
  Proof.
    intros (V & I) E. split; cbn [f_dir f_data with_dir].
    - intros q j. rewrite dir_get_set, dir_get_del. destruct (bytes_eqb t q).
      + intros X. inversion X; subst. eapply V; eauto.
      + destruct (bytes_eqb f q); [discriminate|]. apply V.
    - intros q q' j. rewrite !dir_get_set, !dir_get_del.
      destruct (bytes_eqb t q) eqn:X1, (bytes_eqb t q') eqn:X2.
      + apply bytes_eqb_true in X1, X2. congruence.
      + destruct (bytes_eqb f q') eqn:X3; [discriminate|]. intros Y1 Y2. inversion Y1; subst.
        apply bytes_eqb_false in X3. exfalso. apply X3. eapply I; eauto.
      + destruct (bytes_eqb f q) eqn:X3; [discriminate|]. intros Y1 Y2. inversion Y2; subst.
        apply bytes_eqb_false in X3. exfalso. apply X3. eapply I; eauto.
      + destruct (bytes_eqb f q), (bytes_eqb f q'); try discriminate. apply I.
  Qed.

  Let copied_area : x_ref c <> None -> (0 < make_chunk (a_chunk a) (zlen area) <= zlen area)%Z /\ zlen area = (zlen old - x_off c)%Z.
  Proof.
    intros N. destruct (Href N) as (P & L).
    assert (Za : zlen area = (zlen old - x_off c)%Z).
    { unfold area. rewrite skipn_zlen; [lia|]. unfold zlen in L. lia. }
    split; auto. unfold make_chunk. destruct (Z.ltb_spec (zlen area) (a_chunk a)); lia.
  Qed.

  (** Writing the destination file. *)
  Lemma destination_tri s1 d fuel (C : fsys -> Prop) (Q : fsys -> outcome Z -> Prop) :
    length old < fuel ->
    d < length (f_data s1) -> data_of s1 d = [] -> d <> i -> data_of s1 i = old ->
    f_faults s1 = [] -> nth_error (f_handles s1) (x_conn c) = Some (Handle i 0 true) ->
    (forall w v, w ++ v = newfile -> C (set_data s1 d w)) ->
    Q (set_data s1 d newfile) (Ok (zlen refd)) ->
    tri (let* _ <- p_write d 0 refd;
         let* woff <-
           match x_ref c with
           | None => Ret (Ok (length refd))
           | Some _ =>
             let* size <- call (fun s => (s,
               match nth_error (f_handles s) (x_conn c) with
               | Some (Handle i _ true) => Ok (zlen (data_of s i))
               | _ => Panic
               end));
             let chunk := make_chunk (a_chunk a) (u64 (size - x_off c)) in
             if (two63 <=? chunk)%Z then Ret Panic
             else copy_loop fuel (x_conn c) chunk (x_off c) d (length refd)
           end;
         let* _ <- write_pending d woff (x_pending c);
         Ret (Ok (zlen refd))) s1 C Q.
  Proof.
    intros Lf Ld Ed Nd Ei Ff Eh HC HQ.
    rewrite <- (set_data_id s1 d) at 1. rewrite Ed.
    assert (HW : forall x w z k, x ++ w ++ z = newfile -> C (set_data s1 d (x ++ firstn k w))).
    { intros x w z k E. apply (HC _ (skipn k w ++ z)). rewrite <- E. rewrite <- app_assoc. f_equal.
      rewrite app_assoc. now rewrite firstn_skipn. }
    apply tri_then. change 0 with (length (@nil byte)) at 1. apply tri_write; auto.
    { intros k _. exact (HW [] refd _ k eq_refl). }
    cbn [app]. apply tri_then.
    assert (Fin : tri (write_pending d (length (refd ++ copied)) (x_pending c))
              (set_data s1 d (refd ++ copied)) C
              (fun s' o => match o with
                 | Ok a => tri (Ret (Ok (zlen refd))) s' C Q
                 | Err => C s' /\ Q s' Err
                 | Panic => C s' /\ Q s' Panic | Fuel => C s' /\ Q s' Fuel end)).
    { apply write_pending_tri; auto.
      - intros k. apply (HW _ _ [] k). rewrite app_nil_r, <- app_assoc. reflexivity.
      - rewrite <- app_assoc. apply tri_ret; [|exact HQ]. apply (HC _ []). apply app_nil_r. }
    assert (Hr : C (set_data s1 d refd)) by (apply (HC _ (copied ++ batch_data (x_pending c))); reflexivity).
    destruct (x_ref c) as [r0|] eqn:Er.
    - assert (N : Some r0 <> None) by discriminate.
      destruct (copied_area N) as (Pk & Za).
      destruct (Href N) as (Pc & Lo).
      apply tri_then. apply tri_call; [exact Hr|exact Hr|]. cbn [fst snd].
      assert (Eh' : nth_error (f_handles (set_data s1 d refd)) (x_conn c) = Some (Handle i 0 true)) by exact Eh.
      rewrite Eh'. rewrite data_set_other by auto. rewrite Ei.
      rewrite u64_small by (rewrite two63_val, two64_val in *; lia).
      rewrite <- Za.
      replace (two63 <=? make_chunk (a_chunk a) (zlen area))%Z with false by (symmetry; apply Z.leb_gt; lia).
      replace (x_off c) with (Z.of_nat (Z.to_nat (x_off c))) by lia.
      assert (Ea : skipn (Z.to_nat (x_off c)) (data_of s1 i) = area) by (rewrite Ei; reflexivity).
      apply (copy_loop_tri s1 (x_conn c) i 0 d); auto; try lia.
      + rewrite Ei. unfold zlen in Lo. lia.
      + rewrite Ea. unfold area. rewrite skipn_length. lia.
      + intros k. rewrite Ea. apply (HW _ _ (batch_data (x_pending c)) k). unfold newfile, copied. now rewrite Er.
      + rewrite Ea. unfold copied in Fin. rewrite Er in Fin. apply tri_then. exact Fin.
    - apply tri_ret; auto. apply tri_then. unfold copied in Fin. rewrite Er, app_nil_r in Fin. exact Fin.
  Qed.

  Lemma file_at_same x y m : dir_get (f_dir x) m = dir_get (f_dir y) m ->
    (forall j, dir_get (f_dir y) m = Some (EFile j) -> data_of x j = data_of y j) ->
    file_at x m = file_at y m.
  Proof.
    intros E1 E2. unfold file_at. rewrite E1. destruct (dir_get (f_dir y) m) as [[j|]|]; auto.
    f_equal. now apply E2.
  Qed.

  Lemma file_at_ino x m j : dir_get (f_dir x) m = Some (EFile j) -> file_at x m = Some (data_of x j).
  Proof. intros E. unfold file_at. now rewrite E. Qed.

  Let dn_n : dn <> n. Proof. auto. Qed.
  Let bn_n : bn <> n. Proof. auto. Qed.

  (** States in which the three names stand for these inodes. *)
  Definition mid (x : fsys) (en ed eb : option entry) (d b : option nat) : Prop :=
    (forall m, dir_get (f_dir x) m =
       if bytes_eqb n m then en else if bytes_eqb dn m then ed else if bytes_eqb bn m then eb
       else dir_get (f_dir s) m) /\
    (forall j, Some j <> d -> Some j <> b -> data_of x j = data_of s j).

  Lemma mid_n x en ed eb d b : mid x en ed eb d b -> dir_get (f_dir x) n = en.
  Proof. intros (E & _). rewrite E. now rewrite bytes_eqb_refl. Qed.
  Lemma mid_dn x en ed eb d b : mid x en ed eb d b -> dir_get (f_dir x) dn = ed.
  Proof. intros (E & _). rewrite E. rewrite (bytes_eqb_neq n dn) by auto. now rewrite bytes_eqb_refl. Qed.
  Lemma mid_bn x en ed eb d b : mid x en ed eb d b -> dir_get (f_dir x) bn = eb.
  Proof.
    intros (E & _). rewrite E. rewrite (bytes_eqb_neq n bn), (bytes_eqb_neq dn bn) by auto.
    now rewrite bytes_eqb_refl.
  Qed.

  (** Inodes that the commit may write to: those of the two side files, or new ones. *)
  Definition own (m : bytes) (o : option nat) : Prop :=
    forall d, o = Some d -> dir_get (f_dir s) m = Some (EFile d) \/ length (f_data s) <= d.

  Lemma mid_others x en ed eb d b : mid x en ed eb d b -> own dn d -> own bn b ->
    forall m, m <> n -> m <> dn -> m <> bn -> file_at x m = file_at s m.
  Proof.
    intros (E & D) Od Ob m N1 N2 N3. destruct Hok as (V & I). apply file_at_same.
    - rewrite E. now rewrite !bytes_eqb_neq by congruence.
    - intros j Ej. apply D.
      + intros X. destruct (Od j (eq_sym X)) as [Y|Y]; [apply N2; eapply I; eauto|apply V in Ej; lia].
      + intros X. destruct (Ob j (eq_sym X)) as [Y|Y]; [apply N3; eapply I; eauto|apply V in Ej; lia].
  Qed.

  Lemma i'_not_own m d : m <> n -> own m (Some d) -> d <> i'.
  Proof.
    intros N O ->. destruct Hok as (V & I). destruct (O i' eq_refl) as [Y|Y].
    - apply N. eapply I; eauto.
    - apply V in Hn. lia.
  Qed.

  Lemma i_not_dn d : own dn (Some d) -> d <> i.
  Proof. intros O ->. destruct Hi as (L & A & _). destruct (O i eq_refl); [congruence|lia]. Qed.

  Lemma i_not_bn d : own bn (Some d) -> d <> i.
  Proof. intros O ->. destruct Hi as (L & _ & A). destruct (O i eq_refl); [congruence|lia]. Qed.

  Lemma crash_old x ed eb d b : mid x (Some (EFile i')) ed eb d b -> own dn d -> own bn b ->
    fs_ok x -> f_faults x = [] -> ed <> Some EDir -> eb <> Some EDir -> crash_ok x.
  Proof.
    intros M Od Ob K Fx Ne Nb. split; [|split; [eapply mid_others; eauto|split; [auto|split; [auto|]]];
      now rewrite (mid_dn _ _ _ _ _ _ M), (mid_bn _ _ _ _ _ _ M)].
    left. rewrite (file_at_ino x n i') by (eapply mid_n; eauto). f_equal.
    destruct M as (_ & D). apply D.
    - intros E. symmetry in E. subst d. eapply (i'_not_own dn i'); auto.
    - intros E. symmetry in E. subst b. eapply (i'_not_own bn i'); auto.
  Qed.

  Lemma crash_new x d ed eb b : mid x (Some (EFile d)) ed eb (Some d) b -> data_of x d = newfile ->
    own dn (Some d) -> own bn b -> fs_ok x -> f_faults x = [] -> ed <> Some EDir -> eb <> Some EDir -> crash_ok x.
  Proof.
    intros M Ed Od Ob K Fx Ne Nb. split; [|split; [eapply mid_others; eauto|split; [auto|split; [auto|]]];
      now rewrite (mid_dn _ _ _ _ _ _ M), (mid_bn _ _ _ _ _ _ M)].
    right; left. rewrite (file_at_ino x n d) by (eapply mid_n; eauto). now f_equal.
  Qed.

  Lemma crash_gap x d b : mid x None (Some (EFile d)) (Some (EFile b)) (Some d) (Some b) ->
    data_of x d = newfile -> data_of x b = old -> own dn (Some d) -> own bn (Some b) ->
    fs_ok x -> f_faults x = [] -> crash_ok x.
  Proof.
    intros M Ed Eb Od Ob K Fx. split; [|split; [eapply mid_others; eauto|split; [auto|split; [auto|]]];
      rewrite (mid_dn _ _ _ _ _ _ M), (mid_bn _ _ _ _ _ _ M); split; discriminate].
    right; right. repeat split.
    - eapply mid_n; eauto.
    - rewrite (file_at_ino x dn d) by (eapply mid_dn; eauto). now f_equal.
    - rewrite (file_at_ino x bn b) by (eapply mid_bn; eauto). now f_equal.
  Qed.

  Lemma mid_set x en ed eb d b j w : mid x en ed eb d b -> (Some j = d \/ Some j = b) ->
    mid (set_data x j w) en ed eb d b.
  Proof.
    intros (E & D) J. split; [exact E|]. intros k Nd Nb. rewrite data_set_other; auto.
    intros ->. destruct J; congruence.
  Qed.

  Lemma mid_handles x en ed eb d b h : mid x en ed eb d b -> mid (with_handles x h) en ed eb d b.
  Proof. intros (E & D). split; auto. Qed.

  Lemma fs_ok_handles x h : fs_ok x -> fs_ok (with_handles x h).
  Proof. auto. Qed.

  (** What holds before the source is removed. *)
  Definition prepared (x0 x : fsys) (d b : nat) : Prop :=
    mid x (Some (EFile i')) (Some (EFile d)) (Some (EFile b)) (Some d) (Some b) /\
    own dn (Some d) /\ own bn (Some b) /\ d <> b /\
    data_of x d = newfile /\ data_of x b = old /\
    d < length (f_data x) /\ b < length (f_data x) /\
    f_handles x = set_nth (f_handles s) (x_conn c) (Handle i (length old) false) /\
    f_faults x = [] /\ length (f_data s) <= length (f_data x) /\ f_locks x = f_locks x0 /\ fs_ok x.

  Lemma prepare_tri x0 fuel : length old < fuel ->
    mid x0 (Some (EFile i')) (dir_get (f_dir s) dn) (dir_get (f_dir s) bn) None None ->
    f_data x0 = f_data s -> f_handles x0 = f_handles s -> f_faults x0 = [] -> fs_ok x0 ->
    tri (prepare_files fuel a c r) x0 crash_ok
      (fun x o => crash_ok x /\ o = Ok (zlen refd) /\ exists d b, prepared x0 x d b).
  Proof.
    intros Lf M0 E0d E0h E0f K0.
    assert (O0 : forall m, own m None) by (intros m d Ed; discriminate).
    assert (C0 : crash_ok x0) by (eapply crash_old; eauto).
    unfold prepare_files. apply tri_then. unfold write_destination. apply tri_then.
    (* the destination file *)
    destruct (sys_create_spec dn x0 K0) as (s1 & d & Ec & Dir1 & Dd & Do & Ll & Ld & Eh & El & Ef & Orig & K1).
    { now rewrite (mid_dn _ _ _ _ _ _ M0). }
    fold n. fold dn.
    assert (Od : own dn (Some d)).
    { intros d' E'. inversion E'; subst d'. rewrite (mid_dn _ _ _ _ _ _ M0), E0d in Orig.
      destruct Orig as [Y|(Y & ->)]; [now left|right; lia]. }
    assert (M1 : mid s1 (Some (EFile i')) (Some (EFile d)) (dir_get (f_dir s) bn) (Some d) None).
    { split.
      - intros m. rewrite Dir1. destruct M0 as (E0 & _). rewrite E0.
        destruct (bytes_eqb dn m) eqn:X; auto. apply bytes_eqb_true in X. subst m.
        now rewrite (bytes_eqb_neq n dn) by auto.
      - intros j Nj _. rewrite Do by congruence. apply M0; congruence. }
    assert (Ni : d <> i) by (now apply i_not_dn).
    apply tri_call; rewrite ?Ec; cbn [fst snd]; auto.
    { eapply crash_old; eauto; [congruence|discriminate]. }
    apply (destination_tri s1 d fuel); auto; try congruence.
    { destruct M1 as (_ & D1). apply D1; congruence. }
    { intros w v _. eapply crash_old; [apply mid_set; [exact M1|]|exact Od|apply O0|now apply set_data_fs_ok|cbn; congruence|discriminate|auto]. auto. }
    (* the backup file *)
    set (s2 := set_data s1 d newfile).
    assert (M2 : mid s2 (Some (EFile i')) (Some (EFile d)) (dir_get (f_dir s) bn) (Some d) None)
      by (apply mid_set; auto).
    assert (K2 : fs_ok s2) by (now apply set_data_fs_ok).
    assert (L2 : length (f_data s2) = length (f_data s1)) by apply set_nth_length.
    assert (D2 : data_of s2 d = newfile) by (now apply data_set_same).
    assert (C2 : crash_ok s2) by (eapply crash_old; eauto; [cbn; congruence|discriminate]).
    destruct (sys_create_spec bn s2 K2) as (s3 & b & Ec3 & Dir3 & Db & Do3 & Ll3 & Ld3 & Eh3 & El3 & Ef3 & Orig3 & K3).
    { now rewrite (mid_bn _ _ _ _ _ _ M2). }
    assert (Ob : own bn (Some b)).
    { intros b' E'. inversion E'; subst b'. rewrite (mid_bn _ _ _ _ _ _ M2) in Orig3.
      destruct Orig3 as [Y|(Y & ->)]; [now left|right]. rewrite L2, <- E0d. lia. }
    assert (Nb : b <> i) by (now apply i_not_bn).
    assert (Ndb : d <> b).
    { intros ->. destruct Orig3 as [Y|(Y & E')].
      - pose proof (mid_dn _ _ _ _ _ _ M2) as Z2. destruct K2 as (_ & I2). apply dn_bn. eapply I2; eauto.
      - lia. }
    assert (M3 : mid s3 (Some (EFile i')) (Some (EFile d)) (Some (EFile b)) (Some d) (Some b)).
    { split.
      - intros m. rewrite Dir3. destruct M2 as (E2 & _). rewrite E2.
        destruct (bytes_eqb bn m) eqn:X; auto. apply bytes_eqb_true in X. subst m.
        now rewrite (bytes_eqb_neq n bn), (bytes_eqb_neq dn bn) by auto.
      - intros j Nj Nj'. rewrite Do3 by congruence. apply M2; congruence. }
    assert (C3 : crash_ok s3) by (eapply crash_old; eauto; [rewrite Ef3; cbn; congruence|discriminate|discriminate]).
    apply tri_then. fold n. fold bn. apply tri_call; rewrite ?Ec3; cbn [fst snd]; auto.
    (* the copy *)
    apply tri_then. unfold p_copy. apply tri_then.
    assert (Hh3 : nth_error (f_handles s3) (x_conn c) = Some (Handle i 0 true)).
    { rewrite Eh3. unfold s2; cbn. rewrite Eh. now rewrite E0h. }
    assert (Hi3 : data_of s3 i = old) by (apply M3; congruence).
    set (hs := set_nth (f_handles s3) (x_conn c) (Handle i (length old) true)).
    set (s4 := with_handles s3 hs).
    assert (M4 : mid s4 (Some (EFile i')) (Some (EFile d)) (Some (EFile b)) (Some d) (Some b))
      by (now apply mid_handles).
    assert (D4 : data_of s4 d = newfile).
    { change (data_of s3 d = newfile). now rewrite Do3. }
    assert (Lc : x_conn c < length (f_handles s3)) by (apply nth_error_Some; congruence).
    assert (Fin : tri (
        let* _ <- call (sys_close (x_conn c));
        Ret (Ok (zlen refd))) (set_data s4 b old) crash_ok
        (fun x o => crash_ok x /\ o = Ok (zlen refd) /\ exists d b, prepared x0 x d b)).
    { set (s5 := set_data s4 b old).
      assert (M5 : mid s5 (Some (EFile i')) (Some (EFile d)) (Some (EFile b)) (Some d) (Some b))
        by (apply mid_set; auto).
      assert (D5 : data_of s5 d = newfile) by (unfold s5; now rewrite data_set_other by auto).
      assert (B5 : data_of s5 b = old) by (now apply data_set_same).
      assert (C5 : crash_ok s5) by (eapply crash_old; eauto; [now apply set_data_fs_ok|cbn; rewrite Ef3; cbn; congruence|discriminate|discriminate]).
      assert (Hc5 : nth_error (f_handles s5) (x_conn c) = Some (Handle i (length old) true)).
      { change (nth_error hs (x_conn c) = Some (Handle i (length old) true)).
        unfold hs. rewrite nth_error_set_nth by auto. now rewrite Nat.eqb_refl. }
      assert (E6 : sys_close (x_conn c) s5 =
        (with_handles s5 (set_nth (f_handles s5) (x_conn c) (Handle i (length old) false)), Ok tt))
        by (unfold sys_close; now rewrite Hc5).
      set (s6 := with_handles s5 _) in *.
      assert (M6 : mid s6 (Some (EFile i')) (Some (EFile d)) (Some (EFile b)) (Some d) (Some b))
        by (now apply mid_handles).
      assert (C6 : crash_ok s6) by (eapply crash_old; eauto; [now apply set_data_fs_ok|cbn; rewrite Ef3; cbn; congruence|discriminate|discriminate]).
      apply tri_then. apply tri_call; rewrite ?E6; cbn [fst snd]; auto.
      apply tri_ret; auto. split; [auto|]. split; [auto|]. exists d, b.
      assert (Hs6 : f_handles s6 = set_nth (f_handles s) (x_conn c) (Handle i (length old) false)).
      { change (f_handles s6) with (set_nth hs (x_conn c) (Handle i (length old) false)).
        unfold hs. rewrite set_nth_set_nth. f_equal. rewrite Eh3. unfold s2; cbn. congruence. }
      assert (Hd6 : length (f_data s6) = length (f_data s3)).
      { change (length (set_nth (f_data s3) b old) = length (f_data s3)). apply set_nth_length. }
      split; [exact M6|]. split; [exact Od|]. split; [exact Ob|]. split; [exact Ndb|].
      split; [exact D5|]. split; [exact B5|]. rewrite Hd6. split; [lia|]. split; [lia|].
      split; [exact Hs6|]. split; [|split; [|split]].
      + change (f_faults s6) with (f_faults s3). rewrite Ef3. unfold s2; cbn. congruence.
      + rewrite <- E0d. lia.
      + change (f_locks s6) with (f_locks s3). rewrite El3. unfold s2; cbn. congruence.
      + now apply (set_data_fs_ok s4). }
    apply tri_call; auto; rewrite ?Hh3; cbn [fst snd skipn Nat.add]; rewrite Hi3.
    { eapply (crash_old s4); eauto; [cbn; rewrite Ef3; cbn; congruence|discriminate|discriminate]. }
    fold hs. fold s4. fold n. fold dn. fold bn.
    assert (W4 : set_data s4 b [] = s4).
    { rewrite <- (set_data_id s4 b) at 2. f_equal. symmetry. exact Db. }
    rewrite <- W4. apply tri_copy; auto.
    + change (f_faults s4) with (f_faults s3). rewrite Ef3. unfold s2; cbn. congruence.
    + intros k Hk. eapply crash_old; [apply mid_set; [exact M4|]|exact Od|exact Ob|now apply set_data_fs_ok|cbn; rewrite Ef3; cbn; congruence|discriminate|discriminate]. auto.
  Qed.

  (** The inode of the destination: its bytes are the ones from before, or the first ones of the new file. *)
  Definition dest_ino (d : nat) : Prop :=
    dir_get (f_dir s) dn = Some (EFile d) \/ (dir_get (f_dir s) dn = None /\ d = length (f_data s)).
  Definition grown (d : nat) (x : fsys) : Prop :=
    data_of x d = data_of s d \/ exists v, data_of x d ++ v = newfile.

  Lemma growth_tri x0 fuel d : length old < fuel ->
    mid x0 (Some (EFile i')) (dir_get (f_dir s) dn) (dir_get (f_dir s) bn) None None ->
    f_data x0 = f_data s -> f_handles x0 = f_handles s -> f_faults x0 = [] -> fs_ok x0 -> dest_ino d ->
    tri (prepare_files fuel a c r) x0 (grown d) (fun x _ => dir_get (f_dir x) dn = Some (EFile d)) /\
    exists x, In x (states (prepare_files fuel a c r) x0) /\ data_of x d = [] /\ d < length (f_data x).
  Proof.
    intros Lf M0 E0d E0h E0f K0 Di.
    assert (C0 : grown d x0) by (left; now apply data_same).
    unfold prepare_files.
    destruct (sys_create_spec dn x0 K0) as (s1 & d' & Ec & Dir1 & Dd & Do & Ll & Ld & Eh & El & Ef & Orig & K1).
    { now rewrite (mid_dn _ _ _ _ _ _ M0). }
    assert (d' = d) as ->.
    { rewrite (mid_dn _ _ _ _ _ _ M0), E0d in Orig. unfold dest_ino in Di.
      destruct Orig as [Y|(Y & ->)], Di as [Z|(Z & ->)]; congruence. }
    assert (Od : own dn (Some d)).
    { intros d' E'. inversion E'; subst d'. destruct Di as [Y|(Y & ->)]; [now left|right; lia]. }
    assert (Ni : d <> i) by (now apply i_not_dn).
    assert (G1 : forall y w v, data_of y d = w -> w ++ v = newfile -> grown d y) by (intros y w v E1 E2; right; exists v; now rewrite E1).
    split.
    2:{ exists s1. split; [|auto]. apply states_catch_l. unfold write_destination. fold n. fold dn.
        eapply states_then; [rewrite run_call; exact Ec|]. apply states_head. }
    apply tri_then. unfold write_destination. apply tri_then. fold n. fold dn.
    assert (M1 : mid s1 (Some (EFile i')) (Some (EFile d)) (dir_get (f_dir s) bn) (Some d) None).
    { split.
      - intros m. rewrite Dir1. destruct M0 as (E0 & _). rewrite E0.
        destruct (bytes_eqb dn m) eqn:X; auto. apply bytes_eqb_true in X. subst m.
        now rewrite (bytes_eqb_neq n dn) by auto.
      - intros j Nj _. rewrite Do by congruence. apply M0; congruence. }
    apply tri_call; rewrite ?Ec; cbn [fst snd]; auto.
    { now apply (G1 s1 [] newfile). }
    apply (destination_tri s1 d fuel); auto; try congruence.
    { destruct M1 as (_ & D1). apply D1; congruence. }
    { intros w v E. apply (G1 _ w v); auto. now apply data_set_same. }
    set (s2 := set_data s1 d newfile).
    assert (M2 : mid s2 (Some (EFile i')) (Some (EFile d)) (dir_get (f_dir s) bn) (Some d) None)
      by (apply mid_set; auto).
    assert (K2 : fs_ok s2) by (now apply set_data_fs_ok).
    assert (L2 : length (f_data s2) = length (f_data s1)) by apply set_nth_length.
    assert (D2 : data_of s2 d = newfile) by (now apply data_set_same).
    assert (Full : forall y, data_of y d = newfile -> grown d y) by (intros y E; apply (G1 y newfile []); auto; apply app_nil_r).
    destruct (sys_create_spec bn s2 K2) as (s3 & b & Ec3 & Dir3 & Db & Do3 & Ll3 & Ld3 & Eh3 & El3 & Ef3 & Orig3 & K3).
    { now rewrite (mid_bn _ _ _ _ _ _ M2). }
    assert (Ndb : d <> b).
    { intros ->. destruct Orig3 as [Y|(Y & E')].
      - pose proof (mid_dn _ _ _ _ _ _ M2) as Z2. destruct K2 as (_ & I2). apply dn_bn. eapply I2; eauto.
      - lia. }
    assert (D3 : data_of s3 d = newfile) by (now rewrite Do3).
    assert (N3 : dir_get (f_dir s3) dn = Some (EFile d)).
    { rewrite Dir3. rewrite (bytes_eqb_neq bn dn) by auto. exact (mid_dn _ _ _ _ _ _ M2). }
    apply tri_then. fold n. fold bn. apply tri_call; rewrite ?Ec3; cbn [fst snd]; auto.
    apply tri_then. unfold p_copy. apply tri_then.
    assert (Hh3 : nth_error (f_handles s3) (x_conn c) = Some (Handle i 0 true)).
    { rewrite Eh3. unfold s2; cbn. rewrite Eh. now rewrite E0h. }
    set (dt := data_of s3 i).
    set (hs := set_nth (f_handles s3) (x_conn c) (Handle i (length dt) true)).
    set (s4 := with_handles s3 hs).
    assert (Lc : x_conn c < length (f_handles s3)) by (apply nth_error_Some; congruence).
    assert (Fin : tri (
        let* _ <- call (sys_close (x_conn c));
        Ret (Ok (zlen refd))) (set_data s4 b dt) (grown d)
        (fun x _ => dir_get (f_dir x) dn = Some (EFile d))).
    { set (s5 := set_data s4 b dt).
      assert (D5 : data_of s5 d = newfile) by (unfold s5; now rewrite data_set_other by auto).
      assert (Hc5 : nth_error (f_handles s5) (x_conn c) = Some (Handle i (length dt) true)).
      { change (nth_error hs (x_conn c) = Some (Handle i (length dt) true)).
        unfold hs. rewrite nth_error_set_nth by auto. now rewrite Nat.eqb_refl. }
      assert (E6 : sys_close (x_conn c) s5 =
        (with_handles s5 (set_nth (f_handles s5) (x_conn c) (Handle i (length dt) false)), Ok tt))
        by (unfold sys_close; now rewrite Hc5).
      apply tri_then. apply tri_call; rewrite ?E6; cbn [fst snd]; auto.
      apply tri_ret; auto. }
    apply tri_call; auto; rewrite ?Hh3; cbn [fst snd skipn Nat.add]; fold dt.
    { now apply Full. }
    fold hs. fold s4.
    assert (W4 : set_data s4 b [] = s4).
    { rewrite <- (set_data_id s4 b) at 2. f_equal. symmetry. exact Db. }
    rewrite <- W4. apply tri_copy; auto.
    + change (f_faults s4) with (f_faults s3). rewrite Ef3. unfold s2; cbn. congruence.
    + intros k Hk. apply Full. now rewrite data_set_other by auto.
  Qed.

  Lemma replace_tri x0 s6 d b : prepared x0 s6 d b ->
    tri (replace_files a c (zlen refd)) s6 crash_ok (fun x o => post x o /\ f_locks x = f_locks x0).
  Proof.
    intros (M6 & Od & Ob & Ndb & D6 & B6 & Ld & Lb & H6 & F6 & L6 & K6 & KF).
      assert (C6 : crash_ok s6) by (eapply crash_old; eauto; discriminate).
      unfold replace_files. fold n. fold dn. fold bn.
      (* the removal of the source *)
      apply tri_then.
      assert (E7 : sys_remove n s6 = (with_dir s6 (dir_del (f_dir s6) n), Ok tt)).
      { unfold sys_remove. now rewrite (mid_n _ _ _ _ _ _ M6). }
      set (s7 := with_dir s6 (dir_del (f_dir s6) n)) in *.
      assert (M7 : mid s7 None (Some (EFile d)) (Some (EFile b)) (Some d) (Some b)).
      { split; [|apply M6]. intros m. change (f_dir s7) with (dir_del (f_dir s6) n). rewrite dir_get_del.
        destruct (bytes_eqb n m) eqn:X; auto. destruct M6 as (E6' & _). rewrite E6'. now rewrite X. }
      assert (K7 : fs_ok s7) by (now apply fs_ok_del).
      assert (C7 : crash_ok s7) by (eapply crash_gap; eauto).
      apply tri_call; rewrite ?E7; cbn [fst snd]; auto.
      (* the renaming *)
      apply tri_then.
      assert (E8 : sys_rename dn n s7 = (with_dir s7 (dir_set (dir_del (f_dir s7) dn) n (EFile d)), Ok tt)).
      { unfold sys_rename. rewrite (mid_dn _ _ _ _ _ _ M7). now rewrite (mid_n _ _ _ _ _ _ M7). }
      set (s8 := with_dir s7 (dir_set (dir_del (f_dir s7) dn) n (EFile d))) in *.
      assert (M8 : mid s8 (Some (EFile d)) None (Some (EFile b)) (Some d) (Some b)).
      { split; [|apply M7]. intros m. change (f_dir s8) with (dir_set (dir_del (f_dir s7) dn) n (EFile d)).
        rewrite dir_get_set, dir_get_del.
        destruct (bytes_eqb n m) eqn:X; auto. destruct (bytes_eqb dn m) eqn:X2; auto.
        destruct M7 as (E7' & _). rewrite E7'. now rewrite X, X2. }
      assert (K8 : fs_ok s8) by (eapply fs_ok_rename; [exact K7|eapply mid_dn; exact M7]).
      assert (C8 : crash_ok s8) by (eapply crash_new; eauto; discriminate).
      apply tri_call; rewrite ?E8; cbn [fst snd]; auto.
      (* the removal of the backup *)
      apply tri_then.
      assert (E9 : sys_remove bn s8 = (with_dir s8 (dir_del (f_dir s8) bn), Ok tt)).
      { unfold sys_remove. now rewrite (mid_bn _ _ _ _ _ _ M8). }
      set (s9 := with_dir s8 (dir_del (f_dir s8) bn)) in *.
      assert (M9 : mid s9 (Some (EFile d)) None None (Some d) (Some b)).
      { split; [|apply M8]. intros m. change (f_dir s9) with (dir_del (f_dir s8) bn). rewrite dir_get_del.
        destruct M8 as (E8' & _). rewrite E8'.
        destruct (bytes_eqb bn m) eqn:X; auto. apply bytes_eqb_true in X. subst m.
        rewrite (bytes_eqb_neq n bn), (bytes_eqb_neq dn bn) by auto. auto. }
      assert (K9 : fs_ok s9) by (now apply fs_ok_del).
      assert (C9 : crash_ok s9) by (eapply crash_new; eauto; discriminate).
      apply tri_call; rewrite ?E9; cbn [fst snd]; auto.
      (* the new connection *)
      apply tri_then.
      assert (E10 : sys_open n s9 = (with_handles s9 (f_handles s9 ++ [Handle d 0 true]), Ok (length (f_handles s9)))).
      { unfold sys_open. now rewrite (mid_n _ _ _ _ _ _ M9). }
      set (s10 := with_handles s9 _) in *.
      assert (M10 : mid s10 (Some (EFile d)) None None (Some d) (Some b)) by (now apply mid_handles).
      assert (C10 : crash_ok s10) by (eapply crash_new; eauto; discriminate).
      apply tri_call; rewrite ?E10; cbn [fst snd]; auto.
      apply tri_ret; auto.
      split; [split; [|exists d; repeat split]|].
      - f_equal. f_equal. change (f_handles s9) with (f_handles s6). rewrite H6. apply set_nth_length.
      - intros m. apply M10.
      - exact D6.
      - intros ->. specialize (Od d eq_refl). destruct Od; [congruence|lia].
      - apply M10; intros E'; inversion E'; subst j.
        + destruct (Od d eq_refl); [congruence|lia].
        + destruct (Ob b eq_refl); [congruence|lia].
      - change (f_handles s10) with (f_handles s6 ++ [Handle d 0 true]). now rewrite H6.
      - exact F6.
      - exact L6.
      - apply K9.
      - apply K9.
      - exact K6.
  Qed.

  Lemma swap_tri x0 fuel : length old < fuel ->
    mid x0 (Some (EFile i')) (dir_get (f_dir s) dn) (dir_get (f_dir s) bn) None None ->
    f_data x0 = f_data s -> f_handles x0 = f_handles s -> f_faults x0 = [] -> fs_ok x0 ->
    tri (swap_files fuel a c r) x0 crash_ok (fun x o => post x o /\ f_locks x = f_locks x0).
  Proof.
    intros Lf M0 E0d E0h E0f K0. unfold swap_files. apply tri_then.
    eapply tri_weaken; [apply prepare_tri; auto|auto|].
    cbv beta. intros x o (Cx & -> & d & b & P). now apply (replace_tri x0 x d b).
  Qed.

  Lemma update_database_tri fuel : length old < fuel ->
    tri (update_database fuel a c r) s crash_ok (fun x o => post x o /\ f_locks x = f_locks s).
  Proof.
    intros Lf. unfold update_database. fold n.
    assert (O0 : forall m, own m None) by (intros m d Ed; discriminate).
    assert (M0 : mid s (Some (EFile i')) (dir_get (f_dir s) dn) (dir_get (f_dir s) bn) None None).
    { split; auto. intros m. destruct (bytes_eqb n m) eqn:X; [apply bytes_eqb_true in X; now subst|].
      destruct (bytes_eqb dn m) eqn:X1; [apply bytes_eqb_true in X1; now subst|].
      destruct (bytes_eqb bn m) eqn:X2; [apply bytes_eqb_true in X2; now subst|]. auto. }
    apply tri_then.
    assert (El : sys_trylock n s = (with_locks s (i' :: f_locks s), Ok i')).
    { unfold sys_trylock. rewrite Hn. now rewrite Hlock. }
    apply tri_call; rewrite ?El; cbn [fst snd].
    { eapply crash_old; eauto. }
    { eapply (crash_old (with_locks s (i' :: f_locks s))); eauto. }
    apply tri_catch.
    assert (T := swap_tri (with_locks s (i' :: f_locks s)) fuel Lf M0 eq_refl eq_refl Hff Hok).
    assert (Ce : crash_ok (fst (run (swap_files fuel a c r) (with_locks s (i' :: f_locks s))))).
    { clear - T. destruct T as (F & _). revert F. generalize (with_locks s (i' :: f_locks s)).
      induction (swap_files fuel a c r) as [o|f IH] using prog_ind'; intros x F; cbn in *.
      - now inversion F.
      - specialize (IH x). destruct (f x). cbn in *. apply IH. now inversion F. }
    destruct T as (F & (P & L)). split; auto.
    set (x := fst (run _ _)) in *. set (o := snd (run _ _)) in *. clearbody x o.
    assert (Cu : crash_ok (sys_unlock i' x)) by exact Ce.
    apply tri_step; auto. cbn [fst snd]. apply tri_ret; auto.
    split; [exact P|]. cbn. rewrite L. cbn. rewrite Nat.eqb_refl. cbn.
    clear - Hlock. induction (f_locks s) as [|j l IH]; cbn in *; auto.
    apply orb_false_iff in Hlock as (A & B). rewrite A. cbn. f_equal. auto.
  Qed.

  (** There is a point where the database's name is free although the lock is held. *)
  Lemma gap_state fuel : length old < fuel ->
    exists x, In x (states (update_database fuel a c r) s) /\ nothing_at x n /\
      file_at x dn = Some newfile /\ file_at x bn = Some old /\ In i' (f_locks x) /\ crash_ok x.
  Proof.
    intros Lf. pose proof (update_database_tri fuel Lf) as (Call & _). rewrite Forall_forall in Call.
    assert (El : sys_trylock n s = (with_locks s (i' :: f_locks s), Ok i')).
    { unfold sys_trylock. rewrite Hn. now rewrite Hlock. }
    set (x0 := with_locks s (i' :: f_locks s)) in *.
    assert (M0 : mid x0 (Some (EFile i')) (dir_get (f_dir s) dn) (dir_get (f_dir s) bn) None None).
    { split; auto. intros m. change (f_dir x0) with (f_dir s).
      destruct (bytes_eqb n m) eqn:X; [apply bytes_eqb_true in X; now subst|].
      destruct (bytes_eqb dn m) eqn:X1; [apply bytes_eqb_true in X1; now subst|].
      destruct (bytes_eqb bn m) eqn:X2; [apply bytes_eqb_true in X2; now subst|]. auto. }
    pose proof (prepare_tri x0 fuel Lf M0 eq_refl eq_refl Hff Hok) as T. apply tri_run in T.
    destruct (run (prepare_files fuel a c r) x0) as [s6 o] eqn:Er. cbn [fst snd] in T.
    destruct T as (C6 & -> & d & b & M6 & Od & Ob & Ndb & D6 & B6 & Ld & Lb & H6 & F6 & L6 & K6 & KF).
    set (s7 := with_dir s6 (dir_del (f_dir s6) n)).
    assert (E7 : sys_remove n s6 = (s7, Ok tt)).
    { unfold sys_remove. now rewrite (mid_n _ _ _ _ _ _ M6). }
    assert (M7 : mid s7 None (Some (EFile d)) (Some (EFile b)) (Some d) (Some b)).
    { split; [|apply M6]. intros m. change (f_dir s7) with (dir_del (f_dir s6) n). rewrite dir_get_del.
      destruct (bytes_eqb n m) eqn:X; auto. destruct M6 as (E6' & _). rewrite E6'. now rewrite X. }
    assert (I7 : In s7 (states (update_database fuel a c r) s)).
    { unfold update_database. eapply states_then; [rewrite run_call; exact El|].
      apply states_catch_l. unfold swap_files. eapply states_then; [exact Er|].
      unfold replace_files. eapply states_then; [rewrite run_call; exact E7|]. apply states_head. }
    exists s7. split; [exact I7|]. repeat split.
    - eapply mid_n; eauto.
    - rewrite (file_at_ino s7 dn d) by (eapply mid_dn; eauto). f_equal. exact D6.
    - rewrite (file_at_ino s7 bn b) by (eapply mid_bn; eauto). f_equal. exact B6.
    - change (f_locks s7) with (f_locks s6). rewrite K6. now left.
    - apply Call, I7.
    - apply Call, I7.
    - apply Call, I7.
    - apply Call, I7.
    - apply Call, I7.
    - apply Call, I7.
    - apply Call, I7.
  Qed.
End Commit.
