(** Databases open in one application do not disturb each other. *)
From Coq Require Import List ZArith NArith Lia Bool.
From Coq Require Import Init.Byte Strings.Byte.
From Verif Require Import Base BaseLemmas HashModel HashProofs SpecHash HashTreeModel HashTreeProofs
  RefModel RefProofs SpecRef DbModel SpecDb DbRefProofs DbFsProofs DbCommitProofs DbOpenProofs DbApiProofs
  DbSession DbSessionProofs DbMoreProofs.
Import ListNotations.

Section Multi.
  Variable H : bytes -> bytes.
  Variable mv : byte.
  Variable behind : bytes -> bytes.
  Hypothesis HL : forall x, length (H x) = 64.

  Notation synced := (synced H mv).
  Notation db_file := (db_file H mv).

  Definition same_config (a a' : dbapp) : Prop :=
    a_dst a' = a_dst a /\ a_bck a' = a_bck a /\ a_chunk a' = a_chunk a.

  Lemma same_with a l : same_config a (with_ctxs a l).
  Proof. repeat split. Qed.

  Lemma synced_app a a' s n id bs pd : synced a s n id bs pd -> same_config a a' ->
    ctx_get (a_ctxs a') id = ctx_get (a_ctxs a) id -> synced a' s n id bs pd.
  Proof.
    intros (i & h & D & Ec & Eh) (C1 & C2 & C3) E. exists i, h. unfold DbApiProofs.db_file in *.
    rewrite C1, C2, C3, E. auto.
  Qed.

  Lemma synced_fs a s s' n id bs pd : synced a s n id bs pd -> fs_ok s' -> f_faults s' = [] -> f_locks s' = [] ->
    dir_get (f_dir s') n = dir_get (f_dir s) n ->
    dir_get (f_dir s') (side n (a_dst a)) <> Some EDir -> dir_get (f_dir s') (side n (a_bck a)) <> Some EDir ->
    (forall i, dir_get (f_dir s) n = Some (EFile i) -> data_of s' i = data_of s i) ->
    (forall c, ctx_get (a_ctxs a) id = Some c -> nth_error (f_handles s') (x_conn c) = nth_error (f_handles s) (x_conn c)) ->
    synced a s' n id bs pd.
  Proof.
    intros (i & h & (A1 & A2 & A3 & A4 & A5 & A6 & A7 & A8 & A9 & A10 & A11) & Ec & Eh) K F L E Nd Nb Ed En.
    exists i, h. split; [|split; auto].
    - unfold DbApiProofs.db_file. rewrite E, (Ed i A5). repeat (split; auto). all: apply K.
    - specialize (En _ Ec). cbn [x_conn] in En. congruence.
  Qed.

  Lemma commit_frame a s n id bs pd m id2 bs2 pd2 now :
    synced a s n id bs pd -> synced a s m id2 bs2 pd2 -> n <> m -> id <> id2 ->
    m <> side n (a_dst a) -> m <> side n (a_bck a) -> n <> side m (a_dst a) -> n <> side m (a_bck a) ->
    ok_batch (pd2, now) -> fits H mv (bs2 ++ [(pd2, now)]) -> chunk_ok (a_chunk a) (history_data bs2) ->
    exists s' a', commit_db H mv now a s id2 = (s', a', Ok tt) /\
      synced a' s' m id2 (bs2 ++ [(pd2, now)]) pd2 /\ synced a' s' n id bs pd /\ same_config a a'.
  Proof.
    intros S S2 N Ni N1 N2 N3 N4 W Ft (Pc & Ch).
    destruct (commit_ok H mv HL a s m id2 bs2 pd2 now S2 W Ft (conj Pc Ch)) as (s' & a' & E & S2' & Ea & _).
    exists s', a'. split; [exact E|]. split; [exact S2'|].
    pose proof S as (i & h & (A1 & A2 & A3 & A4 & A5 & A6 & A7 & A8 & A9 & A10 & A11) & Ec & Eh).
    pose proof S2 as (i2 & h2 & (B1 & B2 & B3 & B4 & B5 & B6 & B7 & B8 & B9 & B10 & B11) & Ec2 & Eh2).
    assert (Nh : bs2 <> [] -> history_data bs2 <> []).
    { intros X E0. pose proof (history_data_pos bs2 X B10) as Y. rewrite E0 in Y. cbn in Y. lia. }
    assert (Inj : forall e, dir_get (f_dir s) (side m e) <> Some (EFile i2)).
    { intros e X. destruct A3 as (_ & I). apply (side_neq m e). eapply I; eauto. }
    destruct (commit_general H mv HL a s m id2 bs2 pd2 h2 i2 i2 (history_data bs2) now) as
      (s1 & a1 & E1 & Ea1 & (d & D1 & D2 & D3 & D4) & D5 & D6 & D7 & D8); auto.
    { now rewrite B8. }
    { now apply A3 in B5. }
    { rewrite B9. exact B11. }
    { now apply fits_data in Ft. }
    assert (s1 = s') by congruence. assert (a1 = a') by congruence. subst s1. rewrite H1 in *. clear H1 a1 E1.
    assert (Sc : same_config a a') by (rewrite Ea; apply same_with).
    split; [|exact Sc].
    assert (Ii : forall e, n <> side m e -> dir_get (f_dir s) (side m e) <> Some (EFile i)).
    { intros e X Y. destruct A3 as (_ & I). apply X. eapply I; eauto. }
    assert (Li : i < length (f_data s)) by (now apply A3 in A5).
    assert (i <> i2) by (intros ->; apply N; destruct A3 as (_ & I); eapply I; eauto).
    assert (h <> h2) by (intros ->; congruence).
    assert (Nn : forall x y, x <> y -> bytes_eqb x y = false) by (intros; now apply bytes_eqb_neq).
    apply (synced_app a); auto.
    - apply (synced_fs a s); auto.
      + now rewrite D8.
      + rewrite D1. rewrite !Nn by congruence. reflexivity.
      + rewrite D1. rewrite Nn by auto. destruct (bytes_eqb _ _); [discriminate|]. destruct (bytes_eqb _ _); [discriminate|auto].
      + rewrite D1. rewrite Nn by auto. destruct (bytes_eqb _ _); [discriminate|]. destruct (bytes_eqb _ _); [discriminate|auto].
      + intros j Ej. assert (j = i) by congruence. subst j. apply D3; auto.
      + intros c Ex. rewrite Ec in Ex. injection Ex as <-. cbn [x_conn]. rewrite D4.
        rewrite nth_error_app1 by (rewrite set_nth_length; apply nth_error_Some; congruence).
        rewrite nth_error_set_nth by (apply nth_error_Some; congruence).
        now replace (Nat.eqb h2 h) with false by (symmetry; apply Nat.eqb_neq; auto).
    - rewrite Ea1. cbn [with_ctxs a_ctxs]. rewrite ctx_get_set.
      now replace (id2 =? id)%Z with false by (symmetry; apply Z.eqb_neq; auto).
  Qed.

  Definition no_reopen (o : op) : Prop := match o with OReopen => False | _ => True end.

  Lemma step_frame a s m id2 bs2 pd2 o : synced a s m id2 bs2 pd2 -> Forall ok_content pd2 ->
    no_reopen o -> allowed H mv (a_chunk a) (bs2, pd2) o ->
    exists a' s', exec_step H mv behind m (a, s, id2) o = Ok (a', s', id2) /\
      synced a' s' m id2 (fst (spec_step (bs2, pd2) o)) (snd (spec_step (bs2, pd2) o)) /\
      Forall ok_content (snd (spec_step (bs2, pd2) o)) /\ same_config a a' /\
      (forall n id bs pd, synced a s n id bs pd -> n <> m -> id <> id2 ->
         m <> side n (a_dst a) -> m <> side n (a_bck a) -> n <> side m (a_dst a) -> n <> side m (a_bck a) ->
         synced a' s' n id bs pd).
  Proof.
    intros S F R A. destruct o as [h d k| |now|]; cbn [exec_step spec_step fst snd allowed no_reopen] in *; [| | |contradiction].
    - destruct A as (Lh & Nd & Rk). destruct (write_ok _ _ _ _ _ _ _ _ h d k S Nd) as (a' & E & S' & Ea).
      exists a', s. rewrite E. cbn [bind]. assert (Sc : same_config a a') by (rewrite Ea; apply same_with).
      repeat split; auto; try apply Sc.
      + apply Forall_app. split; auto. repeat constructor; auto; apply Rk.
      + intros n id bs pd Sn N Ni _ _ _ _. apply (synced_app a); auto.
        unfold write_db in E. destruct (ctx_get (a_ctxs a) id2) eqn:Ec; [|discriminate].
        destruct (content_now h d k); try discriminate. injection E as <-. cbn [with_ctxs a_ctxs].
        rewrite ctx_get_set. now replace (id2 =? id)%Z with false by (symmetry; apply Z.eqb_neq; auto).
    - destruct (cancel_ok _ _ _ _ _ _ _ _ S) as (a' & E & S' & Ea). exists a', s. rewrite E. cbn [bind].
      assert (Sc : same_config a a') by (rewrite Ea; apply same_with).
      repeat split; auto; try apply Sc.
      intros n id bs pd Sn N Ni _ _ _ _. apply (synced_app a); auto.
      unfold cancel_db in E. destruct (ctx_get (a_ctxs a) id2) eqn:Ec; [|discriminate].
      injection E as <-. cbn [with_ctxs a_ctxs].
      rewrite ctx_get_set. now replace (id2 =? id)%Z with false by (symmetry; apply Z.eqb_neq; auto).
    - destruct A as (Np & Rt & Ft & Ch).
      assert (W : ok_batch (pd2, now)) by (repeat split; auto; apply Rt).
      destruct (commit_ok H mv HL a s m id2 bs2 pd2 now S W Ft Ch) as (s' & a' & E & S' & Ea & _).
      exists a', s'. rewrite E. cbn [bind]. assert (Sc : same_config a a') by (rewrite Ea; apply same_with).
      repeat split; auto; try apply Sc.
      intros n id bs pd Sn N Ni N1 N2 N3 N4.
      destruct (commit_frame a s n id bs pd m id2 bs2 pd2 now) as (s1 & a1 & E1 & _ & Sn' & _); auto.
      assert (s1 = s') by congruence. assert (a1 = a') by congruence. now subst.
  Qed.

  Definition all_synced (a : dbapp) (s : fsys) (ids : bytes -> Z) (names : list bytes)
    (sp : bytes -> list batch * list content) : Prop :=
    forall n, In n names -> synced a s n (ids n) (fst (sp n)) (snd (sp n)) /\ Forall ok_content (snd (sp n)).

  Lemma ops_on_cons n x os : ops_on n (x :: os) =
    if bytes_eqb (fst x) n then snd x :: ops_on n os else ops_on n os.
  Proof. unfold ops_on. cbn [filter]. destruct (bytes_eqb (fst x) n); reflexivity. Qed.

  Lemma exec_all_ok ids names : (forall n m, In n names -> In m names -> ids n = ids m -> n = m) ->
    forall os a s sp, separate a names -> all_synced a s ids names sp ->
    Forall (fun x => In (fst x) names /\ no_reopen (snd x)) os ->
    (forall n, In n names -> all_allowed H mv (a_chunk a) (sp n) (ops_on n os)) ->
    exists a' s', exec_all H mv behind ids a s os = Ok (a', s') /\
      all_synced a' s' ids names (fun n => spec_run (sp n) (ops_on n os)).
  Proof.
    intros Inj. induction os as [|[m o] os IH]; intros a s sp Sep S F A.
    - exists a, s. split; auto.
    - inversion F as [|? ? (Im & R) F']; subst. cbn [fst snd] in *.
      destruct (S m Im) as (Sm & Fm). pose proof (A m Im) as Am. rewrite ops_on_cons in Am. cbn [fst snd] in Am.
      rewrite bytes_eqb_refl in Am. destruct Am as (A1 & A2).
      destruct (sp m) as [bsm pdm] eqn:Ep. cbn [fst snd] in *.
      destruct (step_frame a s m (ids m) bsm pdm o Sm Fm R A1) as (a1 & s1 & E & S1 & F1 & Sc & Fr).
      cbn [exec_all]. rewrite E. cbn [bind fst snd].
      pose (sp1 := fun n => if bytes_eqb m n then spec_step (sp n) o else sp n).
      destruct Sc as (C1 & C2 & C3). destruct Sep as (Nd & Sd).
      destruct (IH a1 s1 sp1) as (a2 & s2 & E2 & S2).
      + split; auto. rewrite C1, C2. exact Sd.
      + intros n In_. unfold sp1. destruct (bytes_eqb m n) eqn:X.
        * apply bytes_eqb_true in X. subst n. rewrite Ep. auto.
        * apply bytes_eqb_false in X. destruct (S n In_) as (Sn & Fn). split; auto.
          destruct (Sd n m In_ Im), (Sd m n Im In_). apply Fr; auto.
      + exact F'.
      + intros n In_. rewrite C3. specialize (A n In_). rewrite ops_on_cons in A. cbn [fst snd] in A. unfold sp1.
        destruct (bytes_eqb m n); [apply A|exact A].
      + exists a2, s2. split; [exact E2|]. intros n In_. specialize (S2 n In_).
        rewrite ops_on_cons. cbn [fst snd]. unfold sp1 in S2. destruct (bytes_eqb m n); exact S2.
  Qed.

  (** ** Opening them *)
  Definition ids_low (a : dbapp) : Prop := Forall (fun x => (0 <= fst x < zlen (a_ctxs a))%Z) (a_ctxs a).

  Lemma ctx_del_low l id : Forall (fun x => fst x <> id) l -> ctx_del l id = l.
  Proof.
    unfold ctx_del. induction 1 as [|[k c] l N F IH]; cbn [filter fst] in *; auto.
    replace (k =? id)%Z with false by (symmetry; apply Z.eqb_neq; auto). cbn [negb]. now rewrite IH.
  Qed.

  Lemma open_low n a s s' a' id : ids_low a -> open_db H mv behind n a s = (s', a', Ok id) ->
    id = zlen (a_ctxs a) /\ ctx_get (a_ctxs a) id = None /\ ids_low a' /\ zlen (a_ctxs a') = (zlen (a_ctxs a) + 1)%Z /\
    same_config a a' /\ (forall j, j <> id -> ctx_get (a_ctxs a') j = ctx_get (a_ctxs a) j) /\
    (exists c, a_ctxs a' = (id, c) :: a_ctxs a /\ x_name c = n).
  Proof.
    intros L. unfold open_db. destruct (existsb _ _); [discriminate|].
    destruct (dir_get (f_dir s) n) as [[i|]|]; try discriminate.
    destruct (retrieve_reference _ _ _ _ _) as [[ref off]| | |]; try discriminate.
    destruct (sys_open n s) as [s1 [h| | |]]; try discriminate. injection 1 as <- <- <-.
    set (id := zlen (a_ctxs a)). set (c := Ctx id n h ref off []).
    assert (E : ctx_set (a_ctxs a) id c = (id, c) :: a_ctxs a).
    { unfold ctx_set. rewrite ctx_del_low; auto. eapply Forall_impl; [|exact L]. cbn. unfold id. lia. }
    assert (Lz : zlen ((id, c) :: a_ctxs a) = (id + 1)%Z) by (unfold id, zlen; cbn [length]; lia).
    split; [reflexivity|]. split.
    { assert (G : Forall (fun x => fst x <> id) (a_ctxs a)).
      { eapply Forall_impl; [|exact L]. cbn. unfold id. lia. }
      clear - G. clearbody id. induction (a_ctxs a) as [|[k d] l IH]; cbn; auto. inversion G; subst. cbn in *.
      replace (k =? id)%Z with false by (symmetry; apply Z.eqb_neq; auto). auto. }
    unfold ids_low. cbn [with_ctxs a_ctxs]. rewrite E, Lz. split; [|split; [|split; [|split]]].
    - constructor; [cbn; unfold id; pose proof (zlen_nonneg (a_ctxs a)); lia|].
      eapply Forall_impl; [|exact L]. cbn. unfold id. lia.
    - reflexivity.
    - apply same_with.
    - intros j N. cbn [ctx_get]. now replace (id =? j)%Z with false by (symmetry; apply Z.eqb_neq; auto).
    - exists c. auto.
  Qed.

  Definition names_of (a : dbapp) : list bytes := map (fun x => x_name (snd x)) (a_ctxs a).

  Lemma existsb_names a n : existsb (fun x => bytes_eqb (x_name (snd x)) n) (a_ctxs a) = false <-> ~ In n (names_of a).
  Proof.
    unfold names_of. induction (a_ctxs a) as [|x l IH]; cbn [existsb map In]; [tauto|].
    rewrite orb_false_iff, IH. split.
    - intros (A & B) [C|C]; [|auto]. rewrite C, bytes_eqb_refl in A. discriminate.
    - intros N. split; [|tauto]. apply bytes_eqb_neq. tauto.
  Qed.

  Lemma start_step a s n : good_config a -> calm s -> clear a s n -> dir_get (f_dir s) n = None ->
    ids_low a -> ~ In n (names_of a) ->
    exists s1 s2 a2, new_db n s = (s1, Ok tt) /\ open_db H mv behind n a s1 = (s2, a2, Ok (zlen (a_ctxs a))) /\
      synced a2 s2 n (zlen (a_ctxs a)) [] [] /\ ids_low a2 /\ zlen (a_ctxs a2) = (zlen (a_ctxs a) + 1)%Z /\
      same_config a a2 /\ calm s2 /\ names_of a2 = n :: names_of a /\
      (forall m, dir_get (f_dir s2) m = if bytes_eqb n m then dir_get (f_dir s2) n else dir_get (f_dir s) m) /\
      dir_get (f_dir s2) n <> Some EDir /\
      (forall m id bs pd, synced a s m id bs pd -> n <> m -> n <> side m (a_dst a) -> n <> side m (a_bck a) ->
         synced a2 s2 m id bs pd).
  Proof.
    intros (N & P) (V & I & Ff & Lk) (Nd & Nb) E Lo Nn. unfold new_db, sys_stat. rewrite E.
    assert (K : fs_ok s) by (split; auto).
    destruct (sys_create_spec n s K) as (s1 & i & Ec & Dir & Dd & Do & Ll & Ld & Eh & El & Ef & Orig & K1).
    { rewrite E. discriminate. }
    rewrite Ec. cbn [bind].
    assert (Fr : forall e, bytes_eqb n (side n e) = false)
      by (intros e; apply bytes_eqb_neq; intros X; symmetry in X; now apply side_neq in X).
    assert (D : db_file a s1 n i []).
    { unfold DbApiProofs.db_file.
      split; [exact N|]. split; [exact P|]. split; [exact K1|]. split; [congruence|].
      split; [rewrite Dir; now rewrite bytes_eqb_refl|].
      split; [now rewrite Dir, Fr|]. split; [now rewrite Dir, Fr|]. split; [congruence|].
      split; [rewrite Dd; reflexivity|]. split; [constructor|].
      unfold fits, history_file. cbn. reflexivity. }
    destruct (open_ok H mv behind HL a s1 n i [] D) as (s2 & a2 & E2 & S2 & D2 & Ea & Ed2 & Ed2' & El2 & (hx & Eh2)).
    { now apply existsb_names. }
    destruct (open_low _ _ _ _ _ _ Lo E2) as (_ & G0 & G1 & G2 & G3 & G4 & (c & G5 & G6)).
    exists s1, s2, a2. split; [reflexivity|]. split; [exact E2|]. split; [exact S2|]. split; [exact G1|]. split; [exact G2|].
    split; [exact G3|]. pose proof D2 as (X1 & X2 & X3 & X4 & X5 & X6 & X7 & X8 & X9 & _).
    split. { destruct X3. repeat split; auto. }
    split. { unfold names_of. rewrite G5. cbn [map snd]. now rewrite G6. }
    split. { intros m. rewrite !Ed2, !Dir, bytes_eqb_refl. reflexivity. }
    split. { rewrite X5. discriminate. }
    intros m id bs pd Sm Nm N1 N2. apply (synced_app a).
    - pose proof Sm as (j & h & (B1 & B2 & B3 & B4 & B5 & B6 & B7 & B8 & B9 & B10 & B11) & Ecj & Ehj).
      apply (synced_fs a s); auto.
      + rewrite Ed2, Dir. now rewrite bytes_eqb_neq by auto.
      + rewrite Ed2, Dir. now rewrite bytes_eqb_neq by auto.
      + rewrite Ed2, Dir. now rewrite bytes_eqb_neq by auto.
      + intros q Eq. unfold data_of. rewrite Ed2'. apply Do. intros ->. apply Nm.
        destruct K1 as (_ & I1). apply (I1 n m i); rewrite Dir; [now rewrite bytes_eqb_refl|]. now rewrite bytes_eqb_neq by auto.
      + intros q Eq. rewrite Ecj in Eq. injection Eq as <-. cbn [x_conn]. rewrite Eh2, Eh.
        rewrite nth_error_app1; auto. apply nth_error_Some. congruence.
    - exact G3.
    - apply G4. intros ->. destruct Sm as (j & h & _ & X & _). congruence.
  Qed.

  Lemma start_all_ok names : forall a s done, good_config a -> calm s ->
    ids_low a -> names_of a = done ->
    NoDup names -> (forall n, In n names -> ~ In n done) ->
    (forall n m, In n names -> In m (names ++ done) -> n <> side m (a_dst a) /\ n <> side m (a_bck a)) ->
    (forall n, In n names -> clear a s n /\ dir_get (f_dir s) n = None) ->
    exists a' s', start_all H mv behind a s names = Ok (a', s') /\ same_config a a' /\
      (forall n, In n names -> synced a' s' n (zlen (a_ctxs a) + position names n) [] []) /\
      (forall m id bs pd, In m done -> synced a s m id bs pd -> synced a' s' m id bs pd).
  Proof.
    induction names as [|n names IH]; intros a s done G C L En Nd Nn Sep Cl.
    - exists a, s. repeat split; auto. intros n [].
    - inversion Nd as [|? ? Nin Nd']; subst.
      destruct (Cl n (or_introl eq_refl)) as (Cn & Dn).
      destruct (start_step a s n G C Cn Dn L (Nn n (or_introl eq_refl)))
        as (s1 & s2 & a2 & E1 & E2 & S2 & L2 & Z2 & Sc & C2 & En2 & D2 & Ndir & Fr).
      cbn [start_all]. rewrite E1. cbn [bind]. rewrite E2. cbn [bind].
      pose proof Sc as (Q1 & Q2 & Q3). destruct G as (G1 & G2).
      destruct (IH a2 s2 (n :: names_of a)) as (a' & s' & E' & Sc' & S' & Fr'); auto.
      + split; congruence.
      + intros m Im [<-|Id]; [contradiction|]. apply (Nn m (or_intror Im)). auto.
      + intros x y Ix Iy. rewrite Q1, Q2. apply Sep; [now right|].
        apply in_app_iff in Iy. cbn in Iy. cbn. rewrite in_app_iff. tauto.
      + intros m Im. destruct (Cl m (or_intror Im)) as ((Cm1 & Cm2) & Dm).
        assert (n <> m) by (intros ->; contradiction).
        split; [split|].
        * rewrite Q1. rewrite D2. destruct (bytes_eqb n (side m (a_dst a))); auto.
        * rewrite Q2. rewrite D2. destruct (bytes_eqb n (side m (a_bck a))); auto.
        * rewrite D2. now rewrite bytes_eqb_neq by auto.
      + exists a', s'. split; [exact E'|]. split; [|split].
        * destruct Sc' as (U1 & U2 & U3). repeat split; congruence.
        * intros m [<-|Im].
          { cbn [position]. rewrite bytes_eqb_refl, Z.add_0_r. apply Fr'; [now left|exact S2]. }
          assert (n <> m) by (intros ->; contradiction).
          cbn [position]. rewrite bytes_eqb_neq by auto. rewrite Z.add_assoc, <- Z2. auto.
        * intros m id bs pd Im Sm. apply Fr'; [now right|]. apply Fr; auto.
          { intros ->. now apply (Nn m (or_introl eq_refl)). }
          { apply (Sep n m); [now left|]. apply in_app_iff. right. auto. }
          { apply (Sep n m); [now left|]. apply in_app_iff. right. auto. }
  Qed.

  Lemma position_inj names : forall n m, In n names -> In m names -> position names n = position names m -> n = m.
  Proof.
    assert (P : forall l x, (0 <= position l x)%Z).
    { induction l as [|y l IH]; intros x; cbn [position]; [lia|]. specialize (IH x). destruct (bytes_eqb y x); lia. }
    induction names as [|x l IH]; intros n m In_ Im E; [destruct In_|]. cbn [position] in E.
    pose proof (P l n). pose proof (P l m).
    destruct (bytes_eqb x n) eqn:E1, (bytes_eqb x m) eqn:E2; try lia.
    - apply bytes_eqb_true in E1, E2. congruence.
    - apply bytes_eqb_false in E1, E2. destruct In_ as [|In_]; [congruence|]. destruct Im as [|Im]; [congruence|].
      apply IH; auto. lia.
  Qed.

  (** ** A second application on the same database *)
  Lemma second_opener a0 n a s id bs pd : synced a s n id bs pd ->
    a_chunk a = a_chunk a0 -> a_dst a = a_dst a0 -> a_bck a = a_bck a0 ->
    exists s1 b1, open_db H mv behind n (with_ctxs a0 []) s = (s1, b1, Ok 0%Z) /\
      synced a s1 n id bs pd /\ synced b1 s1 n 0 bs [] /\ same_config a0 b1 /\
      (forall c1 c2, ctx_get (a_ctxs a) id = Some c1 -> ctx_get (a_ctxs b1) 0 = Some c2 -> x_conn c1 <> x_conn c2).
  Proof.
    intros Sy Ch Ed Eb. pose proof Sy as (i & h & D & Ec & Eh).
    assert (D' : DbApiProofs.db_file H mv (with_ctxs a0 []) s n i bs).
    { unfold DbApiProofs.db_file in *. cbn [with_ctxs a_dst a_bck a_chunk]. now rewrite <- Ch, <- Ed, <- Eb. }
    destruct (open_ok H mv behind HL (with_ctxs a0 []) s n i bs D' eq_refl)
      as (s1 & b1 & E1 & Sb & Db & Eb1 & Dir1 & Dat1 & Lk1 & (hx & Hd1)).
    exists s1, b1. split; [exact E1|]. split; [|split; [exact Sb|split]].
    - pose proof D as (A1 & A2 & A3 & A4 & A5 & A6 & A7 & A8 & A9 & A10 & A11).
      pose proof Db as (B1 & B2 & B3 & B4 & B5 & B6 & B7 & B8 & B9 & B10 & B11).
      apply (synced_fs a s); auto.
      + now rewrite Dir1.
      + now rewrite Dir1.
      + now rewrite Dir1.
      + intros j _. unfold data_of. now rewrite Dat1.
      + intros c Ecc. rewrite Ec in Ecc. injection Ecc as <-. cbn [x_conn]. rewrite Hd1.
        apply nth_error_app1. apply nth_error_Some. congruence.
    - rewrite Eb1. repeat split.
    - intros c1 c2 Y1 Y2. rewrite Ec in Y1. injection Y1 as <-. cbn [x_conn].
      assert (Z : x_conn c2 = length (f_handles s)).
      { unfold open_db in E1. cbn [with_ctxs a_ctxs existsb] in E1.
        destruct (dir_get (f_dir s) n) as [[j|]|] eqn:X; try discriminate.
        destruct (retrieve_reference _ _ _ _ _) as [[ref off]| | |]; try discriminate.
        unfold sys_open in E1. rewrite X in E1. injection E1 as <- <-.
        cbn in Y2. injection Y2 as <-. reflexivity. }
      rewrite Z. assert (h < length (f_handles s)) by (apply nth_error_Some; congruence). lia.
  Qed.

  Lemma writes_synced l : forall b s n id bs p, synced b s n id bs p -> Forall ok_content l ->
    synced (writes b id l) s n id bs (p ++ l) /\ same_config b (writes b id l) /\
    (forall c, ctx_get (a_ctxs (writes b id l)) id = Some c ->
       exists c', ctx_get (a_ctxs b) id = Some c' /\ x_conn c = x_conn c').
  Proof.
    unfold writes. induction l as [|c l IH]; intros b s n id bs p Sp Fl; cbn [fold_left].
    { rewrite app_nil_r. split; [auto|]. split; [repeat split|eauto]. }
    inversion Fl as [|? ? (L1 & L2 & L3) Fl']; subst.
    destruct (write_ok H mv _ _ _ _ _ _ (ct_hash c) (ct_data c) (ct_kind c) Sp L2) as (b' & E' & Sp' & Eb').
    rewrite E'. cbn [fst]. replace (p ++ c :: l) with ((p ++ [c]) ++ l) by (rewrite <- app_assoc; reflexivity).
    destruct (IH b' s n id bs (p ++ [c])) as (I1 & I2 & I3); auto.
    { destruct c. exact Sp'. }
    split; [exact I1|]. split.
    - rewrite Eb' in I2 at 1. exact I2.
    - intros c0 G. destruct (I3 _ G) as (c' & G' & ->).
      pose proof (write_get b id (ct_hash c) (ct_data c) (ct_kind c) id) as Wg. rewrite E' in Wg. cbn [fst] in Wg.
      rewrite G' in Wg. destruct (ctx_get (a_ctxs b) id) as [c1|] eqn:Eb0; [|destruct Wg].
      exists c1. split; auto. apply Wg.
  Qed.

  (** Writing does not change what is read. *)
  Lemma writes_read l : forall b s id j p, read_db (writes b id l) s j p = read_db b s j p.
  Proof.
    unfold writes. induction l as [|c l IH]; intros b s id j p; cbn [fold_left]; [reflexivity|].
    rewrite IH. pose proof (write_get b id (ct_hash c) (ct_data c) (ct_kind c) j) as Wg. unfold read_db.
    destruct (ctx_get (a_ctxs (fst _)) j) as [c'|], (ctx_get (a_ctxs b) j) as [c0|]; try contradiction; auto.
    destruct Wg as (_ & _ & -> & _ & ->). reflexivity.
  Qed.
End Multi.
