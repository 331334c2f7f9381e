(** When Commit returns and when it does not. *)
From Coq Require Import List ZArith NArith Lia Bool.
From Coq Require Import Init.Byte Strings.Byte.
From Verif Require Import Base BaseLemmas HashModel HashProofs SpecHash HashTreeModel HashTreeProofs
  RefModel RefProofs SpecRef DbModel SpecDb DbRefProofs DbFsProofs DbCommitProofs DbOpenProofs DbApiProofs
  DbSession DbSessionProofs DbMoreProofs DbFrameProofs.
Import ListNotations.

(** ** Programs whose outcome is not [Fuel] *)
(** [ends p J]: run from a state with [J], [p] ends in such a state, with an outcome other than [Fuel]. *)
Definition ends {A} (J : fsys -> Prop) (p : prog A) : Prop :=
  forall s, J s -> J (fst (run p s)) /\ snd (run p s) <> Fuel.

Lemma ends_ret {A} J (o : outcome A) : o <> Fuel -> ends J (Ret o).
Proof. intros N s Js. auto. Qed.

Lemma ends_catch {A B} J (p : prog A) (k : outcome A -> prog B) :
  ends J p -> (forall o, o <> Fuel -> ends J (k o)) -> ends J (catch p k).
Proof.
  intros P K s Js. rewrite run_catch. destruct (P s Js) as (J1 & N). destruct (run p s) as [s' o]. apply K; auto.
Qed.

Lemma ends_then {A B} J (p : prog A) (k : A -> prog B) : ends J p -> (forall a, ends J (k a)) -> ends J (andthen p k).
Proof.
  intros P K. apply ends_catch; auto. intros [a| | |] N; auto; try (apply ends_ret; discriminate). congruence.
Qed.

Lemma ends_call {A} (J : fsys -> Prop) (f : fsys -> fsys * outcome A) :
  (forall s, J s -> J (fst (f s)) /\ snd (f s) <> Fuel) -> ends J (call f).
Proof. intros F s Js. rewrite run_call. auto. Qed.

Lemma ends_bytes (J : fsys -> Prop) d w res : (forall s x, J s -> J (set_data s d x)) -> res <> Fuel ->
  forall off, ends J (p_bytes d off w res).
Proof.
  intros W N. induction w as [|b w IH]; intros off; cbn [p_bytes]; [now apply ends_ret|].
  intros s Js. cbn [run]. apply IH. now apply W.
Qed.

Lemma ends_write (J : fsys -> Prop) d off w : (forall s x, J s -> J (set_data s d x)) ->
  (forall s l, J s -> J (with_faults s l)) -> ends J (p_write d off w).
Proof.
  intros W F s Js. unfold p_write. cbn [run]. destruct (f_faults s) as [|[k|] fs].
  - apply ends_bytes; auto. discriminate.
  - apply ends_bytes; auto. discriminate.
  - apply ends_bytes; auto. discriminate.
Qed.

Section End.
  Variable H : bytes -> bytes.
  Variable mv : byte.
  Hypothesis HL : forall x, length (H x) = 64.

  (** The file that [conn] reads: inode [i], with these bytes. *)
  Definition source (conn i : nat) (d : bytes) (s : fsys) : Prop :=
    (exists p, nth_error (f_handles s) conn = Some (Handle i p true)) /\ i < length (f_data s) /\ data_of s i = d.

  Lemma source_set conn i d j x s : j <> i -> source conn i d s -> source conn i d (set_data s j x).
  Proof.
    intros N (Hh & L & E). repeat split; auto.
    - cbn [set_data with_data f_data]. now rewrite set_nth_length.
    - rewrite data_set_other by auto. exact E.
  Qed.

  Lemma copy_loop_ends conn i d ck dst : dst <> i -> (0 < ck)%Z ->
    forall fuel roff woff, (zlen d - roff < Z.of_nat fuel)%Z -> (0 < fuel) ->
    ends (source conn i d) (copy_loop fuel conn ck roff dst woff).
  Proof.
    intros Nd Pc. induction fuel as [|fuel IH]; intros roff woff L P s Js; [lia|].
    cbn [copy_loop run]. destruct (read_at s conn ck roff) as [b| | |] eqn:Er.
    2-4: cbn [run fst snd]; split; [exact Js|discriminate].
    assert (R : (0 <= roff)%Z /\ (roff + ck <= zlen d)%Z /\ zlen b = ck).
    { destruct Js as ((p & Eh) & Li & Ed). unfold read_at in Er. rewrite Eh, Ed in Er.
      destruct (Z.ltb_spec roff 0); [discriminate|]. destruct (Z.eqb_spec ck 0); [lia|].
      destruct (Z.leb_spec (roff + ck) (zlen d)); [|discriminate]. injection Er as <-.
      repeat split; auto. unfold zlen in *. rewrite firstn_length, skipn_length. lia. }
    destruct R as (R1 & R2 & R3).
    apply (ends_catch (source conn i d) (p_write dst woff b)); [| |exact Js].
    - apply ends_write; [intros; apply source_set; auto|intros s0 l X; exact X].
    - intros [u| | |] N; try (apply ends_ret; discriminate). apply IH; lia.
  Qed.

  Lemma write_pending_ends (J : fsys -> Prop) dst l : (forall s x, J s -> J (set_data s dst x)) ->
    (forall s l, J s -> J (with_faults s l)) -> forall woff, ends J (write_pending dst woff l).
  Proof.
    intros W F. induction l as [|c l IH]; intros woff; cbn [write_pending]; [apply ends_ret; discriminate|].
    apply ends_catch; [now apply ends_write|]. intros [u| | |] N; auto; apply ends_ret; discriminate.
  Qed.

  (** The states before the destination is created. *)
  Definition before_create (conn i : nat) (d : bytes) (dn : bytes) (s : fsys) : Prop :=
    source conn i d s /\ dir_get (f_dir s) dn <> Some (EFile i).

  Lemma trylock_source conn i d dn n s : before_create conn i d dn s ->
    before_create conn i d dn (fst (sys_trylock n s)) /\ snd (sys_trylock n s) <> Fuel.
  Proof.
    intros (((p & Hh) & L & E) & Nd). unfold sys_trylock. destruct (dir_get (f_dir s) n) as [[j|]|] eqn:En.
    - destruct (existsb _ _); cbn [fst snd]; (split; [|discriminate]); repeat split; eauto.
    - cbn [fst snd]. split; [|discriminate]. repeat split; eauto.
    - cbn [fst snd]. split; [|discriminate]. split; [split; [exists p; exact Hh|]|].
      + cbn [with_locks with_data with_dir f_data]. rewrite app_length. split; [lia|].
        unfold data_of in *. cbn [with_locks with_data with_dir f_data]. now rewrite app_nth1.
      + cbn [with_locks with_data with_dir f_dir]. rewrite dir_get_set. destruct (bytes_eqb n dn); auto.
        intros X. injection X as X. lia.
  Qed.

  Lemma create_source conn i d dn s : before_create conn i d dn s ->
    snd (sys_create dn s) <> Fuel /\ source conn i d (fst (sys_create dn s)) /\
    forall j, snd (sys_create dn s) = Ok j -> j <> i.
  Proof.
    intros (((p & Hh) & L & E) & Nd). unfold sys_create. destruct (dir_get (f_dir s) dn) as [[j|]|] eqn:En; cbn [fst snd].
    - assert (j <> i) by congruence. split; [discriminate|]. split; [apply source_set; auto; repeat split; eauto|].
      intros k X. injection X as <-. auto.
    - split; [discriminate|]. split; [repeat split; eauto|discriminate].
    - split; [discriminate|]. split.
      + split; [exists p; exact Hh|]. cbn [with_data with_dir f_data]. rewrite app_length. split; [lia|].
        unfold data_of in *. cbn [with_data with_dir f_data]. now rewrite app_nth1.
      + intros k X. injection X as <-. lia.
  Qed.

  Lemma make_chunk_pos ck n : (0 < ck)%Z -> (0 < n)%Z -> (0 < make_chunk ck n)%Z.
  Proof. intros. unfold make_chunk. destruct (n <? ck)%Z; auto. Qed.

  Lemma destination_ends conn i d a c r fuel : x_conn c = conn -> (0 < a_chunk a)%Z ->
    (x_ref c <> None -> u64 (zlen d - x_off c) <> 0%Z) -> (zlen d - x_off c < Z.of_nat fuel)%Z -> 0 < fuel ->
    forall s, before_create conn i d (side (x_name c) (a_dst a)) s -> snd (run (write_destination fuel a c r) s) <> Fuel.
  Proof.
    intros Ec Pc Nz Lf P s B. unfold write_destination.
    unfold andthen at 1. rewrite run_catch, run_call.
    destruct (create_source conn i d _ s B) as (Nf & Js & Nj).
    destruct (sys_create _ s) as [s1 o]. cbn [fst snd] in *. destruct o as [dst| | |]; try (cbn; discriminate); [|congruence].
    specialize (Nj dst eq_refl).
    assert (W : forall s x, source conn i d s -> source conn i d (set_data s dst x)) by (intros; apply source_set; auto).
    assert (F : forall s l, source conn i d s -> source conn i d (with_faults s l)) by (intros s0 l X; exact X).
    refine (proj2 (ends_then (source conn i d) _ _ _ _ s1 Js)); [now apply ends_write|]. intros _.
    apply ends_then.
    - destruct (x_ref c) as [ref|]; [|apply ends_ret; discriminate]. intros s2 J2. pose proof J2 as ((p & Hh) & Li & Ed).
      unfold andthen. rewrite run_catch, run_call. rewrite Ec, Hh, Ed. cbn [fst snd].
      assert (Pu : (0 < u64 (zlen d - x_off c))%Z).
      { assert (0 <= u64 (zlen d - x_off c))%Z by (unfold u64; apply Z.mod_pos_bound; reflexivity).
        assert (u64 (zlen d - x_off c) <> 0)%Z by (apply Nz; discriminate). lia. }
      destruct (two63 <=? _)%Z; [split; [exact J2|discriminate]|].
      apply (copy_loop_ends conn i d); auto. now apply make_chunk_pos.
    - intros woff. apply ends_then; [now apply write_pending_ends|]. intros _. apply ends_ret. discriminate.
  Qed.

  Lemma create_no_fuel n s : snd (sys_create n s) <> Fuel.
  Proof. unfold sys_create. destruct (dir_get _ n) as [[j|]|]; discriminate. Qed.
  Lemma remove_no_fuel n s : snd (sys_remove n s) <> Fuel.
  Proof. unfold sys_remove. destruct (dir_get _ n) as [[j|]|]; discriminate. Qed.
  Lemma open_no_fuel n s : snd (sys_open n s) <> Fuel.
  Proof. unfold sys_open. destruct (dir_get _ n) as [[j|]|]; discriminate. Qed.
  Lemma close_no_fuel n s : snd (sys_close n s) <> Fuel.
  Proof. unfold sys_close. destruct (nth_error _ n) as [[j p [|]]|]; discriminate. Qed.
  Lemma rename_no_fuel n m s : snd (sys_rename n m s) <> Fuel.
  Proof. unfold sys_rename. destruct (dir_get (f_dir s) n) as [[j|]|], (dir_get (f_dir s) m) as [[k|]|]; discriminate. Qed.

  Lemma replace_ends a c off : ends (fun _ => True) (replace_files a c off).
  Proof.
    unfold replace_files.
    apply ends_then; [apply ends_call; intros; split; [exact I|apply remove_no_fuel]|]. intros u1.
    apply ends_then; [apply ends_call; intros; split; [exact I|apply rename_no_fuel]|]. intros u2.
    apply ends_then; [apply ends_call; intros; split; [exact I|apply remove_no_fuel]|]. intros u3.
    apply ends_then; [apply ends_call; intros; split; [exact I|apply open_no_fuel]|]. intros u4.
    apply ends_ret. discriminate.
  Qed.

  Lemma copy_ends b conn : ends (fun _ => True) (p_copy b conn).
  Proof.
    unfold p_copy. apply ends_then.
    - apply ends_call. intros s _. split; [exact I|]. destruct (nth_error _ conn) as [[i p [|]]|]; discriminate.
    - intros [|x w]; [apply ends_ret; discriminate|]. apply ends_write; auto.
  Qed.

  Lemma update_reference_no_fuel c now : update_reference H mv c now <> Fuel.
  Proof.
    unfold update_reference. apply bind_Fuel.
    { destruct (x_ref c) as [r|]; [|discriminate]. apply bind_Fuel; [|discriminate].
      unfold commits_latest. destruct (rev (r_commits r)); discriminate. }
    intros parent _. apply bind_Fuel.
    { destruct (map ct_hash (x_pending c)) as [|h hs] eqn:E; [discriminate|].
      destruct (build_tree_spec H HL (h :: hs)) as (t & k & pad & E' & _); congruence. }
    intros values _. cbv zeta. apply bind_Fuel.
    { unfold commits_now. destruct (_ ++ _); discriminate. }
    intros commits _. apply bind_Fuel.
    { generalize (match x_ref c with Some r => keys_next (r_keys r) | None => 0%Z end).
      induction (x_pending c) as [|x l IH]; intros off; cbn [pending_keys]; [discriminate|].
      apply bind_Fuel; [unfold pointer_now; destruct (_ <=? 0)%Z; discriminate|]. intros p _.
      apply bind_Fuel; [apply IH|]. discriminate. }
    intros new _. apply bind_Fuel; [|discriminate]. unfold keys_now. destruct (_ ++ _); discriminate.
  Qed.

  Lemma update_reference_ok c now : x_pending c <> [] ->
    (forall ct, In ct (x_pending c) -> (0 < zlen (ct_data ct) < two63)%Z) ->
    (forall r, x_ref c = Some r -> r_commits r <> []) -> exists r', update_reference H mv c now = Ok r'.
  Proof.
    intros Np D Nc. unfold update_reference.
    assert (P : exists parent, match x_ref c with
                 | Some r => do l <- commits_latest (r_commits r); Ok (Some (c_hash l))
                 | None => Ok None
                 end = Ok parent).
    { destruct (x_ref c) as [r|]; eauto. specialize (Nc r eq_refl). unfold commits_latest.
      destruct (rev (r_commits r)) as [|l q] eqn:E; [|cbn; eauto].
      apply (f_equal (@rev _)) in E. rewrite rev_involutive in E. cbn in E. congruence. }
    destruct P as (parent & ->). cbn [bind].
    assert (B : exists t, build_tree H (Some (map ct_hash (x_pending c))) = Ok t).
    { destruct (x_pending c) as [|x l]; [congruence|]. cbn [map].
      destruct (build_tree_spec H HL (ct_hash x :: map ct_hash l)) as (t & k & pad & E & _); eauto. discriminate. }
    destruct B as (t & ->). cbn [bind].
    assert (K : forall h l off, (forall ct, In ct l -> (0 < zlen (ct_data ct) < two63)%Z) ->
              exists ks, pending_keys h off l = Ok ks /\ length ks = length l).
    { intros h l. induction l as [|x l IH]; intros off Dl; cbn [pending_keys]; [eauto|].
      pose proof (Dl x (or_introl eq_refl)) as Dx. unfold pointer_now.
      rewrite (u64_small (zlen (ct_data x))) by (rewrite two63_val, two64_val in *; lia).
      destruct (Z.leb_spec (zlen (ct_data x)) 0); [lia|]. cbn [bind].
      destruct (IH (i64 (off + zlen (ct_data x))) (fun ct I => Dl ct (or_intror I))) as (ks & -> & Ek). cbn [bind].
      eexists. split; [reflexivity|]. cbn. now rewrite Ek. }
    set (cm := commit_now _ _ _ _ _ _). set (q := match x_ref c with Some r => r_commits r | None => [] end).
    unfold commits_now. destruct (q ++ [cm]) as [|y l] eqn:E; [now destruct q|]. cbn [bind].
    destruct (K (c_hash cm) (x_pending c) (match x_ref c with Some r => keys_next (r_keys r) | None => 0%Z end) D) as (ks & -> & Lk).
    cbn [bind]. set (old := match x_ref c with Some r => r_keys r | None => [] end).
    unfold keys_now. destruct (old ++ ks) as [|z m] eqn:E2; [|cbn; eauto].
    apply app_eq_nil in E2 as (_ & ->). destruct (x_pending c); [congruence|discriminate].
  Qed.

  Lemma commit_ends now a s id c i p fuel : (0 < a_chunk a)%Z ->
    ctx_get (a_ctxs a) id = Some c ->
    nth_error (f_handles s) (x_conn c) = Some (Handle i p true) -> i < length (f_data s) ->
    dir_get (f_dir s) (side (x_name c) (a_dst a)) <> Some (EFile i) ->
    (x_ref c <> None -> u64 (zlen (data_of s i) - x_off c) <> 0%Z) -> (0 <= x_off c)%Z ->
    length (data_of s i) < fuel ->
    snd (commit_fuel H mv fuel now a s id) <> Fuel.
  Proof.
    intros Pc Ec Eh Li Nd Nz Po Lf. unfold commit_fuel. rewrite Ec.
    pose proof (update_reference_no_fuel c now) as Nu.
    destruct (update_reference H mv c now) as [r| | |]; try discriminate; [|congruence].
    assert (E : snd (run (update_database fuel a c r) s) <> Fuel).
    { unfold update_database. unfold andthen. rewrite run_catch, run_call.
      assert (B : before_create (x_conn c) i (data_of s i) (side (x_name c) (a_dst a)) s) by (repeat split; eauto).
      destruct (trylock_source _ _ _ _ (x_name c) s B) as (B1 & N1).
      destruct (sys_trylock (x_name c) s) as [s1 o1]. cbn [fst snd] in *. destruct o1 as [l| | |]; try (cbn; discriminate); [|congruence].
      rewrite run_catch. cbn [run snd]. unfold swap_files, andthen. rewrite run_catch.
      assert (P1 : snd (run (prepare_files fuel a c r) s1) <> Fuel).
      { unfold prepare_files, andthen at 1. rewrite run_catch.
        pose proof (destination_ends (x_conn c) i (data_of s i) a c r fuel eq_refl Pc Nz ltac:(unfold zlen; lia) ltac:(lia) s1 B1) as N2.
        destruct (run (write_destination fuel a c r) s1) as [s2 o2]. cbn [fst snd] in *.
        destruct o2 as [off| | |]; try (cbn; discriminate); [|congruence].
        refine (proj2 (ends_then (fun _ => True) _ _ _ _ s2 I)).
        - apply ends_call. intros. split; [exact I|apply create_no_fuel].
        - intros b. apply ends_then; [apply copy_ends|]. intros _. apply ends_then.
          + apply ends_call. intros. split; [exact I|apply close_no_fuel].
          + intros _. apply ends_ret. discriminate. }
      destruct (run (prepare_files fuel a c r) s1) as [s3 o3]. cbn [fst snd] in *.
      destruct o3 as [off| | |]; try (cbn; discriminate); [|congruence]. apply replace_ends. exact I. }
    destruct (run _ s) as [s' [[conn off]| | |]]; cbn [snd] in *; congruence.
  Qed.

  (** ** A file without data *)
  Lemma commit_hangs a s id c now r' i p : ctx_get (a_ctxs a) id = Some c -> x_ref c <> None -> (0 <= x_off c)%Z -> (0 <= a_chunk a)%Z ->
    nth_error (f_handles s) (x_conn c) = Some (Handle i p true) -> i < length (f_data s) -> zlen (data_of s i) = x_off c ->
    f_faults s = [] -> f_locks s = [] ->
    dir_get (f_dir s) (x_name c) <> Some EDir -> dir_get (f_dir s) (side (x_name c) (a_dst a)) <> Some EDir ->
    dir_get (f_dir s) (side (x_name c) (a_dst a)) <> Some (EFile i) ->
    update_reference H mv c now = Ok r' ->
    forall fuel, snd (commit_fuel H mv fuel now a s id) = Fuel.
  Proof.
    intros Ec Er Off Pc Eh Li Ed Ff El Nd Nd2 Nd3 Eu fuel. unfold commit_fuel. rewrite Ec, Eu.
    assert (B : before_create (x_conn c) i (data_of s i) (side (x_name c) (a_dst a)) s) by (repeat split; eauto).
    assert (T : exists s1 l, sys_trylock (x_name c) s = (s1, Ok l) /\ f_faults s1 = [] /\
              dir_get (f_dir s1) (side (x_name c) (a_dst a)) <> Some EDir).
    { unfold sys_trylock. destruct (dir_get (f_dir s) (x_name c)) as [[j|]|] eqn:E; [|congruence|].
      - rewrite El. cbn [existsb]. eexists _, _. split; [reflexivity|]. auto.
      - eexists _, _. split; [reflexivity|]. cbn [with_locks with_data with_dir f_faults f_dir].
        split; auto. rewrite dir_get_set. destruct (bytes_eqb _ _); [discriminate|auto]. }
    destruct T as (s1 & l & T & Tf & Td).
    destruct (trylock_source _ _ _ _ (x_name c) s B) as (B1 & _). rewrite T in B1. cbn [fst] in B1.
    destruct (create_source _ _ _ _ s1 B1) as (_ & Js & Nj).
    assert (C : exists s2 d, sys_create (side (x_name c) (a_dst a)) s1 = (s2, Ok d) /\ f_faults s2 = []).
    { unfold sys_create. destruct (dir_get (f_dir s1) (side (x_name c) (a_dst a))) as [[j|]|]; [|congruence|];
        eexists _, _; (split; [reflexivity|]); auto. }
    destruct C as (s2 & d & C & Hf2). rewrite C in Js, Nj. cbn [fst snd] in Js, Nj. specialize (Nj d eq_refl).
    assert (X : snd (run (update_database fuel a c r') s) = Fuel).
    { unfold update_database. rewrite (run_then _ _ _ _ _ (eq_trans (run_call _ _) T)). rewrite run_catch. cbn [run snd].
      assert (Y : snd (run (swap_files fuel a c r') s1) = Fuel).
      { unfold swap_files. unfold andthen. rewrite run_catch.
        assert (Z : snd (run (prepare_files fuel a c r') s1) = Fuel).
        { unfold prepare_files. unfold andthen. rewrite run_catch.
          assert (W : snd (run (write_destination fuel a c r') s1) = Fuel).
          { unfold write_destination. rewrite (run_then _ _ _ _ _ (eq_trans (run_call _ _) C)).
            destruct (run_write d 0 (reference_to_content r') s2 Hf2) as (s3 & W1 & W2 & W3 & _).
            assert (J3 : source (x_conn c) i (data_of s i) s3).
            { pose proof (ends_write (source (x_conn c) i (data_of s i)) d 0 (reference_to_content r')) as G.
              specialize (G ltac:(intros; apply source_set; auto) ltac:(intros s0 l0 Q; exact Q) s2 Js). rewrite W1 in G. apply G. }
            rewrite (run_then _ _ _ _ _ W1).
            destruct (x_ref c) as [ref|]; [|congruence]. destruct J3 as ((p3 & Eh3) & _ & Ed3).
            unfold andthen. rewrite run_catch. rewrite run_catch, run_call. cbn [fst snd]. rewrite Eh3, Ed3.
            rewrite Ed, Z.sub_diag. change (u64 0) with 0%Z.
            assert (M : make_chunk (a_chunk a) 0 = 0%Z) by (unfold make_chunk; destruct (Z.ltb_spec 0 (a_chunk a)); lia).
            rewrite M. replace (two63 <=? 0)%Z with false by reflexivity.
            rewrite (copy_loop_zero (x_conn c) (x_off c) d i p3 Off); auto. }
          destruct (run _ s1) as [sx ox]. cbn [snd] in W. subst ox. reflexivity. }
        destruct (run _ s1) as [sx ox]. cbn [snd] in Z. subst ox. reflexivity. }
      rewrite Y. reflexivity. }
    destruct (run _ s) as [sx ox]. cbn [snd] in X. subst ox. reflexivity.
  Qed.
End End.
