(** Schedules: making them, and what Open, New and Commit do in them. *)
From Coq Require Import List ZArith NArith Lia Bool.
From Coq Require Import Init.Byte Strings.Byte.
From Verif Require Import Base BaseLemmas HashModel HashProofs SpecHash HashTreeModel HashTreeProofs
  RefModel RefProofs SpecRef DbModel SpecDb DbRefProofs DbFsProofs DbCommitProofs DbOpenProofs DbApiProofs
  DbSession DbSessionProofs DbMoreProofs DbMultiProofs DbFrameProofs DbForgeProofs DbConcurrent DbConcurrentProofs
  DbScheduleProofs DbSchedule2.
Import ListNotations.

(** ** The programs alone *)
Lemma run_p_commit H mv now a s id : run (p_commit H mv now a s id) s =
  match commit_db H mv now a s id with
  | (s', a', Ok _) => (s', Ok a')
  | (s', _, Err) => (s', Err) | (s', _, Panic) => (s', Panic) | (s', _, Fuel) => (s', Fuel)
  end.
Proof.
  unfold p_commit, commit_db, commit_fuel. destruct (ctx_get (a_ctxs a) id) as [c|]; [|reflexivity].
  destruct (update_reference H mv c now) as [r| | |]; try reflexivity.
  unfold andthen. rewrite run_catch. destruct (run _ s) as [s' [[conn off]| | |]]; reflexivity.
Qed.

Lemma states_p_commit H mv now a s id : states (p_commit H mv now a s id) s = commit_states H mv now a s id.
Proof.
  unfold p_commit, commit_states. destruct (ctx_get (a_ctxs a) id) as [c|]; [|reflexivity].
  destruct (update_reference H mv c now) as [r| | |]; try reflexivity.
  unfold andthen. rewrite states_catch_eq.
  destruct (snd _) as [v| | |]; cbn [states tl]; now rewrite app_nil_r.
Qed.

Lemma run_p_new n s : run (p_new n) s = new_db n s.
Proof.
  unfold p_new, new_db. erewrite run_then by (rewrite run_call; reflexivity). cbn [fst snd].
  destruct (sys_stat s n); [reflexivity|]. unfold andthen. rewrite run_catch, run_call.
  destruct (sys_create n s) as [s' [v| | |]]; reflexivity.
Qed.

(** ** Making schedules *)
Lemma later_trans {A B} (w1 w2 w3 : world A B) : later w1 w2 -> later w2 w3 -> later w1 w3.
Proof. induction 1; auto; intros L; econstructor; eauto. Qed.

(** The same but for the open files in the shared state, which do not matter. *)
Definition alike (s t : fsys) : Prop := with_handles s [] = with_handles t [].

Lemma alike_handles s t h : alike s t -> with_handles s h = with_handles t h.
Proof. intros E. change (with_handles (with_handles s []) h = with_handles (with_handles t []) h). now rewrite E. Qed.

Definition reach {A B} (w : world A B) (p : prog A) (h1 : list handle) (q : prog B) (h2 : list handle) (s : fsys) : Prop :=
  exists t, later w (World p h1 q h2 t) /\ alike t s.

Lemma reach_now {A B} (p : prog A) h1 (q : prog B) h2 s : reach (World p h1 q h2 s) p h1 q h2 s.
Proof. exists s. split; [constructor|reflexivity]. Qed.


Lemma reach_first {A B} (w : world A B) q h2 p t1 p' s' xs : alone p t1 p' s' xs ->
  forall t h1, later w (World p h1 q h2 t) -> with_handles t h1 = t1 ->
  exists t', later w (World p' (f_handles s') q h2 t') /\ alike t' s'.
Proof.
  induction 1 as [p s0|f s0 s1 p1 p' s' xs Ef A1 IH]; intros t h1 L Et; subst s0.
  - exists t. split; [exact L|reflexivity].
  - apply (IH s1 (f_handles s1)); [|apply handles_eta].
    eapply later_trans; [exact L|]. econstructor; [exact Ef|constructor].
Qed.

Lemma reach_second {A B} (w : world A B) p h1 q t1 q' s' xs : alone q t1 q' s' xs ->
  forall t h2, later w (World p h1 q h2 t) -> with_handles t h2 = t1 ->
  exists t', later w (World p h1 q' (f_handles s') t') /\ alike t' s'.
Proof.
  induction 1 as [q s0|f s0 s1 q1 q' s' xs Ef A1 IH]; intros t h2 L Et; subst s0.
  - exists t. split; [exact L|reflexivity].
  - apply (IH s1 (f_handles s1)); [|apply handles_eta].
    eapply later_trans; [exact L|]. econstructor; [exact Ef|constructor].
Qed.

Lemma go_first {A B} (w : world A B) p h1 q h2 s p' s' xs : reach w p h1 q h2 s ->
  alone p (with_handles s h1) p' s' xs -> reach w p' (f_handles s') q h2 s'.
Proof. intros (t & L & E) A0. rewrite <- (alike_handles _ _ h1 E) in A0. exact (reach_first w q h2 _ _ _ _ _ A0 t h1 L eq_refl). Qed.

Lemma go_second {A B} (w : world A B) p h1 q h2 s q' s' xs : reach w p h1 q h2 s ->
  alone q (with_handles s h2) q' s' xs -> reach w p h1 q' (f_handles s') s'.
Proof. intros (t & L & E) A0. rewrite <- (alike_handles _ _ h2 E) in A0. exact (reach_second w p h1 _ _ _ _ _ A0 t h2 L eq_refl). Qed.

Lemma alone_run {A} (p : prog A) : forall s, exists xs, alone p s (Ret (snd (run p s))) (fst (run p s)) xs.
Proof.
  induction p as [o|f IH] using prog_ind'; intros s; cbn [run].
  - exists [s]. constructor.
  - destruct (f s) as [s' p'] eqn:E. specialize (IH s). rewrite E in IH. destruct (IH s') as (xs & A0).
    exists (s :: xs). econstructor; eauto.
Qed.

Lemma alone_catch {A B} (k : outcome A -> prog B) p s p' s' xs : alone p s p' s' xs -> alone (catch p k) s (catch p' k) s' xs.
Proof.
  induction 1 as [p s|f s s1 p1 p' s' xs E A0 IH]; [constructor|]. cbn [catch].
  eapply alone_step; [rewrite E; reflexivity|exact IH].
Qed.

Lemma alone_then {A B} (p : prog A) (k : A -> prog B) s s' v : run p s = (s', Ok v) ->
  exists xs, alone (andthen p k) s (k v) s' xs.
Proof.
  intros E. destruct (alone_run p s) as (xs & A0). rewrite E in A0. cbn [fst snd] in A0.
  exists xs. exact (alone_catch _ _ _ _ _ _ A0).
Qed.

Lemma alone_trans {A} (p : prog A) s p' s' xs : alone p s p' s' xs -> forall p'' s'' ys, alone p' s' p'' s'' ys ->
  exists zs, alone p s p'' s'' zs.
Proof.
  induction 1 as [p s|f s s1 p1 p' s' xs E A0 IH]; intros p'' s'' ys A1; [eauto|].
  destruct (IH _ _ _ A1) as (zs & A2). exists (s :: zs). econstructor; eauto.
Qed.

Lemma later_alone {A B} (w w' : world A B) : later w w' -> quiet (w_second w) ->
  exists xs, alone (w_first w) (with_handles (w_shared w) (w_files1 w)) (w_first w') (with_handles (w_shared w') (w_files1 w')) xs.
Proof.
  induction 1 as [w|f h1 q h2 s s' p' w' E L IH|p h1 f h2 s s' q' w' E L IH]; intros Q; cbn [w_first w_second w_files1 w_files2 w_shared] in *.
  - eexists. apply alone_now.
  - destruct (IH Q) as (xs & A1). rewrite handles_eta in A1. exists (with_handles s h1 :: xs). econstructor; eauto.
  - inversion Q as [|f' Q1]; subst. destruct (Q1 (with_handles s h2)) as (E1 & Q2). rewrite E in E1, Q2. cbn [fst snd] in E1, Q2.
    replace (with_handles s h1) with (with_handles s' h1) by (rewrite E1; reflexivity). auto.
Qed.

Section Schedules.
  Variable H : bytes -> bytes.
  Variable mv : byte.
  Variable behind : bytes -> bytes.
  Hypothesis HL : forall x, length (H x) = 64.

  (** Open alone is the Open of DbModel.v, but for the number of its open file. *)
  Lemma run_p_open b n s :
    let '(_, b1, o1) := open_db H mv behind n b s in
    match snd (run (p_open H mv behind b n) s) with
    | Ok (b2, id) => o1 = Ok id /\ exists r i j1 j2,
        ctx_get (a_ctxs b1) id = Some (Ctx id n j1 (fst r) (snd r) []) /\
        ctx_get (a_ctxs b2) id = Some (Ctx id n j2 (fst r) (snd r) []) /\
        nth_error (f_handles (fst (fst (open_db H mv behind n b s)))) j1 = Some (Handle i 0 true) /\
        nth_error (f_handles (fst (run (p_open H mv behind b n) s))) j2 = Some (Handle i 0 true) /\
        (forall k, k <> id -> ctx_get (a_ctxs b2) k = ctx_get (a_ctxs b1) k)
    | Err => o1 = Err | Panic => o1 = Panic | Fuel => o1 = Fuel
    end /\ fst (run (p_open H mv behind b n) s) = with_handles s (f_handles (fst (run (p_open H mv behind b n) s))).
  Proof.
    destruct (watch_alone _ (quiet_p_open H mv behind b n) s (f_handles s)) as (W & E). rewrite handles_eta in W, E.
    unfold open_db at 1. destruct (existsb (fun x => bytes_eqb (x_name (snd x)) n) (a_ctxs b)) eqn:N.
    { unfold p_open in *. rewrite N in *. cbn [run snd fst] in *. auto. }
    assert (St : steady n [s]).
    { intros pre x post j y Ex _ Iy. destruct pre as [|? pre]; [|destruct pre; discriminate Ex].
      injection Ex as <- <-. destruct Iy as [<-|[]]. reflexivity. }
    apply watch_p_open in W as (pre & x & post & Ex & M); auto.
    destruct pre as [|? pre]; [|destruct pre; discriminate Ex]. injection Ex as <- <-.
    destruct (dir_get (f_dir s) n) as [[i|]|] eqn:Ed; [|rewrite M; auto ..].
    destruct (retrieve_reference H mv behind (a_chunk b) (data_of s i)) as [[ref off]| | |] eqn:Er; [|rewrite M; auto ..].
    destruct M as (y & Iy & M). destruct Iy as [<-|[]]. rewrite Ed in M. destruct M as (M1 & M2).
    unfold sys_open at 1. rewrite Ed. rewrite M1. split; [|exact E].
    split; [reflexivity|]. exists (ref, off), i, (length (f_handles s)), (S (length (f_handles s))).
    split; [|split; [|split; [|split]]].
    - cbn [with_ctxs a_ctxs]. rewrite ctx_get_set, Z.eqb_refl. reflexivity.
    - apply opened_ctx.
    - unfold open_db. rewrite N, Ed, Er. unfold sys_open. rewrite Ed. cbn [fst with_handles f_handles]. apply nth_error_end.
    - rewrite M2. apply second_end.
    - intros k Nk. cbn [opened with_ctxs a_ctxs]. rewrite !ctx_get_set.
      replace (zlen (a_ctxs b) =? k)%Z with false by (symmetry; apply Z.eqb_neq; auto). reflexivity.
  Qed.

  (** ** The header grows *)
  Lemma header_grows bs (y : batch) : Forall ok_batch (bs ++ [y]) ->
    (zlen (history_data (bs ++ [y])) < two63)%Z ->
    (zlen (header (history_ref H mv bs)) + 152 <= zlen (header (history_ref H mv (bs ++ [y]))))%Z.
  Proof.
    intros F L. rewrite history_ref_app_some. cbn [header].
    pose proof (history_keys_wf H mv HL (bs ++ [y]) None 0 F ltac:(lia) L) as W.
    unfold reference_content. cbn [r_keys r_commits]. rewrite !zlen_app.
    assert (P8 : forall z, zlen (put_u64 z) = 8%Z) by (intros z; unfold zlen; now rewrite put_u64_length).
    assert (PK : forall l, Forall wf_key l -> zlen (keys_content l) = (8 + 152 * Z.of_nat (length l))%Z).
    { intros l Wl. unfold zlen. rewrite keys_content_length by exact Wl. lia. }
    rewrite !P8, PK by exact W.
    pose proof (zlen_nonneg (commits_content (chain H mv None (bs ++ [y])))) as Zc.
    assert (Kn : length (history_keys H mv None 0 (bs ++ [y])) >= 1 + length (history_keys H mv None 0 bs)).
    { rewrite history_keys_app, app_length. cbn [history_keys fst]. rewrite app_length.
      apply Forall_app in F as (_ & F). inversion F as [|? ? (N & _) _]; subst. destruct (fst y) as [|c pd]; [congruence|]. cbn [place length]. lia. }
    destruct bs as [|x bs]; [cbn [header history_ref]; change (zlen []) with 0%Z; cbn [history_keys length] in Kn; lia|].
    assert (N : x :: bs <> []) by discriminate. revert F L W Zc Kn N. generalize (x :: bs). clear x bs. intros bs F L W Zc Kn N.
    assert (E : history_ref H mv bs = Some (Reference (history_keys H mv None 0 bs) (chain H mv None bs))).
    { destruct bs; [congruence|reflexivity]. }
    rewrite E. cbn [header]. unfold reference_content. cbn [r_keys r_commits]. rewrite !zlen_app, !P8.
    rewrite history_keys_app in W. apply Forall_app in W as (W & _). rewrite PK by exact W.
    assert (C : (zlen (commits_content (chain H mv None bs)) <= zlen (commits_content (chain H mv None (bs ++ [y]))))%Z).
    { rewrite chain_app. unfold commits_content. rewrite map_app, concat_app, zlen_app.
      match goal with |- (_ <= _ + zlen ?l)%Z => pose proof (zlen_nonneg l) end. lia. }
    lia.
  Qed.

  (** ** Open while another process commits *)
  Section One.
  Variables (a : dbapp) (s : fsys) (n : bytes) (id : Z) (bs : list batch) (pd : list content) (now : Z).
  Hypothesis Sy : synced H mv a s n id bs pd.
  Hypothesis Wb : ok_batch (pd, now).
  Hypothesis Ft : fits H mv (bs ++ [(pd, now)]).
  Hypothesis Ch : chunk_ok (a_chunk a) (history_data bs).
  Notation new := (bs ++ [(pd, now)]).

  Lemma synced_fs : fs_ok s.
  Proof. destruct Sy as (i & h & (A1 & A2 & A3 & _) & _). exact A3. Qed.

  Section Reader.
  Variable b : dbapp.
  Hypothesis Gb : good_config b.
  Hypothesis Nb : existsb (fun x => bytes_eqb (x_name (snd x)) n) (a_ctxs b) = false.
  Variable hs : list handle.
  Notation start := (World (p_commit H mv now a s id) (f_handles s) (p_open H mv behind b n) hs s).

  Lemma commit_undisturbed w : later start w ->
    exists xs, alone (p_commit H mv now a s id) s (w_first w) (with_handles (w_shared w) (w_files1 w)) xs.
  Proof.
    intros L. destruct (later_alone _ _ L (quiet_p_open H mv behind b n)) as (xs & A0).
    cbn [w_first w_shared w_files1] in A0. rewrite handles_eta in A0. eauto.
  Qed.

  Lemma open_schedule w o : later start w -> w_second w = Ret o ->
    let seen := with_handles (w_shared w) (w_files2 w) in
    (o = Err /\ dir_get (f_dir (w_shared w)) n <> dir_get (f_dir s) n) \/
    exists b' id', o = Ok (b', id') /\
      (shows H (b', seen, id') bs \/
       (shows H (b', seen, id') new /\ dir_get (f_dir (w_shared w)) n <> dir_get (f_dir s) n) \/
       (mixed H mv (b', seen, id') a id bs new /\ dir_get (f_dir (w_shared w)) n <> dir_get (f_dir s) n)).
  Proof.
    intros L E. destruct (later_watch _ _ L (quiet_p_open H mv behind b n) o E) as (xs & ys & A0 & W).
    cbn [w_first w_shared w_files1 w_second w_files2] in *. rewrite handles_eta in A0.
    destruct (alone_states _ _ _ _ _ A0) as ((pre & -> & Es) & _).
    destruct (states_cons (w_first w) (with_handles (w_shared w) (w_files1 w))) as (rest & Er).
    rewrite Er in Es. change (?x :: rest) with ([x] ++ rest) in Es. rewrite app_assoc in Es.
    assert (Lz : length (f_data s) <= length (f_data (with_handles (w_shared w) (w_files1 w)))).
    { apply (commit_grows H mv now a s id _ synced_fs). rewrite <- states_p_commit, Es.
      apply in_or_app. left. apply in_or_app. right. now left. }
    exact (open_watching H mv behind HL a s n id bs pd now Sy Wb Ft Ch b Gb Nb _ _ _ _ _ _ _ Es Lz W).
  Qed.
  End Reader.
  End One.
End Schedules.
