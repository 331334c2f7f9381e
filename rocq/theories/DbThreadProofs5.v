(** Goroutines that share one application: a Commit that is interrupted by another call on the same database. *)
From Coq Require Import List ZArith NArith Lia Bool.
From Coq Require Import Init.Byte Strings.Byte.
From Verif Require Import Base BaseLemmas HashModel HashProofs SpecHash HashTreeModel HashTreeProofs
  RefModel RefProofs SpecRef DbModel SpecDb DbRefProofs DbFsProofs DbCommitProofs DbOpenProofs DbApiProofs
  DbSession DbSessionProofs DbMoreProofs DbMultiProofs DbFrameProofs DbConcurrent DbConcurrentProofs
  DbScheduleProofs DbSchedule3 DbSizeProofs SpecPower DbPowerProofs DbThreads SpecThreads DbThreadProofs DbThreadProofs2 DbThreadProofs3 DbThreadProofs4.
Import ListNotations.

(** What a Commit does once it has made the new reference. *)
Definition finish (a : dbapp) (fuel : nat) (id : Z) (r : reference) : gprog unit :=
  go* p <- g_find id;
  go* x <- g_update_database a fuel p r;
  go* _ <- g_assign id (set_ref r);
  go* _ <- g_assign id (set_off (snd x));
  g_assign id (set_conn (fst x)).

Section Finish.
  Variable H : bytes -> bytes.
  Variable mv : byte.
  Hypothesis HL : forall x, length (H x) = 64.

  (** The memory has changed meanwhile: the file has the history [bs], and the contents [pd] are pending. *)
  Lemma finish_commit {B} (q : gprog B) a aw s m n id bs pd r fuel :
    a_chunk aw = a_chunk a -> a_dst aw = a_dst a -> a_bck aw = a_bck a ->
    synced H mv aw s n id bs pd -> in_memory aw s m -> chunk_ok (a_chunk a) (history_data bs) ->
    length (history_file H mv bs) < fuel ->
    exists m' a' s' i h,
      goes (Team (finish a fuel id r) q m) (Team (GRet (Ok tt)) q m') /\
      in_memory a' s' m' /\ a_chunk a' = a_chunk a /\ a_dst a' = a_dst a /\ a_bck a' = a_bck a /\
      ctx_get (a_ctxs a') id = Some (Ctx id n h (Some r) (zlen (reference_to_content r)) pd) /\
      nth_error (f_handles s') h = Some (Handle i 0 true) /\
      dir_get (f_dir s') n = Some (EFile i) /\ data_of s' i = reference_to_content r ++ history_data bs ++ batch_data pd /\
      dir_get (f_dir s') (side n (a_dst a)) = None /\ dir_get (f_dir s') (side n (a_bck a)) = None /\
      fs_ok s' /\ f_faults s' = [] /\ f_locks s' = [].
  Proof.
    intros C1 C2 C3 (i & h & (A1 & A2 & A3 & A4 & A5 & A6 & A7 & A8 & A9 & A10 & A11) & Ec & Eh) Im Ch Lf.
    rewrite C1 in A2. rewrite C2 in A1, A6. rewrite C3 in A1, A7.
    set (c := Ctx id n h (history_ref H mv bs) (zlen (header (history_ref H mv bs))) pd) in *.
    destruct (in_memory_ctx _ _ _ _ _ Im Ec) as (p & Ep & Ehp).
    assert (Inj : forall e, dir_get (f_dir s) (side n e) <> Some (EFile i)).
    { intros e Y. destruct A3 as (_ & I). apply (side_neq n e). eapply I; eauto. }
    assert (Nh : bs <> [] -> (0 < zlen (history_data bs))%Z) by (intros N; exact (history_data_pos bs N A10)).
    assert (Hc : x_ref c <> None -> (0 < a_chunk a)%Z /\ (0 <= x_off c < zlen (data_of s i))%Z).
    { intros N. assert (Nb' : bs <> []) by (intros ->; now apply N). split; [exact A2|]. cbn [x_off c]. rewrite A9.
      unfold history_file. rewrite zlen_app. pose proof (zlen_nonneg (header (history_ref H mv bs))). specialize (Nh Nb'). lia. }
    assert (Li : i < length (f_data s)) by (now apply A3 in A5).
    assert (Lk : existsb (Nat.eqb i) (f_locks s) = false) by now rewrite A8.
    assert (Lo : (zlen (data_of s i) < two63)%Z) by (rewrite A9; exact A11).
    assert (T := update_database_tri a c r s i i A1 A3 A4 A5 (conj Li (conj (Inj _) (Inj _))) Eh Lk A6 A7 Lo Hc fuel).
    rewrite A9 in T. specialize (T Lf). apply tri_run in T.
    destruct (run (update_database fuel a c r) s) as [s' o] eqn:Ed. cbn [fst snd] in T.
    destruct T as ((-> & d & D1 & D2 & D3 & D4 & D5 & D6 & D7) & D8).
    change (x_name c) with n in D1.
    assert (Ek : copied a c s i = history_data bs).
    { unfold copied. cbn [x_ref x_off c]. rewrite A9. unfold history_file.
      rewrite (skipn_app_exact _ (history_data bs)) by (unfold zlen; now rewrite Nat2Z.id).
      destruct bs as [|b l] eqn:Eb; [reflexivity|]. cbn [history_ref]. destruct Ch as (Pc & Ch').
      apply kept_ok; auto. intros X. assert (Nb' : b :: l <> []) by discriminate. specialize (Nh Nb'). rewrite X in Nh. cbn in Nh. lia. }
    set (h' := length (f_handles s)) in *.
    set (cf := Ctx id n h' (Some r) (zlen (reference_to_content r)) pd).
    assert (Em : m = Mem (m_ctxs m) (m_heap m) s) by exact (in_memory_eta _ _ _ Im).
    set (hp := m_heap m) in *. set (cs := m_ctxs m) in *.
    destruct (sim_update_database a cs hp p c Ehp fuel r s) as (Ru & _). rewrite Ed in Ru. cbn [fst snd] in Ru.
    assert (E1 : nth_error (set_nth hp p (set_ref r c)) p = Some (set_ref r c)) by (eapply nth_set_same; eauto).
    set (h1 := set_nth hp p (set_ref r c)) in *.
    set (h2 := set_nth h1 p (set_off (zlen (reference_to_content r)) (set_ref r c))) in *.
    assert (E2 : nth_error h2 p = Some (set_off (zlen (reference_to_content r)) (set_ref r c))) by (eapply nth_set_same; eauto).
    destruct (assign_run cs id p Ep (set_ref r) hp s' c Ehp) as (W1 & _).
    destruct (assign_run cs id p Ep (set_off (zlen (reference_to_content r))) h1 s' _ E1) as (W2 & _).
    destruct (assign_run cs id p Ep (set_conn h') h2 s' _ E2) as (W3 & _).
    assert (Sn : forall l j (x y : ctx), set_nth (set_nth l j x) j y = set_nth l j y).
    { clear. induction l as [|z l IH]; intros [|j] x y; cbn; auto. now rewrite IH. }
    exists (Mem cs (set_nth hp p cf) s'), (with_ctxs aw (ctx_set (a_ctxs aw) id cf)), s', d, h'.
    split; [|split; [|split; [exact C1|split; [exact C2|split; [exact C3|split; [|split; [|split; [|split; [|split; [|split; [|split; [exact D7|split; [exact D5|]]]]]]]]]]]]].
    - unfold finish. rewrite Em.
      eapply goes_trans; [eapply goes_next; destruct (still_find id (Mem cs hp s) p Ep) as (Rf & _); exact Rf|]. cbv beta.
      eapply goes_trans; [eapply goes_next; exact Ru|]. cbv beta. cbn [fst snd].
      eapply goes_trans; [eapply goes_next; exact W1|]. cbv beta. eapply goes_trans; [eapply goes_next; exact W2|]. cbv beta.
      pose proof (goes_end q (g_assign id (set_conn h')) (Mem cs h2 s')) as Ge. rewrite W3 in Ge. cbn [fst snd] in Ge.
      assert (Eq : set_nth h2 p (set_conn h' (set_off (zlen (reference_to_content r)) (set_ref r c))) = set_nth hp p cf).
      { unfold h2, h1. rewrite !Sn. reflexivity. }
      rewrite Eq in Ge. exact Ge.
    - exact (in_memory_change aw s (Mem cs hp s) id p c cf s' cs ltac:(rewrite <- Em; exact Im) Ep Ehp (or_introl eq_refl)).
    - cbn [with_ctxs a_ctxs]. rewrite ctx_get_set, Z.eqb_refl. reflexivity.
    - rewrite D4. unfold h'. rewrite nth_error_app2 by (rewrite set_nth_len; lia). rewrite set_nth_len, Nat.sub_diag. reflexivity.
    - rewrite D1, bytes_eqb_refl. reflexivity.
    - rewrite D2. unfold newfile. rewrite Ek. reflexivity.
    - rewrite D1. rewrite (proj2 (bytes_eqb_false n (side n (a_dst a)))) by (intros X; symmetry in X; now apply side_neq in X). now rewrite bytes_eqb_refl.
    - rewrite D1. rewrite (proj2 (bytes_eqb_false n (side n (a_bck a)))) by (intros X; symmetry in X; now apply side_neq in X).
      rewrite bytes_eqb_refl. now destruct (bytes_eqb (side n (a_dst a)) (side n (a_bck a))).
    - now rewrite D8.
  Qed.

  (** A Commit makes its reference, and then another goroutine makes its whole call. *)
  Lemma interrupted {B} (q : gprog B) a s m n id bs pd now fuel o m1 :
    synced H mv a s n id bs pd -> ok_batch (pd, now) -> fits H mv (bs ++ [(pd, now)]) -> in_memory a s m ->
    g_run q m = (m1, o) ->
    exists r, history_ref H mv (bs ++ [(pd, now)]) = Some r /\
      goes (Team (g_commit H mv a fuel now id) q m) (Team (finish a fuel id r) (GRet o) m1).
  Proof.
    intros (i & h & (A1 & A2 & A3 & A4 & A5 & A6 & A7 & A8 & A9 & A10 & A11) & Ec & Eh) Wb Ft Im Rq.
    set (c := Ctx id n h (history_ref H mv bs) (zlen (header (history_ref H mv bs))) pd) in *.
    destruct (in_memory_ctx _ _ _ _ _ Im Ec) as (p & Ep & Ehp).
    destruct (update_reference_spec H mv HL c bs now) as (r & Er & Hr); auto.
    { now apply fits_data in Ft. }
    cbn [x_pending c] in Hr. exists r. split; [exact Hr|].
    destruct (still_update_reference H mv id now m p c Ep Ehp) as (Rr & _). rewrite Er in Rr.
    unfold g_commit. eapply goes_trans; [eapply goes_next; exact Rr|]. cbv beta.
    eapply goes_then; [exact Rq|]. constructor.
  Qed.
End Finish.

(** ** Readers of the database itself, beside Write, Cancel and Close *)
(** A reader that comes to [o], or to an error if it [may]. *)
Inductive leans {A} (J : mem -> Prop) (may : bool) (o : outcome A) : gprog A -> Prop :=
| leans_ret : leans J may o (GRet o)
| leans_err : may = true -> leans J may o (GRet Err)
| leans_step f : (forall m, J m -> leans J may o (snd (f m))) -> leans J may o (GStep f).

Lemma sees_leans {A} (J : mem -> Prop) may (q : gprog A) l o o' : sees q l o' -> Forall J l -> leans J may o q ->
  o' = o \/ may = true /\ o' = Err.
Proof.
  intros S. induction S as [o' l|f pre m post o' S IH]; intros F An.
  - inversion An; subst; auto.
  - inversion An as [| |f' K]; subst. apply Forall_app in F as (_ & F). apply IH; [exact F|]. apply K. now inversion F.
Qed.

Lemma leans_bind {A B} J may (q : gprog A) (k : A -> gprog B) v (k' : A -> outcome B) : leans J may v q ->
  (forall x, v = Ok x -> leans J may (k' x) (k x)) -> leans J may (bind v k') (g_then q k).
Proof.
  intros An K. induction An as [|E|f F IH]; unfold g_then; cbn [g_catch].
  - destruct v; cbn [bind]; auto; constructor.
  - now apply leans_err.
  - constructor. intros m Jm. specialize (IH m Jm). destruct (f m) as [m' q']. exact IH.
Qed.
Lemma leans_then {A B} J may (q : gprog A) (k : A -> gprog B) v o : leans J may (Ok v) q -> leans J may o (k v) -> leans J may o (g_then q k).
Proof. intros An K. apply (leans_bind J may q k (Ok v) (fun _ => o) An). intros x [= <-]. exact K. Qed.
Lemma leans_look {A} (J : mem -> Prop) may (f : mem -> outcome A) o : (forall m, J m -> f m = o) -> leans J may o (GStep (fun m => (m, GRet (f m)))).
Proof. intros E. constructor. intros m Jm. cbn [snd]. rewrite (E m Jm). constructor. Qed.

Section Leaning.
  Variables (a : dbapp) (s : fsys) (id : Z) (p : nat) (c : ctx) (may : bool).
  Hypothesis Ec : ctx_get (a_ctxs a) id = Some c.

  (** The context is where it was, up to what is pending, and its file reads as before. If the reader may fail, the
      context can be missing in the map, and the file can be closed. *)
  Definition near (x : mem) : Prop :=
    (ptr_get (m_ctxs x) id = Some p \/ may = true /\ ptr_get (m_ctxs x) id = None) /\
    (exists pd, nth_error (m_heap x) p = Some (with_pending c pd)) /\
    forall n off, read_at (m_fs x) (x_conn c) n off = read_at s (x_conn c) n off \/ may = true /\ read_at (m_fs x) (x_conn c) n off = Err.

  Lemma leans_find : leans near may (Ok p) (g_find id).
  Proof.
    unfold g_find, g_then, g_lookup. cbn [g_catch]. constructor. intros x ([E|(M & E)] & _); cbn [snd g_catch]; rewrite E; [constructor|now apply leans_err].
  Qed.
  Lemma leans_field {A} (f : ctx -> A) : (forall pd, f (with_pending c pd) = f c) -> leans near may (Ok (f c)) (g_field p f).
  Proof. intros K. apply leans_look. intros x (_ & (pd & E) & _). now rewrite E, K. Qed.
  Lemma leans_reference {A} (nothing : A) f :
    leans near may (match x_ref c with None => Ok nothing | Some r => f r end) (g_reference p nothing f).
  Proof.
    unfold g_reference. eapply leans_then; [now apply leans_field|]. destruct (x_ref c) as [r|] eqn:X; [|constructor].
    eapply leans_then; [now apply leans_field|]. rewrite X. constructor.
  Qed.
  Lemma leans_keys : leans near may (content_keys a id) (g_content_keys id).
  Proof.
    unfold content_keys, g_content_keys. rewrite Ec. eapply leans_then; [apply leans_find|].
    eapply (leans_then _ _ _ _ (match x_ref c with None => None | Some r => Some (r_keys r) end)).
    - pose proof (leans_reference None (fun r => Ok (Some (r_keys r)))) as An. now destruct (x_ref c).
    - destruct (x_ref c); constructor.
  Qed.
  Lemma leans_commits : leans near may (commits_db a id) (g_commits id).
  Proof.
    unfold commits_db, g_commits. rewrite Ec. eapply leans_then; [apply leans_find|].
    eapply (leans_then _ _ _ _ (match x_ref c with None => None | Some r => Some (r_commits r) end)).
    - pose proof (leans_reference None (fun r => Ok (Some (r_commits r)))) as An. now destruct (x_ref c).
    - destruct (x_ref c); constructor.
  Qed.
  Lemma leans_read q : leans near may (read_db a s id q) (g_read id q).
  Proof.
    unfold read_db, g_read. rewrite Ec. eapply leans_then; [apply leans_find|].
    eapply leans_then; [now apply leans_field|]. destruct (_ <=? _)%Z; [constructor|].
    eapply leans_then; [now apply leans_field|]. constructor. intros x (_ & _ & E). cbn [lift p_read call snd].
    destruct (E (p_length q) (i64 (u64 (x_off c + p_from q)))) as [->|(M & ->)]; [constructor|now apply leans_err].
  Qed.
  Lemma leans_hash h : leans near may (read_by_hash a s id h) (g_read_by_hash id h).
  Proof.
    unfold read_by_hash, g_read_by_hash. apply leans_bind; [apply leans_keys|]. intros ks _.
    apply leans_bind; [constructor|]. intros k _. apply leans_read.
  Qed.
  Lemma leans_reading B (q : gprog B) o : reading a s id B q o -> leans near may o q.
  Proof.
    intros R. destruct R; auto using leans_read, leans_keys, leans_commits, leans_hash.
    - unfold content_keys_by_kind, g_keys_by_kind. apply leans_bind; [apply leans_keys|]. constructor.
    - unfold commit_by_hash, g_commit_by_hash. apply leans_bind; [apply leans_commits|]. constructor.
    - induction ps as [|q ps IH]; [constructor|]. cbn [read_all g_read_all]. apply leans_bind; [apply leans_read|]. intros b _.
      apply leans_bind; [exact IH|]. constructor.
    - induction hs as [|h hs IH]; [constructor|]. cbn [read_all_by_hashes g_read_all_by_hashes]. apply leans_bind; [apply leans_hash|]. intros b _.
      apply leans_bind; [exact IH|]. constructor.
  Qed.
End Leaning.

(** No context: every call is an error. *)
Section Missing.
  Variables (a : dbapp) (s : fsys) (id : Z).
  Hypothesis Ec : ctx_get (a_ctxs a) id = None.
  Definition missing (x : mem) : Prop := ptr_get (m_ctxs x) id = None.

  Lemma missing_find {A} (k : nat -> gprog A) : leans missing false Err (g_then (g_find id) k).
  Proof. unfold g_find, g_then, g_lookup. cbn [g_catch]. constructor. intros x E. cbn [snd g_catch]. rewrite E. constructor. Qed.
  Lemma missing_then {A B} (q : gprog A) (k : A -> gprog B) : leans missing false Err q -> leans missing false Err (g_then q k).
  Proof. intros L. exact (leans_bind missing false q k Err (fun _ => Err) L ltac:(discriminate)). Qed.
  Lemma missing_reading B (q : gprog B) o : reading a s id B q o -> leans missing false o q.
  Proof.
    intros R.
    assert (RD : forall q0, read_db a s id q0 = Err) by (intros q0; unfold read_db; now rewrite Ec).
    assert (CK : content_keys a id = Err) by (unfold content_keys; now rewrite Ec).
    assert (CD : commits_db a id = Err) by (unfold commits_db; now rewrite Ec).
    assert (RH : forall h, read_by_hash a s id h = Err) by (intros h; unfold read_by_hash; now rewrite CK).
    assert (K1 : leans missing false Err (g_content_keys id)) by apply missing_find.
    assert (K2 : leans missing false Err (g_commits id)) by apply missing_find.
    assert (K3 : forall q0, leans missing false Err (g_read id q0)) by (intros; apply missing_find).
    assert (K4 : forall h, leans missing false Err (g_read_by_hash id h)) by (intros; now apply missing_then).
    destruct R.
    - now rewrite RD.
    - now rewrite RH.
    - now rewrite CK.
    - unfold content_keys_by_kind. rewrite CK. now apply missing_then.
    - now rewrite CD.
    - unfold commit_by_hash. rewrite CD. now apply missing_then.
    - destruct ps; [constructor|]. cbn [read_all]. rewrite RD. apply missing_then, K3.
    - destruct hs; [constructor|]. cbn [read_all_by_hashes]. rewrite RH. apply missing_then, K4.
  Qed.
End Missing.

Section Beside.
  Variables (a : dbapp) (s : fsys) (m : mem).
  Hypothesis Im : in_memory a s m.

  (** The map leads where it led, and the contexts differ in what is pending at most. *)
  Definition alike (x : mem) : Prop :=
    m_fs x = s /\ (forall id, ptr_get (m_ctxs x) id = ptr_get (m_ctxs m) id) /\
    forall p c, nth_error (m_heap m) p = Some c -> exists pd, nth_error (m_heap x) p = Some (with_pending c pd).

  Lemma alike_now : alike m.
  Proof. split; [apply Im|]. split; [reflexivity|]. intros p [i n h r o pd] E. exists pd. exact E. Qed.

  Lemma alike_store p c c' cs : nth_error (m_heap m) p = Some c -> (exists pd, c' = with_pending c pd) ->
    (forall id, ptr_get cs id = ptr_get (m_ctxs m) id) -> alike (Mem cs (set_nth (m_heap m) p c') s).
  Proof.
    intros E (pd & ->) P. split; [reflexivity|]. split; [exact P|]. cbn [m_heap]. intros p' c0 E0.
    destruct (Nat.eq_dec p p') as [->|N].
    - rewrite E in E0. injection E0 as <-. exists pd. eapply nth_set_same; eauto.
    - rewrite (nth_set_other _ _ _ _ N). destruct c0 as [i n h r o pd0]. exists pd0. exact E0.
  Qed.

  Lemma alike_set id p : ptr_get (m_ctxs m) id = Some p -> forall j, ptr_get (ptr_set (m_ctxs m) id p) j = ptr_get (m_ctxs m) j.
  Proof. intros E j. rewrite ptr_get_set. destruct (Z.eqb_spec id j) as [<-|]; auto. Qed.

  Lemma alike_write id h d k : Forall alike (g_states (g_write id h d k) m).
  Proof.
    pose proof alike_now as A0. unfold g_write, g_find, g_then, g_lookup, g_field, g_store, g_enter. cbn [g_catch g_states].
    constructor; [exact A0|]. destruct (ptr_get (m_ctxs m) id) as [p|] eqn:Ep; cbn [g_catch g_states]; [|now constructor].
    destruct (content_now h d k) as [ct| | |]; cbn [g_catch g_states]; try (now constructor).
    constructor; [exact A0|]. destruct (nth_error (m_heap m) p) as [c|] eqn:Eh; cbn [g_catch g_states]; [|now constructor].
    constructor; [exact A0|]. rewrite Eh. cbn [g_catch g_states m_ctxs m_heap m_fs].
    assert (Ef : m_fs m = s) by apply Im. rewrite Ef.
    constructor; [eapply alike_store; eauto|]. constructor; [|constructor]. eapply alike_store; eauto. now apply alike_set.
  Qed.

  Lemma alike_cancel id : Forall alike (g_states (g_cancel id) m).
  Proof.
    pose proof alike_now as A0. unfold g_cancel, g_find, g_then, g_lookup, g_store, g_enter. cbn [g_catch g_states].
    constructor; [exact A0|]. destruct (ptr_get (m_ctxs m) id) as [p|] eqn:Ep; cbn [g_catch g_states]; [|now constructor].
    constructor; [exact A0|]. destruct (nth_error (m_heap m) p) as [c|] eqn:Eh; cbn [g_catch g_states m_ctxs m_heap m_fs]; [|now constructor].
    assert (Ef : m_fs m = s) by apply Im. rewrite Ef.
    constructor; [eapply alike_store; eauto|]. constructor; [|constructor]. eapply alike_store; eauto. now apply alike_set.
  Qed.

  Lemma alike_reading id B (q : gprog B) o l o' : reading a s id B q o -> Forall alike l -> sees q l o' -> o' = o.
  Proof.
    intros R F S. destruct (ctx_get (a_ctxs a) id) as [c|] eqn:Ec.
    - destruct (in_memory_ctx _ _ _ _ _ Im Ec) as (p & Ep & Eh).
      destruct (sees_leans (near s id p c false) false q l o o' S) as [|(X & _)]; auto; [|eapply leans_reading; eauto|discriminate].
      eapply Forall_impl; [|exact F]. intros x (Ef & Pt & Hp). split; [left; now rewrite Pt|]. split; [now apply Hp|]. intros n off. left. now rewrite Ef.
    - destruct (sees_leans (missing id) false q l o o' S) as [|(X & _)]; auto; [|eapply missing_reading; eauto|discriminate].
      eapply Forall_impl; [|exact F]. intros x (_ & Pt & _). unfold missing. rewrite Pt. eapply in_memory_none; eauto.
  Qed.

  (** Close. *)
  Lemma closing_reading id B (q : gprog B) o o' : reading a s id B q o -> sees q (g_states (g_close id) m) o' -> o' = o \/ o' = Err.
  Proof.
    intros R S. destruct (ctx_get (a_ctxs a) id) as [c|] eqn:Ec.
    - destruct (in_memory_ctx _ _ _ _ _ Im Ec) as (p & Ep & Eh).
      destruct (sees_leans (near s id p c true) true q _ o o' S) as [|(_ & X)]; auto; [|eapply leans_reading; eauto].
      assert (Ef : m_fs m = s) by apply Im.
      assert (K : exists pd, nth_error (m_heap m) p = Some (with_pending c pd)) by (exists (x_pending c); rewrite Eh; now destruct c).
      assert (N0 : near s id p c true m) by (split; [now left|]; split; [exact K|]; intros; left; now rewrite Ef).
      unfold g_close, g_find, g_then, g_lookup, g_field. cbn [g_catch g_states]. constructor; [exact N0|].
      rewrite Ep. cbn [g_catch g_states]. constructor; [exact N0|]. rewrite Eh. cbn [lift call g_catch g_states]. constructor; [exact N0|].
      rewrite Ef. unfold sys_close. destruct (nth_error (f_handles s) (x_conn c)) as [[i o0 [|]]|] eqn:Ek; cbn [g_catch g_states lift on_fs m_ctxs m_heap m_fs].
      + assert (Re : forall n off, read_at (with_handles s (set_nth (f_handles s) (x_conn c) (Handle i o0 false))) (x_conn c) n off = Err).
        { intros n off. unfold read_at. cbn [with_handles f_handles]. now rewrite (nth_set_same _ _ _ _ Ek). }
        constructor; [|constructor; [|constructor]].
        * split; [now left|]. split; [exact K|]. intros n off. right. split; [reflexivity|]. apply Re.
        * split; [right; split; [reflexivity|]; cbn [m_ctxs]; rewrite ptr_get_drop, Z.eqb_refl; reflexivity|]. split; [exact K|]. intros n off. right. split; [reflexivity|]. apply Re.
      + constructor; [|constructor]. split; [now left|]. split; [exact K|]. intros; now left.
      + constructor; [|constructor]. split; [now left|]. split; [exact K|]. intros; now left.
    - left. destruct (sees_leans (missing id) false q _ o o' S) as [|(X & _)]; auto; [|eapply missing_reading; eauto|discriminate].
      assert (Ep : ptr_get (m_ctxs m) id = None) by (eapply in_memory_none; eauto).
      unfold g_close, g_find, g_then, g_lookup. cbn [g_catch g_states]. rewrite Ep. cbn [g_catch g_states]. repeat constructor; exact Ep.
  Qed.
End Beside.

(** Any number of readers beside a call, from what one reader can see. *)
Lemma readers_beside {A} (call : gprog A) a s m (ok : Z -> Prop) (Q : {B : Type & outcome B} -> {B : Type & outcome B} -> Prop) :
  (forall id B (q : gprog B) o o', ok id -> reading a s id B q o -> sees q (g_states call m) o' -> Q (existT outcome B o') (existT outcome B o)) ->
  forall ts es, readers a s ok ts es -> forall us m', together (thread_of call :: ts) m us m' ->
  exists call' ts', us = thread_of call' :: ts' /\ g_run call' m' = g_run call m /\
    Forall2 (fun t e => forall r, came_to t = Some r -> Q r e) ts' es.
Proof.
  intros K ts es Rd us m' T.
  assert (F : Forall2 (follows (g_states call m)) ts (map (fun e r => Q r e) es)).
  { clear T. induction Rd as [|t e ts es (id & B & q & o & Ok & R & -> & ->) Rd IH]; cbn [map]; constructor; auto.
    exists B, q. split; [reflexivity|]. split; [eapply reading_reads; eauto|]. intros o' S. eapply K; eauto. }
  destruct (watched A _ _ _ _ T call ts _ eq_refl F) as (call' & ts' & -> & R & F2).
  exists call', ts'. split; [reflexivity|]. split; [exact R|]. clear - F2. revert es F2.
  induction ts' as [|t ts' IH]; intros [|e es] F2; inversion F2 as [|? ? ? ? Fo F3]; subst; constructor; auto. intros r Cr. exact (follows_end _ _ _ _ Fo Cr).
Qed.
