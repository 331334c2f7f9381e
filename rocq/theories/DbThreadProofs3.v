(** Goroutines that share one application: other databases, and the same database. *)
From Coq Require Import List ZArith NArith Lia Bool.
From Coq Require Import Init.Byte Strings.Byte.
From Verif Require Import Base BaseLemmas HashModel HashProofs SpecHash HashTreeModel HashTreeProofs
  RefModel RefProofs SpecRef DbModel SpecDb DbRefProofs DbFsProofs DbCommitProofs DbOpenProofs DbApiProofs
  DbSession DbSessionProofs DbMoreProofs DbMultiProofs DbFrameProofs DbConcurrent DbConcurrentProofs
  DbScheduleProofs DbSchedule3 DbSizeProofs DbPowerProofs DbThreads SpecThreads DbThreadProofs DbThreadProofs2.
Import ListNotations.

Lemma forall2_len {A B} (P : A -> B -> Prop) l r : Forall2 P l r -> length l = length r.
Proof. intros F. induction F; cbn; congruence. Qed.

Lemma answers_weaken {A} (J K : mem -> Prop) o (q : gprog A) : (forall x, K x -> J x) -> answers J o q -> answers K o q.
Proof. intros W An. induction An as [|f F IH]; constructor; auto. Qed.

Lemma answers_run {A} m (q : gprog A) : reads q -> answers (eq m) (snd (g_run q m)) q.
Proof.
  intros R. induction R as [o|f E R IH]; [constructor|]. constructor. intros x <-. specialize (E m). specialize (IH m).
  cbn [g_run]. destruct (f m) as [m' q']. cbn [fst snd] in *. now subst m'.
Qed.

Lemma readers_ties a s m ok ts es : in_memory a s m -> readers a s ok ts es -> Forall2 (ties (eq m)) ts es.
Proof.
  intros Im R. eapply Forall2_impl'; [|exact R]. cbv beta. intros t e (id & B & q & o & _ & Rd & -> & ->).
  exists B, q, o. repeat split; auto; [eapply reading_reads; eauto|].
  pose proof (alone_reading a s m Im id B q o Rd) as E. replace o with (snd (g_run q m)) by now rewrite E.
  apply answers_run. eapply reading_reads; eauto.
Qed.

(** ** Several databases *)
Section Several.
  Variable H : bytes -> bytes.
  Variable mv : byte.
  Variable behind : bytes -> bytes.
  Hypothesis HL : forall x, length (H x) = 64.
  Variables (a0 : dbapp) (names : list bytes) (s0 : fsys) (os : list (bytes * op)) (a : dbapp) (s : fsys).
  Hypothesis Sv : several H mv behind a0 names s0 os a s.

  Lemma exec_step_config n st o st' : exec_step H mv behind n st o = Ok st' -> same_config (fst (fst st)) (fst (fst st')).
  Proof.
    destruct st as [[b x] id]. unfold exec_step. destruct o as [h d k| |now|].
    - unfold write_db. destruct (ctx_get _ _); [|discriminate]. destruct (content_now _ _ _); try discriminate.
      cbn [bind]. intros [= <-]. apply same_with.
    - unfold cancel_db. destruct (ctx_get _ _); [|discriminate]. cbn [bind]. intros [= <-]. apply same_with.
    - unfold commit_db, commit_fuel. destruct (ctx_get _ _); [|discriminate]. destruct (update_reference _ _ _ _); try discriminate.
      destruct (run _ _) as [x' [[conn off]| | |]]; try discriminate. cbn [bind]. intros [= <-]. apply same_with.
    - unfold close_db. destruct (ctx_get (a_ctxs b) id) as [c|]; [|discriminate]. destruct (sys_close (x_conn c) x) as [x' [u| | |]]; try discriminate.
      cbn [bind]. unfold open_db. cbn [with_ctxs a_ctxs a_chunk]. destruct (existsb _ _); [discriminate|].
      destruct (dir_get _ _) as [[i|]|]; try discriminate. destruct (retrieve_reference _ _ _ _ _) as [[ref off]| | |]; try discriminate.
      destruct (sys_open n x') as [x2 [h| | |]]; try discriminate. cbn [bind]. intros [= <-]. repeat split.
  Qed.

  Lemma exec_all_config ids : forall l b x b' x', exec_all H mv behind ids b x l = Ok (b', x') -> same_config b b'.
  Proof.
    induction l as [|[n o] l IH]; intros b x b' x' E; cbn [exec_all] in E; [injection E as <- <-; repeat split|].
    destruct (exec_step H mv behind n (b, x, ids n) o) as [[[b1 x1] j]| | |] eqn:Es; try discriminate. cbn [bind fst snd] in E.
    apply exec_step_config in Es. cbn [fst] in Es. apply IH in E. destruct Es as (X1 & X2 & X3), E as (Y1 & Y2 & Y3).
    repeat split; congruence.
  Qed.

  Lemma several_synced : same_config a0 a /\
    all_synced H mv a s (position names) names (fun n => spec_run ([], []) (ops_on n os)).
  Proof.
    destruct Sv as (G & C & E0 & (Nd & Sp) & Cl & F & A & a1 & s1 & E1 & E2).
    destruct (start_all_ok H mv behind HL names a0 s0 []) as (a1' & s1' & E1' & Sc & Sy & _); auto.
    - unfold ids_low. rewrite E0. constructor.
    - unfold names_of. now rewrite E0.
    - intros n k In1 In2. rewrite app_nil_r in In2. now apply Sp.
    - rewrite E1 in E1'. injection E1' as <- <-.
      rewrite E0 in Sy. change (zlen (@nil (Z * ctx))) with 0%Z in Sy. pose proof Sc as (S1 & S2 & S3).
      destruct (exec_all_ok H mv behind HL (position names) names (position_inj names) os a1 s1 (fun _ => ([], [])))
        as (a' & s' & E2' & Sa).
      + split; auto. rewrite S1, S2. exact Sp.
      + intros n In1. split; [|constructor]. exact (Sy n In1).
      + eapply Forall_impl; [|exact F]. intros [k o] (I1 & I2). split; [exact I1|]. exact I2.
      + rewrite S3. exact A.
      + rewrite E2 in E2'. injection E2' as <- <-. split; [|exact Sa].
        apply exec_all_config in E2. destruct E2 as (Y1 & Y2 & Y3). repeat split; congruence.
  Qed.

  Variable m : mem.
  Hypothesis Im : in_memory a s m.
  Variable id1 : Z.
  Hypothesis I1 : ctx_get (a_ctxs a) id1 = None \/ exists n, In n names /\ id1 = position names n.

  Definition elsewhere (id : Z) : Prop := id <> id1 /\ exists n, In n names /\ id = position names n.

  Lemma elsewhere_views B p o a' s' id2 c2 p2 : acting H mv behind a s id1 B p o a' s' -> elsewhere id2 ->
    ctx_get (a_ctxs a) id2 = Some c2 -> ptr_get (m_ctxs m) id2 = Some p2 -> Forall (view s id2 p2 c2) (g_states p m).
  Proof.
    intros Ac (Nid & n2 & In2 & Eid) Ec2 Ep2. apply not_eq_sym in Nid.
    assert (Eh2 : nth_error (m_heap m) p2 = Some c2) by (destruct Im as (_ & _ & _ & _ & _ & _ & E); specialize (E id2); rewrite Ep2, Ec2 in E; auto).
    destruct several_synced as ((C1 & C2 & C3) & Sy). pose proof (Sy n2 In2) as (Sy2 & _). rewrite <- Eid in Sy2.
    destruct Sy2 as (i2 & h2 & D2 & Ex2 & Hh2). rewrite Ec2 in Ex2. assert (Ehn : x_conn c2 = h2) by (inversion Ex2; reflexivity).
    assert (Vn : view s id2 p2 c2 m) by (eapply view_now; eauto).
    assert (L2 : x_conn c2 < length (f_handles s)) by (rewrite Ehn; apply nth_error_Some; congruence).
    assert (Nn : forall n1 c1, In n1 names -> id1 = position names n1 -> ctx_get (a_ctxs a) id1 = Some c1 ->
      x_name c1 = n1 /\ n1 <> n2 /\ x_conn c1 <> x_conn c2).
    { intros n1 c1 In1 E1 Ec1. pose proof (Sy n1 In1) as (Sy1 & _). rewrite <- E1 in Sy1.
      destruct Sy1 as (i1 & h1 & D1 & Ex1 & Hh1). rewrite Ec1 in Ex1. assert (x_conn c1 = h1) by (inversion Ex1; reflexivity).
      assert (x_name c1 = n1) by (inversion Ex1; reflexivity).
      assert (n1 <> n2) by (intros ->; congruence). split; [auto|]. split; [auto|]. intros X.
      assert (h1 = h2) by congruence. assert (i1 = i2) by congruence. subst i2.
      destruct D1 as (_ & _ & (_ & I) & _ & D1 & _). destruct D2 as (_ & _ & _ & _ & D2 & _). eauto. }
    destruct Ac as [h d k| |now s' a' o E|s' a' o E|n s' o E Er].
    - eapply write_keeps_view; eauto.
    - eapply cancel_keeps_view; eauto.
    - destruct (ctx_get (a_ctxs a) id1) as [c1|] eqn:Ec1.
      + destruct I1 as [X|(n1 & In1 & E1)]; [congruence|]. destruct (Nn n1 c1 In1 E1 eq_refl) as (X1 & X2 & X3).
        destruct Sv as (_ & _ & _ & (_ & Sp) & _).
        eapply (commit_keeps_view H mv a s m id1 id2 now c1 c2 n2 i2); eauto.
        * apply D2.
        * rewrite Ehn. exact Hh2.
        * apply D2.
        * congruence.
        * rewrite X1, C1. now apply Sp.
        * rewrite X1, C2. now apply Sp.
      + pose proof (in_memory_none _ _ _ _ Im Ec1) as Ep. unfold g_commit, g_update_reference, g_then, g_find, g_then, g_lookup.
        cbn [g_catch g_states]. rewrite Ep. cbn [g_catch g_states]. repeat (constructor; auto).
    - eapply close_keeps_view; eauto. intros c1 Ec1. destruct I1 as [X|(n1 & In1 & E1)]; [congruence|]. now apply (Nn n1 c1 In1 E1).
    - eapply (open_keeps_view H mv behind a s m); eauto. congruence.
  Qed.

  Lemma elsewhere_alone B p o a' s' : acting H mv behind a s id1 B p o a' s' -> exists m', g_run p m = (m', o) /\ in_memory a' s' m'.
  Proof.
    intros Ac. destruct Ac as [h d k| |now s' a' o E|s' a' o E|n s' o E Er].
    - now apply alone_write.
    - now apply alone_cancel.
    - pose proof (alone_commit H mv a s m Im id1 now) as X. rewrite E in X. exact X.
    - pose proof (alone_close a s m Im id1) as X. rewrite E in X. exact X.
    - pose proof (alone_open H mv behind a s m Im n) as X. rewrite Er in X. exact X.
  Qed.

  Lemma elsewhere_readers B (p : gprog B) o a' s' ts es us m' : acting H mv behind a s id1 B p o a' s' ->
    readers a s elsewhere ts es -> together (thread_of p :: ts) m us m' ->
    exists p' ts', us = thread_of p' :: ts' /\
      (forall o', p' = GRet o' -> o' = o /\ in_memory a' s' m') /\
      Forall2 (fun t e => forall r, came_to t = Some r -> r = e) ts' es.
  Proof.
    intros Ac Rd T.
    set (J := fun x => forall id c p, elsewhere id -> ctx_get (a_ctxs a) id = Some c -> ptr_get (m_ctxs m) id = Some p -> view s id p c x).
    destruct (beside J B _ _ _ _ T p ts es eq_refl) as (p' & ts' & -> & R & _ & F).
    - apply Forall_forall. intros x Ix id c q El Ec Ep. pose proof (elsewhere_views B p o a' s' id c q Ac El Ec Ep) as F.
      rewrite Forall_forall in F. auto.
    - eapply Forall2_impl'; [|exact Rd]. cbv beta. intros t e (id & B' & q & o' & El & R & -> & ->).
      assert (Ec : exists c, ctx_get (a_ctxs a) id = Some c).
      { destruct El as (_ & n & In1 & ->). destruct several_synced as (_ & Sy). destruct (Sy n In1) as ((i & h & _ & E & _) & _). eauto. }
      destruct Ec as (c & Ec). destruct (in_memory_ctx _ _ _ _ _ Im Ec) as (k & Ep & Eh).
      exists B', q, o'. repeat split; auto; [eapply reading_reads; eauto|].
      apply (answers_weaken (view s id k c)); [|eapply answers_reading; eauto]. intros x Jx. now apply Jx.
    - exists p', ts'. split; [reflexivity|]. split.
      + intros o' ->. cbn [g_run] in R. destruct (elsewhere_alone B p o a' s' Ac) as (mf & Rf & If). rewrite Rf in R.
        assert (o' = o) by congruence. assert (m' = mf) by congruence. now subst.
      + eapply Forall2_impl'; [|exact F]. intros t e Ti r Ec. eapply ties_end; eauto.
  Qed.
End Several.

(** ** Reading while the same database is committed *)
Section Climb.
  Variable R : nat -> mem -> Prop.
  (** Memories of stages from [k] on, in order. *)
  Inductive climbs : nat -> list mem -> Prop :=
  | climbs_nil k : climbs k []
  | climbs_cons k j x l : k <= j -> R j x -> climbs j l -> climbs k (x :: l).

  Lemma climbs_from pre : forall k x post, climbs k (pre ++ x :: post) -> exists j, k <= j /\ R j x /\ climbs j (x :: post).
  Proof.
    induction pre as [|y pre IH]; cbn [app]; intros k x post C; inversion C as [|? j ? ? L Rj C']; subst.
    - exists j. split; [exact L|]. split; [exact Rj|]. now apply (climbs_cons j j).
    - destruct (IH _ _ _ C') as (i & L' & Ri & C''). exists i. split; [lia|auto].
  Qed.

  Lemma climbs_app k l l' : (forall x, In x l -> R k x) -> climbs k l' -> climbs k (l ++ l').
  Proof.
    induction l as [|x l IH]; intros F C; cbn [app]; [exact C|]. apply (climbs_cons k k); [auto|apply F; now left|].
    apply IH; auto. intros; apply F; now right.
  Qed.

  (** [leads Q k q]: a reader that starts at stage [k] or later ends with [Q] of its last stage and its result. *)
  Inductive leads {A} (Q : nat -> outcome A -> Prop) : nat -> gprog A -> Prop :=
  | leads_ret k v : Q k v -> leads Q k (GRet v)
  | leads_step k f : (forall j x, k <= j -> R j x -> leads Q j (snd (f x))) -> leads Q k (GStep f).

  Lemma leads_sees {A} (Q : nat -> outcome A -> Prop) k q : leads Q k q -> forall l o, climbs k l -> sees q l o -> exists j, k <= j /\ Q j o.
  Proof.
    intros Ld. induction Ld as [k v q|k f K IH]; intros l o C S; inversion S as [|? pre x post ? S']; subst; [eauto|].
    destruct (climbs_from _ _ _ _ C) as (j & L & Rj & Cj). destruct (IH j x L Rj _ _ Cj S') as (i & Li & Qi). exists i. split; [lia|auto].
  Qed.

  Lemma leads_catch {A B} (Q1 : nat -> outcome A -> Prop) (Q : nat -> outcome B -> Prop) k q f : leads Q1 k q ->
    (forall j v, k <= j -> Q1 j v -> leads Q j (f v)) -> leads Q k (g_catch q f).
  Proof.
    intros Ld. induction Ld as [k v q|k g K IH]; intros F; cbn [g_catch]; [now apply F|].
    constructor. intros j x L Rj. specialize (IH j x L Rj). destruct (g x) as [x' q']. cbn [snd] in *. apply IH.
    intros i v Li. apply F. lia.
  Qed.

  Lemma leads_then {A B} (Q1 : nat -> A -> Prop) (Q : nat -> outcome B -> Prop) k (q : gprog A) f :
    leads (fun j o => exists v, o = Ok v /\ Q1 j v) k q ->
    (forall j v, k <= j -> Q1 j v -> leads Q j (f v)) -> leads Q k (g_then q f).
  Proof. intros Ld F. apply (leads_catch _ _ _ _ _ Ld). intros j o L (v & -> & Qv). auto. Qed.

  Lemma leads_weaken {A} (Q1 Q : nat -> outcome A -> Prop) k q : leads Q1 k q -> (forall j v, k <= j -> Q1 j v -> Q j v) -> leads Q k q.
  Proof.
    intros Ld. induction Ld as [k v q|k f K IH]; intros F; constructor; auto.
    intros j x L Rj. apply (IH j x L Rj). intros i v Li. apply F. lia.
  Qed.
End Climb.

Section Same.
  Variables (a a' : dbapp) (s s' : fsys) (cs : list (Z * nat)) (id : Z) (p : nat).
  Variables (c : ctx) (r : reference) (off' : Z) (h' : nat).
  Hypothesis Ep : ptr_get cs id = Some p.
  Hypothesis Ec : ctx_get (a_ctxs a) id = Some c.
  Hypothesis Ec' : ctx_get (a_ctxs a') id = Some (Ctx (x_id c) (x_name c) h' (Some r) off' (x_pending c)).
  Hypothesis Shut : forall n off, read_at s' (x_conn c) n off = Err.

  Definition stage (k : nat) : ctx :=
    match k with
    | 0 => c | 1 => set_ref r c | 2 => set_off off' (set_ref r c) | _ => set_conn h' (set_off off' (set_ref r c))
    end.

  (** The stages of a commit as the other goroutines find them. *)
  Definition staged (k : nat) (x : mem) : Prop :=
    m_ctxs x = cs /\ nth_error (m_heap x) p = Some (stage k) /\
    match k with
    | 0 => forall n off, read_at (m_fs x) (x_conn c) n off = read_at s (x_conn c) n off \/ read_at (m_fs x) (x_conn c) n off = Err
    | _ => m_fs x = s'
    end.
  Notation leads := (leads staged).

  Lemma staged_find k : leads (fun j o => exists v, o = Ok v /\ v = p) k (g_find id).
  Proof.
    unfold g_find, g_lookup, g_then. cbn [g_catch]. constructor. intros j x L (E & _). cbn [snd]. rewrite E, Ep. constructor. eauto.
  Qed.

  Lemma staged_field {B} k (g : ctx -> B) : leads (fun j o => exists v, o = Ok v /\ v = g (stage j)) k (g_field p g).
  Proof. constructor. intros j x L (_ & E & _). cbn [snd]. rewrite E. constructor. eauto. Qed.

  (** The bytes of the new file at the place of the old one. *)
  Definition strayed (q : pointer) : outcome bytes := read_at s' h' (p_length q) (i64 (u64 (x_off c + p_from q))).

  Definition read_result (k : nat) (q : pointer) (o : outcome bytes) : Prop :=
    (k = 0 /\ o = read_db a s id q) \/ o = Err \/ o = strayed q \/ o = read_db a' s' id q.

  Lemma staged_read k q : leads (fun _ o => read_result k q o) k (g_read id q).
  Proof.
    unfold g_read, read_result. eapply leads_then; [apply staged_find|]. intros k1 v L1 ->.
    eapply leads_then; [apply staged_field|]. intros k2 v L2 ->.
    destruct (two63 <=? p_length q)%Z eqn:Big.
    { constructor. right. right. right. unfold read_db. rewrite Ec', Big. reflexivity. }
    eapply leads_then; [apply staged_field|]. intros k3 v L3 ->.
    constructor. intros k4 x L4 R4. cbn [lift p_read call snd]. constructor.
    assert (Late : 0 < k4 -> m_fs x = s') by (intros L; destruct R4 as (_ & _ & E); destruct k4; [lia|exact E]).
    destruct k3 as [|[|[|k3]]]; cbn [stage x_conn set_conn set_off set_ref].
    - destruct k2 as [|k2]; [|lia]. cbn [stage]. destruct k4 as [|k4].
      + destruct R4 as (_ & _ & E). destruct (E (p_length q) (i64 (u64 (x_off c + p_from q)))) as [->| ->]; [|auto].
        left. split; [lia|]. unfold read_db. now rewrite Ec, Big.
      + right. left. rewrite Late by lia. apply Shut.
    - right. left. rewrite Late by lia. apply Shut.
    - right. left. rewrite Late by lia. apply Shut.
    - rewrite Late by lia. right. right. destruct k2 as [|[|k2]]; cbn [stage x_off set_off set_ref]; [left; reflexivity|left; reflexivity|].
      right. unfold read_db. rewrite Ec', Big. cbn [x_conn x_off]. destruct k2; reflexivity.
  Qed.

  Lemma staged_keys : leads (fun j o => o = content_keys a id \/ (0 < j /\ o = Ok (r_keys r))) 0 (g_content_keys id).
  Proof.
    unfold g_content_keys. eapply leads_then; [apply staged_find|]. intros k1 v _ ->.
    assert (E : content_keys a id = match x_ref c with None => Err | Some x => Ok (r_keys x) end) by (unfold content_keys; now rewrite Ec).
    rewrite E. eapply (leads_then _ (fun j v => v = match x_ref c with None => None | Some x => Some (r_keys x) end \/ (0 < j /\ v = Some (r_keys r)))).
    - unfold g_reference. eapply leads_then; [apply staged_field|]. intros k2 v L2 ->.
      destruct (x_ref (stage k2)) as [r2|] eqn:E2.
      + eapply leads_then; [apply staged_field|]. intros k3 v L3 ->. destruct k3 as [|k3].
        * destruct k2; [|lia]. cbn [stage] in *. rewrite E2. constructor. eauto.
        * assert (X : x_ref (stage (S k3)) = Some r) by (destruct k3 as [|[|k3]]; reflexivity). rewrite X.
          constructor. eexists. split; [reflexivity|]. right. split; [lia|reflexivity].
      + assert (k2 = 0) by (destruct k2 as [|[|[|k2]]]; [reflexivity|discriminate ..]). subst k2. cbn [stage] in E2. rewrite E2. constructor. eauto.
    - intros k2 v L2 [->|(L & ->)].
      + destruct (x_ref c); constructor; auto.
      + constructor. auto.
  Qed.

  Lemma staged_commits : leads (fun j o => o = commits_db a id \/ (0 < j /\ o = Ok (r_commits r))) 0 (g_commits id).
  Proof.
    unfold g_commits. eapply leads_then; [apply staged_find|]. intros k1 v _ ->.
    assert (E : commits_db a id = match x_ref c with None => Err | Some x => Ok (r_commits x) end) by (unfold commits_db; now rewrite Ec).
    rewrite E. eapply (leads_then _ (fun j v => v = match x_ref c with None => None | Some x => Some (r_commits x) end \/ (0 < j /\ v = Some (r_commits r)))).
    - unfold g_reference. eapply leads_then; [apply staged_field|]. intros k2 v L2 ->.
      destruct (x_ref (stage k2)) as [r2|] eqn:E2.
      + eapply leads_then; [apply staged_field|]. intros k3 v L3 ->. destruct k3 as [|k3].
        * destruct k2; [|lia]. cbn [stage] in *. rewrite E2. constructor. eauto.
        * assert (X : x_ref (stage (S k3)) = Some r) by (destruct k3 as [|[|k3]]; reflexivity). rewrite X.
          constructor. eexists. split; [reflexivity|]. right. split; [lia|reflexivity].
      + assert (k2 = 0) by (destruct k2 as [|[|[|k2]]]; [reflexivity|discriminate ..]). subst k2. cbn [stage] in E2. rewrite E2. constructor. eauto.
    - intros k2 v L2 [->|(L & ->)].
      + destruct (x_ref c); constructor; auto.
      + constructor. auto.
  Qed.

  Lemma staged_hash h : leads (fun _ o => o = Err \/ 
    (exists ks k, content_keys a id = Ok ks /\ keys_fetch ks h = Ok k /\ read_result 0 (k_content k) o) \/
    (exists k, keys_fetch (r_keys r) h = Ok k /\ read_result 1 (k_content k) o)) 0 (g_read_by_hash id h).
  Proof.
    unfold g_read_by_hash. eapply leads_catch; [apply staged_keys|]. cbv beta.
    assert (Kf : forall ks, keys_fetch ks h = Err \/ exists k, keys_fetch ks h = Ok k).
    { intros ks. destruct (keys_fetch_spec ks h) as [(k & -> & _)|(-> & _)]; eauto. }
    intros j o L [->|(Lj & ->)].
    - assert (X : content_keys a id = Err \/ exists ks, content_keys a id = Ok ks).
      { unfold content_keys. rewrite Ec. destruct (x_ref c); eauto. }
      destruct X as [X|(ks & X)]; rewrite X; [constructor; auto|]. cbn [g_then g_catch].
      destruct (Kf ks) as [Y|(k & Y)]; rewrite Y; [constructor; auto|]. eapply leads_weaken; [apply staged_read|].
      cbv beta. intros i v Li Rr. right. left. exists ks, k. repeat split; auto. destruct Rr as [(_ & ->)|Rr]; [left; auto|right; exact Rr].
    - cbn [g_then g_catch]. destruct (Kf (r_keys r)) as [Y|(k & Y)]; rewrite Y; [constructor; auto|]. eapply leads_weaken; [apply staged_read|].
      cbv beta. intros i v Li Rr. right. right. exists k. split; auto. destruct Rr as [(X & _)|Rr]; [lia|right; exact Rr].
  Qed.
End Same.

(** All steps of a reader at one memory. *)
Lemma sees_now {A B} (q : gprog A) (k : outcome A -> gprog B) x post o : reads q ->
  sees (k (snd (g_run q x))) (x :: post) o -> sees (g_catch q k) (x :: post) o.
Proof.
  intros R. induction R as [v|f E R IH]; cbn [g_catch g_run snd]; [auto|]. intros S.
  apply (sees_step _ [] x post). specialize (E x). specialize (IH x). destruct (f x) as [x' q']. cbn [fst snd] in *. subst x'. auto.
Qed.

(** What comes out of two steps comes out of the second, begun with what came out of the first. *)
Lemma sees_split {A B} (q : gprog A) (k : outcome A -> gprog B) l o : reads q -> sees (g_catch q k) l o ->
  exists v, sees q l v /\ sees (k v) l o.
Proof.
  intros R. revert l. induction R as [v|f E R IH]; cbn [g_catch]; intros l S; [exists v; split; [constructor|exact S]|].
  inversion S as [|f' pre x post o' S']; subst. specialize (E x). specialize (IH x). destruct (f x) as [x' q'] eqn:Ef. cbn [fst snd] in *. subst x'.
  destruct (IH _ S') as (v & S1 & S2). exists v. split.
  - apply sees_step. rewrite Ef. exact S1.
  - clear - S2. induction pre as [|y pre IH]; [exact S2|]. cbn [app]. now apply sees_more.
Qed.

Lemma sees_split_ok {A B} (q : gprog A) (k : A -> gprog B) l o : reads q -> sees (g_then q k) l o ->
  exists v, sees q l v /\ match v with Ok b => sees (k b) l o | Err => o = Err | Panic => o = Panic | Fuel => o = Fuel end.
Proof.
  intros R S. destruct (sees_split _ _ _ _ R S) as (v & S1 & S2). exists v. split; [exact S1|].
  destruct v; [exact S2| | |]; now inversion S2.
Qed.

Lemma sees_then_pure {A B} (q : gprog A) (f : A -> outcome B) l o : reads q -> sees (g_then q (fun v => GRet (f v))) l o ->
  exists v, sees q l v /\ o = bind v f.
Proof.
  intros R S. destruct (sees_split_ok _ _ _ _ R S) as (v & S1 & S2). exists v. split; [exact S1|].
  destruct v; cbn [bind]; [now inversion S2|exact S2..].
Qed.

Lemma sees_later {A} (q : gprog A) pre l o : sees q l o -> sees q (pre ++ l) o.
Proof. intros S. induction pre as [|x pre IH]; [exact S|]. cbn [app]. now apply sees_more. Qed.

Section Database.
  Variable H : bytes -> bytes.
  Variable mv : byte.
  Hypothesis HL : forall x, length (H x) = 64.
  Variables (a : dbapp) (s : fsys) (m : mem) (n : bytes) (id : Z) (bs : list batch) (pd : list content) (now : Z).
  Hypothesis Sy : synced H mv a s n id bs pd.
  Hypothesis Wb : ok_batch (pd, now).
  Hypothesis Ft : fits H mv (bs ++ [(pd, now)]).
  Hypothesis Ch : chunk_ok (a_chunk a) (history_data bs).
  Hypothesis Im : in_memory a s m.
  Notation bs' := (bs ++ [(pd, now)]).
  Notation off := (zlen (header (history_ref H mv bs))).
  Notation off' := (zlen (header (history_ref H mv bs'))).
  Notation G := (g_commit H mv a (rounds a s id) now id).
  Notation new := (history_file H mv bs').

  Record trace (s' : fsys) (a' : dbapp) (p : nat) (c : ctx) (r : reference) (h' : nat) : Prop := {
    tr_ptr : ptr_get (m_ctxs m) id = Some p;
    tr_ctx : ctx_get (a_ctxs a) id = Some c;
    tr_heap : nth_error (m_heap m) p = Some c;
    tr_off : x_off c = off;
    tr_keys : r_keys r = history_keys H mv None 0 bs';
    tr_commit : commit_db H mv now a s id = (s', a', Ok tt);
    tr_synced : synced H mv a' s' n id bs' pd;
    tr_ctx' : ctx_get (a_ctxs a') id = Some (Ctx (x_id c) (x_name c) h' (Some r) off' (x_pending c));
    tr_shut : forall k o, read_at s' (x_conn c) k o = Err;
    tr_climbs : climbs (staged s s' (m_ctxs m) p c r off' h') 0 (g_states G m);
    tr_states : exists pre mid last, g_states G m = pre ++ Mem (m_ctxs m) (m_heap m) s' :: mid ++ [last] /\
      m_ctxs last = m_ctxs m /\ m_fs last = s' /\ nth_error (m_heap last) p = Some (stage c r off' h' 3) }.

  Lemma commit_trace : exists s' a' p c r h', trace s' a' p c r h'.
  Proof.
    destruct (commit_ok H mv HL a s n id bs pd now Sy Wb Ft Ch) as (s' & a' & E & Sy' & Ea & _).
    destruct (commit_parts H mv HL a s n id bs pd now Sy Wb Ft Ch) as (i & h & r & s1 & s6 & s7 & s8 & s9 & s10 & d & bk & offp & P).
    pose proof Sy as (i0 & h0 & (A1 & A2 & A3 & A4 & A5 & A6 & A7 & A8 & A9 & A10 & A11) & Ec & Eh).
    assert (i0 = i) as -> by (pose proof (pa_name _ _ _ _ _ _ _ _ _ _ _ _ _ _ _ _ _ _ _ _ _ P); congruence).
    assert (h0 = h) as -> by (pose proof (pa_ctx _ _ _ _ _ _ _ _ _ _ _ _ _ _ _ _ _ _ _ _ _ P); congruence).
    set (c := Ctx id n h (history_ref H mv bs) off pd) in *.
    pose proof (pa_ref _ _ _ _ _ _ _ _ _ _ _ _ _ _ _ _ _ _ _ _ _ P) as Er. fold c in Er.
    destruct (in_memory_ctx _ _ _ _ _ Im Ec) as (p & Ep & Ehp).
    pose proof E as E'. unfold commit_db, commit_fuel in E'. rewrite Ec, Er in E'.
    destruct (run (update_database (S (conn_size s c)) a c r) s) as [s1' o] eqn:Ed.
    destruct o as [[conn o']| | |]; try discriminate.
    assert (s1' = s') by congruence. subst s1'.
    assert (Ec' : ctx_get (a_ctxs a') id = Some (Ctx (x_id c) (x_name c) conn (Some r) o' (x_pending c))).
    { assert (Ea' : a' = with_ctxs a (ctx_set (a_ctxs a) id (Ctx (x_id c) (x_name c) conn (Some r) o' (x_pending c)))) by congruence.
      rewrite Ea'. cbn [with_ctxs a_ctxs]. rewrite ctx_get_set, Z.eqb_refl. reflexivity. }
    pose proof Sy' as (i' & h' & D' & Ex' & Eh').
    assert (X : Ctx (x_id c) (x_name c) conn (Some r) o' (x_pending c) = Ctx id n h' (history_ref H mv bs') off' pd) by congruence.
    assert (o' = off') by (inversion X; reflexivity). subst o'.
    assert (Hr : history_ref H mv bs' = Some r) by (inversion X; reflexivity).
    (* the handles at the end *)
    assert (Inj : forall e, dir_get (f_dir s) (side n e) <> Some (EFile i)).
    { intros e Y. destruct A3 as (_ & I). apply (side_neq n e). eapply I; eauto. }
    assert (Nh : bs <> [] -> history_data bs <> []).
    { intros N Y. pose proof (history_data_pos bs N A10) as L. rewrite Y in L. cbn in L. lia. }
    destruct (commit_general H mv HL a s n id bs pd h i i (history_data bs) now) as
      (s2 & a2 & E2 & Ea2 & (d2 & _ & _ & _ & D4) & _); auto.
    { now rewrite A8. }
    { now apply A3 in A5. }
    { rewrite A9. exact A11. }
    { now apply fits_data in Ft. }
    assert (s2 = s') by congruence. subst s2.
    assert (Lh : h < length (f_handles s)) by (apply nth_error_Some; congruence).
    assert (Shut : forall k o, read_at s' (x_conn c) k o = Err).
    { intros k o. unfold read_at. cbn [x_conn c]. rewrite D4. rewrite nth_error_app1 by (rewrite set_nth_len; exact Lh).
      erewrite nth_set_same by exact Eh. reflexivity. }
    (* the data on the way *)
    pose proof (commit_phased H mv a s n id bs pd now i h r s1 s6 s7 s8 s9 s10 d bk offp P) as Ph. rewrite states_p_commit in Ph.
    assert (Es : commit_states H mv now a s id = states (update_database (S (conn_size s c)) a c r) s) by (unfold commit_states; now rewrite Ec, Er).
    rewrite Es in Ph.
    assert (K0 : handles_kept c s s) by (split; eauto).
    destruct (kept_handles a c s (S (conn_size s c)) r s K0) as (Kh & _).
    assert (Rd : forall y, In y (states (update_database (S (conn_size s c)) a c r) s) -> forall k o,
      read_at y (x_conn c) k o = read_at s (x_conn c) k o \/ read_at y (x_conn c) k o = Err).
    { intros y Iy k o. rewrite Forall_forall in Kh. destruct (Kh y Iy) as (_ & K2). destruct (K2 _ _ _ Eh) as (q' & b' & Ey).
      assert (Dy : data_of y i = history_file H mv bs) by (destruct (phased_each _ _ _ _ _ _ _ _ _ _ Ph Iy) as [Y|[Y|Y]]; apply Y).
      unfold read_at. cbn [x_conn c] in *. rewrite Ey, Eh. destruct b'; [left|now right]. now rewrite Dy, A9. }
    assert (Re : forall x, early (m_ctxs m) (m_heap m) s (update_database (S (conn_size s c)) a c r) x ->
      staged s s' (m_ctxs m) p c r off' conn 0 x).
    { intros x (y & [->|Iy] & ->); (split; [reflexivity|split; [exact Ehp|]]); cbn [m_fs]; auto. }
    pose proof (commit_went H mv a (m_ctxs m) (m_heap m) s id now (S (conn_size s c)) p c Ep Ehp r Er s' _ Ed) as W.
    cbv zeta in W. destruct W as (_ & pre & St & Fe). rewrite <- (in_memory_eta _ _ _ Im) in St.
    assert (Rn : rounds a s id = S (conn_size s c)) by (unfold rounds; now rewrite Ec).
    assert (Is : In s' (states (update_database (S (conn_size s c)) a c r) s)).
    { replace s' with (fst (run (update_database (S (conn_size s c)) a c r) s)) by (now rewrite Ed). apply states_last. }
    set (h1 := set_nth (m_heap m) p (set_ref r c)) in *. set (h2 := set_nth h1 p (set_off off' (set_ref r c))) in *.
    set (h3 := set_nth h2 p (set_conn conn (set_off off' (set_ref r c)))) in *.
    assert (N1 : nth_error h1 p = Some (set_ref r c)) by (eapply nth_set_same; eauto).
    assert (N2 : nth_error h2 p = Some (set_off off' (set_ref r c))) by (eapply nth_set_same; eauto).
    assert (N3 : nth_error h3 p = Some (set_conn conn (set_off off' (set_ref r c)))) by (eapply nth_set_same; eauto).
    exists s', a', p, c, r, conn. constructor; auto.
    - assert (Rk : Some r = Some (Reference (history_keys H mv None 0 bs') (chain H mv None bs'))).
      { rewrite <- Hr. destruct bs; reflexivity. }
      assert (Rk' : r = Reference (history_keys H mv None 0 bs') (chain H mv None bs')) by congruence. rewrite Rk'. reflexivity.
    - rewrite Rn, St. apply climbs_app.
      + intros x Ix. rewrite Forall_forall in Fe. auto.
      + apply (climbs_cons _ 0 0); [lia|split; [reflexivity|split; [exact Ehp|auto]]|].
        apply (climbs_cons _ 0 1); [lia|repeat split; auto|]. apply (climbs_cons _ 1 1); [lia|repeat split; auto|].
        apply (climbs_cons _ 1 2); [lia|repeat split; auto|]. apply (climbs_cons _ 2 2); [lia|repeat split; auto|].
        apply (climbs_cons _ 2 3); [lia|repeat split; auto|]. constructor.
    - rewrite Rn, St. exists pre, [Mem (m_ctxs m) h1 s'; Mem (m_ctxs m) h1 s'; Mem (m_ctxs m) h2 s'; Mem (m_ctxs m) h2 s'], (Mem (m_ctxs m) h3 s').
      split; [reflexivity|]. repeat split; auto.
  Qed.

  (** The key of a hash is at the place of the last content with this hash. *)
  Lemma key_content l h k : keys_fetch (history_keys H mv None 0 l) h = Ok k ->
    exists before ct after, history_contents l = before ++ ct :: after /\ ct_hash ct = h /\ Forall (fun x => ct_hash x <> h) after /\
      k_content k = Pointer (zlen (batch_data before)) (zlen (ct_data ct)).
  Proof.
    intros E. destruct (keys_fetch_spec (history_keys H mv None 0 l) h) as [(k' & E' & F)|(E' & _)]; [|congruence].
    assert (k' = k) as -> by congruence. destruct F as (l1 & l2 & El & Ek & Fn).
    pose proof (history_located H mv l None []) as Lo. pose proof (forall2_len _ _ _ Lo) as Ln. 
    assert (Lt : length l1 < length (history_contents l)).
    { rewrite Ln. change (zlen []) with 0%Z. rewrite El, app_length. cbn [length]. lia. }
    destruct (nth_error (history_contents l) (length l1)) as [ct|] eqn:Ect; [|apply nth_error_None in Ect; lia].
    destruct (nth_error_split _ _ Ect) as (before & after & Ec & Lb).
    destruct (history_key_at H mv l before ct after Ec) as (k0 & ks1 & ks2 & E1 & L1 & B1 & B2 & B3 & B4).
    assert (X : k0 = k /\ ks2 = l2).
    { rewrite E1 in El. assert (Y : firstn (length ks1) (ks1 ++ k0 :: ks2) = firstn (length l1) (l1 ++ k :: l2)) by (replace (length ks1) with (length l1) by lia; now rewrite El).
      rewrite !firstn_app, !firstn_all, !Nat.sub_diag in Y. cbn [firstn] in Y. rewrite !app_nil_r in Y. subst l1.
      apply app_inv_head in El. injection El as -> ->. auto. }
    destruct X as (-> & ->). exists before, ct, after. split; [exact Ec|]. split; [congruence|]. split; [|exact B3].
    apply Forall_forall. intros x Ix Y. apply (in_map ct_hash) in Ix. rewrite <- B4 in Ix. apply in_map_iff in Ix as (y & Ey & Iy).
    rewrite Forall_forall in Fn. apply (Fn y Iy). congruence.
  Qed.

  Lemma read_there x y l q before ct after : synced H mv x y n id l q -> history_contents l = before ++ ct :: after ->
    read_db x y id (Pointer (zlen (batch_data before)) (zlen (ct_data ct))) = Ok (ct_data ct).
  Proof.
    intros S E. pose proof (read_keys H mv x y n id l q S) as F.
    destruct (history_key_at H mv l before ct after E) as (k0 & ks1 & ks2 & E1 & L1 & _ & _ & B3 & _).
    rewrite E, E1 in F. apply Forall2_app_inv_l in F as (u & v & F1 & F2 & Eu). inversion F2 as [|? k ? v' (_ & _ & Rk) F3]; subst.
    pose proof (forall2_len _ _ _ F1) as Lu.
    assert (Y : firstn (length ks1) (ks1 ++ k0 :: ks2) = firstn (length u) (u ++ k :: v')) by (rewrite Eu; f_equal; congruence).
    rewrite !firstn_app, !firstn_all, !Nat.sub_diag in Y. cbn [firstn] in Y. rewrite !app_nil_r in Y. subst u.
    apply app_inv_head in Eu. injection Eu as <- <-. now rewrite B3 in Rk.
  Qed.

  Lemma header_grows' : (off <= off')%Z.
  Proof.
    pose proof Sy as (i & h & (A1 & A2 & A3 & A4 & A5 & A6 & A7 & A8 & A9 & A10 & A11) & _).
    assert (F : Forall ok_batch bs') by (apply Forall_app; split; [exact A10|constructor; [exact Wb|constructor]]).
    apply (Z.le_trans _ (off + 152)); [lia|]. exact (header_grows H mv HL bs (pd, now) F ltac:(now apply fits_data in Ft)).
  Qed.

  Lemma contents_grow : history_contents bs' = history_contents bs ++ pd.
  Proof. unfold history_contents. rewrite map_app, concat_app. cbn. now rewrite app_nil_r. Qed.

  (** Where a content of the new history is looked for, with the header of the old one. *)
  Lemma stray_there s' a' p c r h' : trace s' a' p c r h' -> forall before ct after, history_contents bs' = before ++ ct :: after ->
    strayed s' c h' (Pointer (zlen (batch_data before)) (zlen (ct_data ct))) =
    Ok (sub new (off + zlen (batch_data before)) (zlen (ct_data ct))).
  Proof.
    intros T before ct after E. unfold strayed. cbn [p_length p_from]. rewrite (tr_off _ _ _ _ _ _ T).
    pose proof (tr_synced _ _ _ _ _ _ T) as (i' & h0 & D' & Ex' & Eh').
    pose proof (tr_ctx' _ _ _ _ _ _ T) as Ec'. rewrite Ex' in Ec'. assert (h' = h0) by (inversion Ec'; reflexivity). subst h0.
    pose proof header_grows' as Hg. pose proof (zlen_nonneg (header (history_ref H mv bs))). pose proof (zlen_nonneg (batch_data before)).
    pose proof (zlen_nonneg (ct_data ct)).
    assert (Ld : (zlen (batch_data before) + zlen (ct_data ct) <= zlen (history_data bs'))%Z).
    { assert (X : history_data bs' = batch_data (history_contents bs')).
      { unfold history_data, batch_data, history_contents. generalize bs'. clear. induction l as [|b l IH]; [reflexivity|].
        cbn [map concat]. rewrite map_app, concat_app, <- IH. reflexivity. }
      rewrite X, E. unfold batch_data. rewrite map_app, concat_app. cbn [map concat]. rewrite !zlen_app.
      pose proof (zlen_nonneg (concat (map ct_data after))). lia. }
    assert (Lf : (off' + zlen (history_data bs') < two63)%Z).
    { pose proof Ft as F. unfold fits, history_file in F. rewrite zlen_app in F. exact F. }
    rewrite u64_small by (rewrite two63_val, two64_val in *; lia). rewrite i64_small by lia.
    apply (read_at_file s' h' i'); auto; try lia.
    - apply D'.
    - unfold history_file. rewrite zlen_app. lia.
  Qed.

  Lemma read_during_commit h o : sees (g_read_by_hash id h) (g_states G m) o ->
    exists s' a', commit_db H mv now a s id = (s', a', Ok tt) /\
    (o = read_by_hash a s id h \/ o = read_by_hash a' s' id h \/ o = Err \/
     exists before ct after, history_contents bs' = before ++ ct :: after /\ ct_hash ct = h /\
       o = Ok (sub new (off + zlen (batch_data before)) (zlen (ct_data ct)))).
  Proof.
    intros S. destruct commit_trace as (s' & a' & p & c & r & h' & T). exists s', a'. split; [apply T|].
    destruct (leads_sees _ _ _ _ (staged_hash a a' s s' (m_ctxs m) id p c r off' h' (tr_ptr _ _ _ _ _ _ T) (tr_ctx _ _ _ _ _ _ T)
      (tr_ctx' _ _ _ _ _ _ T) (tr_shut _ _ _ _ _ _ T) h) _ _ (tr_climbs _ _ _ _ _ _ T) S) as (_ & _ & [->|[X|X]]); [auto| |].
    - destruct X as (ks & k & Ek & Kf & Rr). pose proof (synced_keys H mv a s n id bs pd Sy) as Es. rewrite Ek in Es.
      assert (Ks : ks = history_keys H mv None 0 bs) by (destruct bs; [discriminate|congruence]). subst ks.
      destruct (key_content _ _ _ Kf) as (before & ct & after & Ec & Eh & Fa & Ep).
      assert (Ec2 : history_contents bs' = before ++ ct :: after ++ pd) by (rewrite contents_grow, Ec, <- app_assoc; reflexivity).
      assert (Rb : read_by_hash a s id h = read_db a s id (k_content k)) by (unfold read_by_hash; rewrite Ek; cbn [bind]; rewrite Kf; reflexivity).
      rewrite Ep in *. destruct Rr as [(_ & ->)|[->|[->| ->]]]; auto.
      + right. right. right. exists before, ct, (after ++ pd). split; [exact Ec2|]. split; [exact Eh|]. exact (stray_there _ _ _ _ _ _ T _ _ _ Ec2).
      + left. rewrite Rb. rewrite (read_there a' s' bs' pd _ _ _ (tr_synced _ _ _ _ _ _ T) Ec2). symmetry. eapply read_there; eauto.
    - destruct X as (k & Kf & Rr). rewrite (tr_keys _ _ _ _ _ _ T) in Kf.
      destruct (key_content _ _ _ Kf) as (before & ct & after & Ec & Eh & Fa & Ep).
      assert (Rb : read_by_hash a' s' id h = read_db a' s' id (k_content k)).
      { unfold read_by_hash. rewrite (synced_keys H mv a' s' n id bs' pd (tr_synced _ _ _ _ _ _ T)).
        destruct bs as [|b l]; cbn [app bind]; cbn [app] in Kf; rewrite Kf; reflexivity. }
      destruct Rr as [(X & _)|[->|[->| ->]]]; [discriminate X|auto| |].
      + right. right. right. exists before, ct, after. split; [exact Ec|]. split; [exact Eh|]. rewrite Ep. exact (stray_there _ _ _ _ _ _ T _ _ _ Ec).
      + right. left. auto.
  Qed.

  Lemma lists_during_commit : exists s' a', commit_db H mv now a s id = (s', a', Ok tt) /\
    (forall o, sees (g_content_keys id) (g_states G m) o -> o = content_keys a id \/ o = content_keys a' id) /\
    (forall o, sees (g_commits id) (g_states G m) o -> o = commits_db a id \/ o = commits_db a' id).
  Proof.
    destruct commit_trace as (s' & a' & p & c & r & h' & T). exists s', a'. split; [apply T|].
    assert (K : content_keys a' id = Ok (r_keys r)) by (unfold content_keys; now rewrite (tr_ctx' _ _ _ _ _ _ T)).
    assert (C : commits_db a' id = Ok (r_commits r)) by (unfold commits_db; now rewrite (tr_ctx' _ _ _ _ _ _ T)).
    split; intros o S.
    - destruct (leads_sees _ _ _ _ (staged_keys a s s' (m_ctxs m) id p c r off' h' (tr_ptr _ _ _ _ _ _ T) (tr_ctx _ _ _ _ _ _ T))
        _ _ (tr_climbs _ _ _ _ _ _ T) S) as (_ & _ & [->|(_ & ->)]); auto.
    - destruct (leads_sees _ _ _ _ (staged_commits a s s' (m_ctxs m) id p c r off' h' (tr_ptr _ _ _ _ _ _ T) (tr_ctx _ _ _ _ _ _ T))
        _ _ (tr_climbs _ _ _ _ _ _ T) S) as (_ & _ & [->|(_ & ->)]); auto.
  Qed.

  Lemma hash_answers x y l q h : synced H mv x y n id l q -> read_by_hash x y id h = Err \/ exists b, read_by_hash x y id h = Ok b.
  Proof.
    intros S. unfold read_by_hash. rewrite (synced_keys H mv x y n id l q S). destruct l as [|b l]; [auto|]. cbn [bind].
    destruct (keys_fetch_spec (history_keys H mv None 0 (b :: l)) h) as [(k & E & _)|(E & _)]; rewrite E; [|auto]. cbn [bind].
    destruct (key_content _ _ _ E) as (before & ct & after & Ec & _ & _ & ->). right. exists (ct_data ct). eapply read_there; eauto.
  Qed.

  Lemma hash_answers_during h : exists s' a', commit_db H mv now a s id = (s', a', Ok tt) /\
    (read_by_hash a s id h = Err \/ exists b, read_by_hash a s id h = Ok b) /\
    (read_by_hash a' s' id h = Err \/ exists b, read_by_hash a' s' id h = Ok b).
  Proof.
    destruct commit_trace as (s' & a' & p & c & r & h' & T). exists s', a'. split; [apply T|].
    split; eapply hash_answers; [exact Sy|exact (tr_synced _ _ _ _ _ _ T)].
  Qed.

  Lemma named_during_commit : exists s' a', commit_db H mv now a s id = (s', a', Ok tt) /\
    (forall k o, sees (g_keys_by_kind id k) (g_states G m) o -> o = content_keys_by_kind a id k \/ o = content_keys_by_kind a' id k) /\
    (forall o, sees (g_commits id) (g_states G m) o -> o = commits_db a id \/ o = commits_db a' id) /\
    (forall h o, sees (g_commit_by_hash id h) (g_states G m) o -> o = commit_by_hash a id h \/ o = commit_by_hash a' id h).
  Proof.
    destruct lists_during_commit as (s' & a' & E & Lk & Lc). exists s', a'. split; [exact E|]. split; [|split; [exact Lc|]].
    - intros k o S. apply sees_then_pure in S as (v & S & ->); [|apply reads_content_keys].
      unfold content_keys_by_kind. destruct (Lk v S) as [->| ->]; auto.
    - intros h o S. apply sees_then_pure in S as (v & S & ->); [|apply reads_commits].
      unfold commit_by_hash. destruct (Lc v S) as [->| ->]; auto.
  Qed.

  Lemma all_during_commit (P : bytes -> outcome bytes -> Prop) hs o :
    (forall h v, sees (g_read_by_hash id h) (g_states G m) v -> P h v) ->
    (forall h v, P h v -> v = Err \/ exists b, v = Ok b) ->
    sees (g_read_all_by_hashes id hs) (g_states G m) o ->
    o = Err \/ exists bs0, o = Ok bs0 /\ Forall2 (fun h b => P h (Ok b)) hs bs0.
  Proof.
    intros K N. revert o. induction hs as [|h hs IH]; intros o S; cbn [g_read_all_by_hashes] in S.
    - inversion S; subst. right. exists []. auto.
    - apply sees_split_ok in S as (v & S1 & S2); [|apply reads_by_hash]. pose proof (K _ _ S1) as Pv.
      destruct (N _ _ Pv) as [->|(b & ->)]; [auto|].
      apply sees_then_pure in S2 as (w & S2 & ->); [|apply reads_hashes].
      destruct (IH w S2) as [->|(r & -> & F)]; [auto|]. right. exists (b :: r). auto.
  Qed.

  Lemma read_during_commit_strays before ct after : history_contents bs = before ++ ct :: after ->
    Forall (fun x => ct_hash x <> ct_hash ct) after ->
    exists w, goes (Team G (g_read_by_hash id (ct_hash ct)) m) w /\ t_one w = GRet (Ok tt) /\
      t_two w = GRet (Ok (sub new (off + zlen (batch_data before)) (zlen (ct_data ct)))).
  Proof.
    intros Ec Fa. destruct commit_trace as (s' & a' & p & c & r & h' & T).
    assert (Ec2 : history_contents bs' = before ++ ct :: after ++ pd) by (rewrite contents_grow, Ec, <- app_assoc; reflexivity).
    assert (Nb : bs <> []) by (intros ->; destruct before; discriminate).
    set (o := Ok (sub new (off + zlen (batch_data before)) (zlen (ct_data ct)))).
    assert (S : sees (g_read_by_hash id (ct_hash ct)) (g_states G m) o).
    { destruct (tr_states _ _ _ _ _ _ T) as (pre & mid & last & -> & L1 & L2 & L3). apply sees_later.
      set (mm := Mem (m_ctxs m) (m_heap m) s').
      assert (Imm : in_memory a s' mm) by (exact (in_memory_fs a s m s' Im)).
      unfold g_read_by_hash. apply sees_now; [apply reads_content_keys|].
      rewrite (alone_reading a s' mm Imm id _ _ _ (reading_keys a s' id)). cbn [snd].
      rewrite (synced_keys H mv a s n id bs pd Sy).
      replace (match bs with [] => Err | _ :: _ => Ok (history_keys H mv None 0 bs) end) with (Ok (history_keys H mv None 0 bs)) by (now destruct bs).
      cbn [g_then g_catch].
      assert (Kf : exists k, keys_fetch (history_keys H mv None 0 bs) (ct_hash ct) = Ok k).
      { destruct (keys_fetch_spec (history_keys H mv None 0 bs) (ct_hash ct)) as [(k & -> & _)|(_ & F)]; [eauto|]. exfalso.
        destruct (history_key_at H mv bs before ct after Ec) as (k0 & ks1 & ks2 & E1 & _ & B1 & _). rewrite E1 in F.
        apply Forall_app in F as (_ & F). inversion F; subst. auto. }
      destruct Kf as (k & Kf). rewrite Kf. cbn [g_catch].
      destruct (key_content _ _ _ Kf) as (before' & ct' & after' & Ec3 & Eh3 & Fa3 & Ep3).
      assert (X : before' = before /\ ct' = ct).
      { rewrite Ec in Ec3. clear - Ec3 Eh3 Fa3 Fa. revert before' Ec3. induction before as [|x l IH]; intros [|y l'] E; cbn [app] in E.
        - injection E as -> _. auto.
        - injection E as -> E. rewrite E in Fa. apply Forall_app in Fa as (_ & Fa). inversion Fa; subst. congruence.
        - injection E as -> E. rewrite <- E in Fa3. apply Forall_app in Fa3 as (_ & Fa3). inversion Fa3; subst. congruence.
        - injection E as -> E. destruct (IH _ E) as (-> & ->). auto. }
      destruct X as (-> & ->). rewrite Ep3. unfold g_read.
      apply sees_now; [apply reads_find|].
      assert (Rf : snd (g_run (g_find id) mm) = Ok p).
      { unfold g_find, g_lookup, g_then. cbn [g_catch g_run snd mm m_ctxs]. now rewrite (tr_ptr _ _ _ _ _ _ T). }
      rewrite Rf. apply sees_now; [apply reads_look|].
      assert (Ro : snd (g_run (g_field p x_off) mm) = Ok (x_off c)).
      { cbn [g_field g_run snd mm m_heap]. now rewrite (tr_heap _ _ _ _ _ _ T). }
      rewrite Ro. cbn [p_length p_from].
      assert (Sm : (two63 <=? zlen (ct_data ct))%Z = false).
      { apply Z.leb_gt. pose proof Sy as (i & h & D & _). assert (Ff : fits H mv bs) by apply D. apply fits_data in Ff.
        assert (zlen (ct_data ct) <= zlen (history_data bs))%Z; [|lia].
        assert (X : history_data bs = batch_data (history_contents bs)).
        { unfold history_data, batch_data, history_contents. clear. induction bs as [|b l IH]; [reflexivity|].
          cbn [map concat]. rewrite map_app, concat_app, <- IH. reflexivity. }
        rewrite X, Ec. unfold batch_data. rewrite map_app, concat_app. cbn [map concat]. rewrite !zlen_app.
        pose proof (zlen_nonneg (concat (map ct_data after))). pose proof (zlen_nonneg (concat (map ct_data before))). lia. }
      rewrite Sm. apply (sees_later _ (mm :: mid) [last]). apply sees_now; [apply reads_look|].
      assert (Rc : snd (g_run (g_field p x_conn) last) = Ok h').
      { cbn [g_field g_run snd]. rewrite L3. reflexivity. }
      rewrite Rc. apply (sees_step _ [] last []). cbn [lift p_read call snd]. rewrite L2.
      pose proof (stray_there _ _ _ _ _ _ T _ _ _ Ec2) as St. unfold strayed in St. cbn [p_length p_from] in St. rewrite St. constructor. }
    pose proof (arrange _ _ o (reads_by_hash id (ct_hash ct)) S G m eq_refl) as Go.
    eexists. split; [exact Go|]. cbn [t_one t_two]. split; [|reflexivity].
    pose proof (alone_commit H mv a s m Im id now) as Al. rewrite (tr_commit _ _ _ _ _ _ T) in Al. destruct Al as (m' & Al & _). now rewrite Al.
  Qed.
End Database.
