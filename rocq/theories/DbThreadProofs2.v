(** Goroutines that share one application: calls one at a time, and calls that overlap. *)
From Coq Require Import List ZArith NArith Lia Bool.
From Coq Require Import Init.Byte Strings.Byte.
From Verif Require Import Base BaseLemmas HashModel HashProofs SpecHash HashTreeModel HashTreeProofs
  RefModel RefProofs SpecRef DbModel SpecDb DbRefProofs DbFsProofs DbCommitProofs DbOpenProofs DbApiProofs
  DbSession DbSessionProofs DbMoreProofs DbMultiProofs DbFrameProofs DbConcurrent DbConcurrentProofs
  DbScheduleProofs DbSchedule3 DbPowerProofs DbThreads SpecThreads DbThreadProofs.
Import ListNotations.

(** ** The two maps *)
Definition drop {A} (l : list (Z * A)) (id : Z) : list (Z * A) := filter (fun x => negb (fst x =? id)%Z) l.

Lemma drop_in {A} (l : list (Z * A)) id x : In x (drop l id) <-> In x l /\ fst x <> id.
Proof. unfold drop. rewrite filter_In. destruct (Z.eqb_spec (fst x) id); intuition discriminate. Qed.

Lemma drop_fst {A} (l : list (Z * A)) id i : In i (map fst (drop l id)) <-> In i (map fst l) /\ i <> id.
Proof.
  rewrite !in_map_iff. split.
  - intros (x & <- & I). apply drop_in in I as (I & N). split; eauto.
  - intros ((x & <- & I) & N). exists x. rewrite drop_in. auto.
Qed.

Lemma drop_nodup {A B} (f : Z * A -> B) l id : NoDup (map f l) -> NoDup (map f (drop l id)).
Proof.
  induction l as [|x l IH]; cbn [drop filter map]; [auto|]. intros N. inversion N as [|? ? N1 N2]; subst.
  destruct (negb _); cbn [map]; auto. constructor; auto. intros I. apply N1. apply in_map_iff in I as (y & <- & I).
  apply in_map. apply (drop_in l id) in I. apply I.
Qed.

Lemma drop_none {A} (l : list (Z * A)) id : ~ In id (map fst l) -> drop l id = l.
Proof.
  induction l as [|x l IH]; cbn [drop filter map]; [auto|]. intros N. destruct (Z.eqb_spec (fst x) id) as [E|E]; cbn [negb].
  - destruct N. now left.
  - f_equal. apply IH. intros I. apply N. now right.
Qed.

Lemma drop_length {A} (l : list (Z * A)) id : NoDup (map fst l) -> In id (map fst l) -> S (length (drop l id)) = length l.
Proof.
  induction l as [|x l IH]; cbn [drop filter map length]; [contradiction|]. intros N I. inversion N as [|? ? N1 N2]; subst.
  destruct (Z.eqb_spec (fst x) id) as [E|E]; cbn [negb length].
  - f_equal. fold (drop l id). rewrite drop_none; congruence.
  - f_equal. apply IH; auto. destruct I; [contradiction|auto].
Qed.

Lemma ptr_get_drop l id j : ptr_get (ptr_del l id) j = if (id =? j)%Z then None else ptr_get l j.
Proof.
  unfold ptr_del. induction l as [|[k p] l IH]; cbn [filter fst ptr_get]; [now destruct (id =? j)%Z|].
  destruct (Z.eqb_spec k id) as [->|N]; cbn [negb ptr_get]; rewrite ?IH.
  - now destruct (id =? j)%Z.
  - destruct (Z.eqb_spec k j) as [->|N']; [|reflexivity]. destruct (Z.eqb_spec id j); [congruence|reflexivity].
Qed.

Lemma ptr_get_set l id p j : ptr_get (ptr_set l id p) j = if (id =? j)%Z then Some p else ptr_get l j.
Proof. unfold ptr_set. cbn [ptr_get]. rewrite ptr_get_drop. now destruct (id =? j)%Z. Qed.

Lemma ctx_get_fst l id : ctx_get l id <> None <-> In id (map fst l).
Proof.
  induction l as [|[k c] l IH]; cbn [ctx_get map fst In]; [intuition|]. destruct (Z.eqb_spec k id) as [->|N]; [intuition discriminate|].
  rewrite IH. intuition.
Qed.

Lemma ptr_get_fst l id : ptr_get l id <> None <-> In id (map fst l).
Proof.
  induction l as [|[k c] l IH]; cbn [ptr_get map fst In]; [intuition|]. destruct (Z.eqb_spec k id) as [->|N]; [intuition discriminate|].
  rewrite IH. intuition.
Qed.

Lemma ptr_in_get l id p : NoDup (map fst l) -> In (id, p) l -> ptr_get l id = Some p.
Proof.
  induction l as [|[k q] l IH]; cbn [ptr_get map fst In]; [contradiction|]. intros N I. inversion N as [|? ? N1 N2]; subst.
  destruct I as [I|I]; [injection I as <- <-; now rewrite Z.eqb_refl|]. destruct (Z.eqb_spec k id) as [->|_]; [|auto].
  destruct N1. apply in_map_iff. now exists (id, p).
Qed.

Lemma ctx_in_get l id (c : ctx) : NoDup (map fst l) -> In (id, c) l -> ctx_get l id = Some c.
Proof.
  induction l as [|[k q] l IH]; cbn [ctx_get map fst In]; [contradiction|]. intros N I. inversion N as [|? ? N1 N2]; subst.
  destruct I as [I|I]; [injection I as <- <-; now rewrite Z.eqb_refl|]. destruct (Z.eqb_spec k id) as [->|_]; [|auto].
  destruct N1. apply in_map_iff. now exists (id, c).
Qed.

Lemma ctx_get_in l id (c : ctx) : ctx_get l id = Some c -> In (id, c) l.
Proof.
  induction l as [|[k q] l IH]; cbn [ctx_get In]; [discriminate|]. destruct (Z.eqb_spec k id) as [->|_]; [intros [= ->]; now left|auto].
Qed.

(** An identifier of both maps, or of none. *)
Lemma in_memory_none a s m id : in_memory a s m -> ctx_get (a_ctxs a) id = None -> ptr_get (m_ctxs m) id = None.
Proof.
  intros (_ & _ & _ & _ & _ & B & E) Ec. rewrite E in Ec. destruct (ptr_get (m_ctxs m) id) as [p|] eqn:Ep; [|reflexivity].
  apply ptr_get_in in Ep. rewrite Forall_forall in B. specialize (B _ Ep). cbn [snd] in B. apply nth_error_None in Ec. lia.
Qed.

Lemma set_nth_len {A} (l : list A) i x : length (set_nth l i x) = length l.
Proof. revert i. induction l as [|y l IH]; intros [|i]; cbn; auto. Qed.

Lemma ptr_set_same l id p : NoDup (map fst l) -> NoDup (map snd l) -> ptr_get l id = Some p ->
  NoDup (map fst (ptr_set l id p)) /\ NoDup (map snd (ptr_set l id p)) /\ length (ptr_set l id p) = length l /\
  forall q, In q (map snd (ptr_set l id p)) -> In q (map snd l).
Proof.
  intros N1 N2 E. pose proof (ptr_get_in _ _ _ E) as I. unfold ptr_set, ptr_del. fold (drop l id). cbn [map fst snd length].
  split; [|split; [|split]].
  - constructor; [|now apply drop_nodup]. intros X. apply drop_fst in X. now apply X.
  - constructor; [|now apply drop_nodup]. intros X. apply in_map_iff in X as ([j q] & Ej & X). cbn [snd] in Ej. subst q.
    apply drop_in in X as (X & Nj). cbn [fst] in Nj. apply Nj. eapply nodup_snd; eauto.
  - apply drop_length; auto. apply in_map_iff. now exists (id, p).
  - intros q [<-|X]; [apply in_map_iff; now exists (id, p)|]. apply in_map_iff in X as (y & <- & X). apply drop_in in X. apply in_map, X.
Qed.

(** A context is changed in place; the map may be written with the pointer it has. *)
Lemma in_memory_change a s m id p c c' s' cs : in_memory a s m -> ptr_get (m_ctxs m) id = Some p -> nth_error (m_heap m) p = Some c ->
  cs = m_ctxs m \/ cs = ptr_set (m_ctxs m) id p ->
  in_memory (with_ctxs a (ctx_set (a_ctxs a) id c')) s' (Mem cs (set_nth (m_heap m) p c') s').
Proof.
  intros Im Ep Ec Ecs. pose proof Im as (_ & N1 & N2 & N3 & L & B & E).
  destruct (ptr_set_same _ id p N2 N3 Ep) as (S1 & S2 & S3 & S4).
  assert (Gp : forall j, ptr_get cs j = ptr_get (m_ctxs m) j).
  { destruct Ecs as [->| ->]; intros j; [reflexivity|]. rewrite ptr_get_set. destruct (Z.eqb_spec id j) as [<-|]; auto. }
  unfold in_memory. cbn [m_fs m_ctxs m_heap with_ctxs a_ctxs].
  assert (Ii : In id (map fst (a_ctxs a))) by (apply ctx_get_fst; rewrite E, Ep, Ec; discriminate).
  split; [reflexivity|]. split; [|split; [|split; [|split; [|split]]]].
  - unfold ctx_set, ctx_del. fold (drop (a_ctxs a) id). cbn [map fst]. constructor; [|now apply drop_nodup].
    intros X. apply drop_fst in X. now apply X.
  - destruct Ecs as [->| ->]; auto.
  - destruct Ecs as [->| ->]; auto.
  - unfold ctx_set, ctx_del. fold (drop (a_ctxs a) id). cbn [length]. rewrite drop_length by auto.
    destruct Ecs as [->| ->]; [auto|]. now rewrite S3.
  - rewrite set_nth_len. destruct Ecs as [->| ->]; [exact B|]. apply Forall_forall. intros x Ix. rewrite Forall_forall in B.
    apply (in_map snd) in Ix. apply S4, in_map_iff in Ix as (y & <- & Iy). now apply B.
  - intros j. rewrite ctx_get_set, Gp. destruct (Z.eqb_spec id j) as [<-|Nj].
    + rewrite Ep. symmetry. eapply nth_set_same; eauto.
    + rewrite E. destruct (ptr_get (m_ctxs m) j) as [p'|] eqn:Ej; [|reflexivity].
      symmetry. apply nth_set_other. intros <-. apply Nj. eapply in_memory_apart; eauto.
Qed.

Lemma in_memory_fs a s m s' : in_memory a s m -> in_memory a s' (on_fs m s').
Proof. intros (_ & I). split; [reflexivity|exact I]. Qed.

Lemma in_memory_eta a s m : in_memory a s m -> m = Mem (m_ctxs m) (m_heap m) s.
Proof. intros (<- & _). now destruct m. Qed.

(** ** One call at a time *)
Section Alone.
  Variable H : bytes -> bytes.
  Variable mv : byte.
  Variable behind : bytes -> bytes.
  Variables (a : dbapp) (s : fsys) (m : mem).
  Hypothesis Im : in_memory a s m.

  Lemma find_none id : ptr_get (m_ctxs m) id = None -> forall B (k : nat -> gprog B), g_run (g_then (g_find id) k) m = (m, Err).
  Proof. intros E B k. unfold g_then, g_find, g_then, g_lookup. cbn [g_catch g_run]. rewrite E. reflexivity. Qed.

  Lemma find_some id p : ptr_get (m_ctxs m) id = Some p -> forall B (k : nat -> gprog B), g_run (g_then (g_find id) k) m = g_run (k p) m.
  Proof. intros E B k. unfold g_then, g_find, g_then, g_lookup. cbn [g_catch g_run]. rewrite E. reflexivity. Qed.

  Lemma alone_reading id B (q : gprog B) o : reading a s id B q o -> g_run q m = (m, o).
  Proof.
    intros R. destruct (ctx_get (a_ctxs a) id) as [c|] eqn:Ec.
    - destruct (in_memory_ctx _ _ _ _ _ Im Ec) as (p & Ep & Eh).
      apply (answers_alone (view s id p c)); [eapply reading_reads; eauto|eapply answers_reading; eauto|].
      split; [exact Ep|]. split; [exact Eh|]. intros n off. destruct Im as (-> & _). reflexivity.
    - pose proof (in_memory_none _ _ _ _ Im Ec) as Ep.
      assert (K : g_run (g_content_keys id) m = (m, Err)) by (unfold g_content_keys; now apply find_none).
      assert (KC : g_run (g_commits id) m = (m, Err)) by (unfold g_commits; now apply find_none).
      assert (KR : forall q0, g_run (g_read id q0) m = (m, Err)) by (intros q0; unfold g_read; now apply find_none).
      assert (KH : forall h, g_run (g_read_by_hash id h) m = (m, Err)).
      { intros h. unfold g_read_by_hash, g_then. rewrite g_run_catch, K. reflexivity. }
      assert (RD : forall q0, read_db a s id q0 = Err) by (intros q0; unfold read_db; now rewrite Ec).
      assert (CK : content_keys a id = Err) by (unfold content_keys; now rewrite Ec).
      assert (CD : commits_db a id = Err) by (unfold commits_db; now rewrite Ec).
      assert (RH : forall h, read_by_hash a s id h = Err) by (intros h; unfold read_by_hash; now rewrite CK).
      destruct R.
      + now rewrite RD.
      + now rewrite RH.
      + now rewrite CK.
      + unfold content_keys_by_kind. rewrite CK. unfold g_keys_by_kind, g_then. rewrite g_run_catch, K. reflexivity.
      + now rewrite CD.
      + unfold commit_by_hash. rewrite CD. unfold g_commit_by_hash, g_then. rewrite g_run_catch, KC. reflexivity.
      + destruct ps as [|q ps]; [reflexivity|]. cbn [read_all g_read_all]. rewrite RD. unfold g_then at 1. rewrite g_run_catch, KR. reflexivity.
      + destruct hs as [|h hs]; [reflexivity|]. cbn [read_all_by_hashes g_read_all_by_hashes]. rewrite RH. unfold g_then at 1. rewrite g_run_catch, KH. reflexivity.
  Qed.

  Lemma alone_write id h d k : exists m', g_run (g_write id h d k) m = (m', snd (write_db a id h d k)) /\
    in_memory (fst (write_db a id h d k)) s m'.
  Proof.
    unfold write_db, g_write. destruct (ctx_get (a_ctxs a) id) as [c|] eqn:Ec.
    - destruct (in_memory_ctx _ _ _ _ _ Im Ec) as (p & Ep & Eh). rewrite (find_some id p Ep).
      destruct (content_now h d k) as [ct| | |]; try (exists m; split; [reflexivity|exact Im]).
      unfold g_then, g_field, g_store, g_enter. cbn [g_catch g_run]. rewrite Eh. cbn [g_catch g_run]. rewrite Eh. cbn [g_catch g_run m_ctxs m_heap m_fs].
      eexists. split; [reflexivity|]. cbn [fst]. destruct Im as (E & _). rewrite E. eapply in_memory_change; eauto.
    - rewrite find_none by (eapply in_memory_none; eauto). exists m. auto.
  Qed.

  Lemma alone_cancel id : exists m', g_run (g_cancel id) m = (m', snd (cancel_db a id)) /\ in_memory (fst (cancel_db a id)) s m'.
  Proof.
    unfold cancel_db, g_cancel. destruct (ctx_get (a_ctxs a) id) as [c|] eqn:Ec.
    - destruct (in_memory_ctx _ _ _ _ _ Im Ec) as (p & Ep & Eh). rewrite (find_some id p Ep).
      unfold g_then, g_store, g_enter. cbn [g_catch g_run]. rewrite Eh. cbn [g_catch g_run m_ctxs m_heap m_fs].
      eexists. split; [reflexivity|]. cbn [fst]. destruct Im as (E & _). rewrite E. eapply in_memory_change; eauto.
    - rewrite find_none by (eapply in_memory_none; eauto). exists m. auto.
  Qed.

  Lemma alone_commit id now : let '(s', a', o) := commit_db H mv now a s id in
    exists m', g_run (g_commit H mv a (rounds a s id) now id) m = (m', o) /\ in_memory a' s' m'.
  Proof.
    unfold commit_db, commit_fuel, rounds. destruct (ctx_get (a_ctxs a) id) as [c|] eqn:Ec.
    - destruct (in_memory_ctx _ _ _ _ _ Im Ec) as (p & Ep & Eh).
      rewrite (in_memory_eta _ _ _ Im). set (cs := m_ctxs m) in *. set (hp := m_heap m) in *.
      set (fuel := S (conn_size s c)).
      assert (I' : in_memory a s (Mem cs hp s)) by (unfold cs, hp; rewrite <- (in_memory_eta _ _ _ Im); exact Im).
      destruct (update_reference H mv c now) as [r| | |] eqn:Er.
      2-4: (destruct (commit_failed H mv a cs hp s id now fuel p c Ep Eh _ Er ltac:(discriminate)) as (R & _); rewrite R;
            eexists; split; [reflexivity|exact I']).
      destruct (run (update_database fuel a c r) s) as [s' o] eqn:Ed.
      pose proof (commit_went H mv a cs hp s id now fuel p c Ep Eh r Er s' o Ed) as W.
      destruct o as [[conn off]| | |].
      2-4: (destruct W as (W & _); rewrite W; eexists; split; [reflexivity|]; exact (in_memory_fs _ _ _ s' I')).
      cbv zeta in W. destruct W as (W & _). rewrite W. eexists. split; [reflexivity|].
      assert (Sn : forall l i (x y : ctx), set_nth (set_nth l i x) i y = set_nth l i y).
      { clear. induction l as [|z l IH]; intros [|i] x y; cbn; auto. now rewrite IH. }
      rewrite !Sn. unfold set_conn, set_off, set_ref. cbn [x_id x_name x_conn x_ref x_off x_pending].
      eapply (in_memory_change a s (Mem cs hp s)); cbn [m_ctxs m_heap]; eauto.
    - exists m. split; [|exact Im]. unfold g_commit, g_update_reference.
      unfold g_then at 1. rewrite g_run_catch. rewrite find_none by (eapply in_memory_none; eauto). reflexivity.
  Qed.

  Lemma in_memory_drop id p s' : ptr_get (m_ctxs m) id = Some p -> 
    in_memory (with_ctxs a (ctx_del (a_ctxs a) id)) s' (Mem (ptr_del (m_ctxs m) id) (m_heap m) s').
  Proof.
    intros Ep. destruct Im as (_ & N1 & N2 & N3 & L & B & E).
    assert (I1 : In id (map fst (m_ctxs m))) by (apply ptr_get_fst; congruence).
    assert (I2 : In id (map fst (a_ctxs a))).
    { apply ctx_get_fst. rewrite E, Ep. apply nth_error_Some. rewrite Forall_forall in B. apply (B (id, p)). now apply ptr_get_in. }
    unfold in_memory. cbn [m_fs m_ctxs m_heap with_ctxs a_ctxs]. unfold ctx_del, ptr_del. fold (drop (a_ctxs a) id) (drop (m_ctxs m) id).
    split; [reflexivity|]. split; [now apply drop_nodup|]. split; [now apply drop_nodup|]. split; [now apply drop_nodup|]. split; [|split].
    - apply Nat.succ_inj. rewrite !drop_length; auto.
    - apply Forall_forall. intros x Ix. apply drop_in in Ix as (Ix & _). rewrite Forall_forall in B. auto.
    - intros j. unfold drop at 2. fold (ptr_del (m_ctxs m) id). rewrite ptr_get_drop.
      unfold drop. fold (ctx_del (a_ctxs a) id). rewrite ctx_get_del. destruct (id =? j)%Z; auto.
  Qed.

  Lemma alone_close id : let '(s', a', o) := close_db a s id in
    exists m', g_run (g_close id) m = (m', o) /\ in_memory a' s' m'.
  Proof.
    unfold close_db, g_close. destruct (ctx_get (a_ctxs a) id) as [c|] eqn:Ec.
    - destruct (in_memory_ctx _ _ _ _ _ Im Ec) as (p & Ep & Eh). rewrite (find_some id p Ep).
      unfold g_then, g_field. cbn [g_catch g_run]. rewrite Eh. cbn [g_catch g_run lift call].
      assert (Ef : m_fs m = s) by apply Im. rewrite Ef.
      assert (X : snd (sys_close (x_conn c) s) = Ok tt \/ snd (sys_close (x_conn c) s) = Err).
      { unfold sys_close. destruct (nth_error (f_handles s) (x_conn c)) as [[? ? [|]]|]; cbn [snd]; auto. }
      destruct (sys_close (x_conn c) s) as [s' o]. cbn [snd] in X.
      destruct X as [-> | ->]; cbn [lift g_catch g_run on_fs m_ctxs m_heap m_fs].
      + eexists. split; [reflexivity|]. eapply in_memory_drop; eauto.
      + eexists. split; [reflexivity|]. eapply in_memory_fs; eauto.
    - rewrite find_none by (eapply in_memory_none; eauto). exists m. auto.
  Qed.

  Lemma run_lift {A} (p : prog A) : forall x, g_run (lift p) x = (on_fs x (fst (run p (m_fs x))), snd (run p (m_fs x))).
  Proof.
    revert p. fix IH 1. intros [o|f] x; cbn [lift g_run run].
    - now destruct x.
    - destruct (f (m_fs x)) as [s' p']. rewrite IH. destruct x. reflexivity.
  Qed.

  Lemma names_taken n : existsb (fun x => match nth_error (m_heap m) (snd x) with Some c => bytes_eqb (x_name c) n | None => false end) (m_ctxs m)
    = existsb (fun x => bytes_eqb (x_name (snd x)) n) (a_ctxs a).
  Proof.
    destruct Im as (_ & N1 & N2 & _ & _ & _ & E). apply eq_true_iff_eq. rewrite !existsb_exists. split.
    - intros ((id & p) & I & X). cbn [snd] in X. destruct (nth_error (m_heap m) p) as [c|] eqn:Eh; [|discriminate].
      exists (id, c). split; [|exact X]. apply ctx_get_in. rewrite E, (ptr_in_get _ _ _ N2 I). exact Eh.
    - intros ((id & c) & I & X). cbn [snd] in X. pose proof (ctx_in_get _ _ _ N1 I) as G. rewrite E in G.
      destruct (ptr_get (m_ctxs m) id) as [p|] eqn:Ep; [|discriminate]. exists (id, p). split; [now apply ptr_get_in|].
      cbn [snd]. now rewrite G.
  Qed.

  Lemma in_memory_add id c s' : in_memory (with_ctxs a (ctx_set (a_ctxs a) id c)) s'
    (Mem (ptr_set (m_ctxs m) id (length (m_heap m))) (m_heap m ++ [c]) s').
  Proof.
    destruct Im as (_ & N1 & N2 & N3 & L & B & E).
    assert (I12 : In id (map fst (m_ctxs m)) <-> In id (map fst (a_ctxs a))).
    { rewrite <- ptr_get_fst, <- ctx_get_fst, E. destruct (ptr_get (m_ctxs m) id) as [p|] eqn:Ep; [|intuition].
      assert (X : nth_error (m_heap m) p <> None) by (apply nth_error_Some; rewrite Forall_forall in B; apply (B (id, p)); now apply ptr_get_in).
      intuition congruence. }
    unfold in_memory. cbn [m_fs m_ctxs m_heap with_ctxs a_ctxs].
    split; [reflexivity|]. split; [|split; [|split; [|split; [|split]]]].
    - unfold ctx_set, ctx_del. fold (drop (a_ctxs a) id). cbn [map fst]. constructor; [|now apply drop_nodup].
      intros X. apply drop_fst in X. now apply X.
    - unfold ptr_set, ptr_del. fold (drop (m_ctxs m) id). cbn [map fst]. constructor; [|now apply drop_nodup].
      intros X. apply drop_fst in X. now apply X.
    - unfold ptr_set, ptr_del. fold (drop (m_ctxs m) id). cbn [map snd]. constructor; [|now apply drop_nodup].
      intros X. apply in_map_iff in X as (y & Ey & Iy). apply drop_in in Iy as (Iy & _). rewrite Forall_forall in B.
      specialize (B y Iy). lia.
    - unfold ptr_set, ptr_del, ctx_set, ctx_del. fold (drop (m_ctxs m) id) (drop (a_ctxs a) id). cbn [length]. f_equal.
      destruct (in_dec Z.eq_dec id (map fst (m_ctxs m))) as [I|I].
      + apply Nat.succ_inj. rewrite !drop_length; auto. now apply I12.
      + rewrite !drop_none; auto. intros X. apply I. now apply I12.
    - rewrite app_length. cbn [length]. unfold ptr_set. constructor; [cbn [snd]; lia|]. apply Forall_forall. intros x Ix.
      apply (drop_in (m_ctxs m) id) in Ix as (Ix & _). rewrite Forall_forall in B. specialize (B x Ix). lia.
    - intros j. rewrite ctx_get_set, ptr_get_set. destruct (id =? j)%Z.
      + rewrite nth_error_app2, Nat.sub_diag by lia. reflexivity.
      + rewrite E. destruct (ptr_get (m_ctxs m) j) as [p|] eqn:Ep; [|reflexivity]. rewrite nth_error_app1; [reflexivity|].
        rewrite Forall_forall in B. apply (B (j, p)). now apply ptr_get_in.
  Qed.

  Lemma alone_open n : let (s', o) := run (p_open H mv behind a n) s in
    exists m', g_run (g_open H mv behind a n) m = (m', do x <- o; Ok (snd x)) /\
      in_memory (match o with Ok x => fst x | _ => a end) s' m'.
  Proof.
    assert (Ef : m_fs m = s) by apply Im.
    unfold g_open, p_open. unfold g_then at 1. cbn [g_catch g_run]. rewrite names_taken.
    destruct (existsb _ (a_ctxs a)); [exists m; auto|].
    unfold g_then at 1. rewrite g_run_catch, run_lift, Ef. unfold andthen at 1. rewrite run_catch.
    destruct (run (p_retrieve H mv behind (a_chunk a) n) s) as [s1 [r| | |]]; cbn [fst snd];
      try (eexists; split; [reflexivity|]; exact (in_memory_fs a s m s1 Im)).
    unfold g_then at 1. rewrite g_run_catch, run_lift. unfold andthen at 1. rewrite run_catch.
    cbn [on_fs m_fs m_ctxs m_heap]. rewrite !run_call. destruct (sys_open n s1) as [s2 [conn| | |]]; cbn [fst snd];
      try (eexists; split; [reflexivity|]; exact (in_memory_fs a s m s2 Im)).
    unfold g_then, g_enter. cbn [run g_catch g_run m_ctxs m_heap m_fs on_fs].
    assert (L : zlen (m_ctxs m) = zlen (a_ctxs a)) by (unfold zlen; destruct Im as (_ & _ & _ & _ & L & _); now rewrite L).
    rewrite L. cbn [bind fst snd]. eexists. split; [reflexivity|]. apply in_memory_add.
  Qed.
End Alone.

(** ** One goroutine beside any number of readers *)
Lemma forall2_set {A B} (R : A -> B -> Prop) l es k t t' : Forall2 R l es -> nth_error l k = Some t -> (forall e, R t e -> R t' e) ->
  Forall2 R (set_nth l k t') es.
Proof.
  intros F. revert k. induction F as [|x e l es r F IH]; intros [|k] E K; cbn in *; try discriminate.
  - injection E as <-. constructor; auto.
  - constructor; auto.
Qed.

Section Crowd.
  Variables (J : mem -> Prop) (A : Type).

  Definition ties (t : thread) (e : {B : Type & outcome B}) : Prop :=
    exists B q o, t = existT gprog B q /\ e = existT outcome B o /\ reads q /\ answers J o q.

  Lemma ties_end t e r : ties t e -> came_to t = Some r -> r = e.
  Proof.
    intros (B & q & o & -> & -> & R & An). unfold came_to. cbn [projT1 projT2]. destruct q as [o'|f]; [|discriminate].
    intros [= <-]. inversion An. reflexivity.
  Qed.

  Lemma ties_move t e t' m m1 : J m -> ties t e -> move t m = Some (t', m1) -> m1 = m /\ ties t' e.
  Proof.
    intros Jm (B & q & o & -> & -> & R & An). unfold move. cbn [projT1 projT2]. destruct q as [o'|f]; [discriminate|].
    inversion R as [|f' E1 R1]; subst. inversion An as [|f' K]; subst. specialize (E1 m). specialize (R1 m). specialize (K m Jm).
    destruct (f m) as [m2 q2]. cbn [fst snd] in *. intros [= <- <-]. split; [exact E1|]. exists B, q2, o. auto.
  Qed.

  Lemma beside ts m ts' m' : together ts m ts' m' -> forall (p : gprog A) qs es, ts = thread_of p :: qs ->
    Forall J (g_states p m) -> Forall2 ties qs es ->
    exists p' qs', ts' = thread_of p' :: qs' /\ g_run p' m' = g_run p m /\ Forall J (g_states p' m') /\ Forall2 ties qs' es.
  Proof.
    intros T. induction T as [ts m|ts m k t t' m1 ts' m' Ek Em T IH]; intros p qs es -> Fj F2; [exists p, qs; auto|].
    destruct k as [|k]; cbn [nth_error set_nth] in *.
    - injection Ek as <-. unfold move, thread_of in Em. cbn [projT1 projT2] in Em. destruct p as [o|f]; [discriminate|].
      cbn [g_states] in Fj. inversion Fj as [|? ? J0 J1]; subst. cbn [g_run]. destruct (f m) as [m2 q2]. injection Em as <- <-.
      exact (IH q2 qs es eq_refl J1 F2).
    - assert (Jm : J m) by (rewrite g_states_head in Fj; now inversion Fj).
      destruct (nth_error_split _ _ Ek) as (l1 & l2 & El & _).
      assert (X : exists e, ties t e).
      { subst qs. apply Forall2_app_inv_l in F2 as (e1 & e2 & _ & F2 & _). inversion F2; subst. eauto. }
      destruct X as (e0 & X). destruct (ties_move _ _ _ _ _ Jm X Em) as (-> & _).
      apply (IH p _ es eq_refl Fj). apply (forall2_set ties _ _ _ t t' F2 Ek). intros e Y. now apply (ties_move t e t' m m).
  Qed.
End Crowd.

(** A crowd of readers only. *)
Lemma only_readers (J : mem -> Prop) m ts es ts' m' : J m -> Forall2 (ties J) ts es -> together ts m ts' m' ->
  m' = m /\ Forall2 (ties J) ts' es.
Proof.
  intros Jm F T. induction T as [ts m|ts m k t t' m1 ts' m' Ek Em T IH]; [auto|].
  destruct (nth_error_split _ _ Ek) as (l1 & l2 & El & _).
  assert (X : exists e, ties J t e).
  { subst ts. apply Forall2_app_inv_l in F as (e1 & e2 & _ & F2 & _). inversion F2; subst. eauto. }
  destruct X as (e0 & X). destruct (ties_move _ _ _ _ _ _ Jm X Em) as (-> & _).
  apply IH; auto. apply (forall2_set (ties J) _ _ _ t t' F Ek). intros e Y. now apply (ties_move J t e t' m m).
Qed.

(** ** What a call on one database leaves of the view of another *)
Section Elsewhere.
  Variable H : bytes -> bytes.
  Variable mv : byte.
  Variable behind : bytes -> bytes.
  Variables (a : dbapp) (s : fsys) (m : mem) (id1 id2 : Z) (c2 : ctx) (p2 : nat).
  Hypothesis Im : in_memory a s m.
  Hypothesis E2 : ctx_get (a_ctxs a) id2 = Some c2.
  Hypothesis Nid : id1 <> id2.
  Hypothesis Ep2 : ptr_get (m_ctxs m) id2 = Some p2.
  Hypothesis Ec2 : nth_error (m_heap m) p2 = Some c2.
  Notation view := (view s id2 p2 c2).

  Lemma view_now : view m.
  Proof. repeat split; auto. intros n off. destruct Im as (-> & _). reflexivity. Qed.

  Lemma view_change p1 c' cs s' : ptr_get (m_ctxs m) id1 = Some p1 ->
    cs = m_ctxs m \/ cs = ptr_set (m_ctxs m) id1 p1 ->
    (forall n off, read_at s' (x_conn c2) n off = read_at s (x_conn c2) n off) ->
    view (Mem cs (set_nth (m_heap m) p1 c') s').
  Proof.
    intros E1 Ecs R. split; [|split; [|exact R]]; cbn [m_ctxs m_heap].
    - destruct Ecs as [->| ->]; [exact Ep2|]. rewrite ptr_get_set. destruct (Z.eqb_spec id1 id2); [contradiction|exact Ep2].
    - rewrite nth_set_other; [exact Ec2|]. intros ->. apply Nid. eapply in_memory_apart; eauto.
  Qed.

  Lemma write_keeps_view h d k : Forall view (g_states (g_write id1 h d k) m).
  Proof.
    unfold g_write, g_then, g_find, g_then, g_lookup. cbn [g_catch g_states]. constructor; [apply view_now|].
    destruct (ptr_get (m_ctxs m) id1) as [p1|] eqn:E1; cbn [g_catch g_states]; [|constructor; [apply view_now|constructor]].
    destruct (content_now h d k) as [ct| | |]; cbn [g_catch g_states]; try (constructor; [apply view_now|constructor]).
    unfold g_field, g_store, g_enter. cbn [g_catch g_states]. constructor; [apply view_now|].
    destruct (nth_error (m_heap m) p1) as [c1|] eqn:Ec1; cbn [g_catch g_states]; [|constructor; [apply view_now|constructor]].
    constructor; [apply view_now|]. rewrite Ec1. cbn [g_catch g_states m_ctxs m_heap m_fs].
    constructor; [|constructor; [|constructor]]; apply view_change; auto; intros n off; destruct Im as (-> & _); reflexivity.
  Qed.

  Lemma cancel_keeps_view : Forall view (g_states (g_cancel id1) m).
  Proof.
    unfold g_cancel, g_then, g_find, g_then, g_lookup. cbn [g_catch g_states]. constructor; [apply view_now|].
    destruct (ptr_get (m_ctxs m) id1) as [p1|] eqn:E1; cbn [g_catch g_states]; [|constructor; [apply view_now|constructor]].
    unfold g_store, g_enter. cbn [g_catch g_states]. constructor; [apply view_now|].
    destruct (nth_error (m_heap m) p1) as [c1|] eqn:Ec1; cbn [g_catch g_states]; [|constructor; [apply view_now|constructor]].
    cbn [m_ctxs m_heap m_fs].
    constructor; [|constructor; [|constructor]]; apply view_change; auto; intros n off; destruct Im as (-> & _); reflexivity.
  Qed.

  Lemma close_keeps_view : (forall c1, ctx_get (a_ctxs a) id1 = Some c1 -> x_conn c1 <> x_conn c2) -> Forall view (g_states (g_close id1) m).
  Proof.
    intros Nc. unfold g_close, g_then, g_find, g_then, g_lookup. cbn [g_catch g_states]. constructor; [apply view_now|].
    destruct (ptr_get (m_ctxs m) id1) as [p1|] eqn:E1; cbn [g_catch g_states]; [|constructor; [apply view_now|constructor]].
    unfold g_field. cbn [g_catch g_states]. constructor; [apply view_now|].
    destruct (nth_error (m_heap m) p1) as [c1|] eqn:Ec1; cbn [g_catch g_states]; [|constructor; [apply view_now|constructor]].
    assert (Ec : ctx_get (a_ctxs a) id1 = Some c1) by (destruct Im as (_ & _ & _ & _ & _ & _ & E); rewrite E, E1; exact Ec1).
    specialize (Nc _ Ec). cbn [lift call g_catch g_states]. constructor; [apply view_now|].
    assert (Ef : m_fs m = s) by apply Im. rewrite Ef. unfold sys_close.
    assert (V : forall cs i q, cs = m_ctxs m \/ cs = ptr_del (m_ctxs m) id1 ->
      view (Mem cs (m_heap m) (with_handles s (set_nth (f_handles s) (x_conn c1) (Handle i q false))))).
    { intros cs i q Ecs. split; [|split; [exact Ec2|]]; cbn [m_ctxs m_fs].
      - destruct Ecs as [->| ->]; [exact Ep2|]. rewrite ptr_get_drop. destruct (Z.eqb_spec id1 id2); [contradiction|exact Ep2].
      - intros n off. unfold read_at. cbn [with_handles f_handles]. rewrite nth_set_other by exact Nc. reflexivity. }
    assert (Eta : forall x, on_fs x (m_fs x) = x) by now intros [].
    assert (V0 : view (on_fs m s)) by (pose proof (Eta m) as X; rewrite Ef in X; rewrite X; exact view_now).
    destruct (nth_error (f_handles s) (x_conn c1)) as [[i q [|]]|]; cbn [lift g_catch g_states on_fs m_ctxs m_heap m_fs];
      repeat (constructor; [first [exact V0|apply V; auto]|]); constructor.
  Qed.

  (** Opening: the file that is open at [c2] stays as it is. *)
  Definition opening (x : fsys) : Prop :=
    f_data x = f_data s /\ nth_error (f_handles x) (x_conn c2) = nth_error (f_handles s) (x_conn c2).

  Lemma opening_read h n off : kept_by opening (p_read h n off).
  Proof. apply kept_call. intros x O. exact O. Qed.

  Lemma opening_chunks h k : forall chunk last off, kept_by opening (p_read_chunks h k chunk last off).
  Proof.
    induction k as [|k IH]; intros chunk last off; cbn [p_read_chunks]; [apply kept_ret|].
    destruct (_ <? 0)%Z; [apply kept_ret|]. apply kept_then; [apply opening_read|]. intros b.
    apply kept_then; [apply IH|]. intros r. apply kept_ret.
  Qed.

  Lemma opening_open n : x_conn c2 < length (f_handles s) -> forall x, opening x ->
    tri (call (sys_open n)) x opening (fun y o => opening y /\ forall h, o = Ok h -> h <> x_conn c2).
  Proof.
    intros L x (O1 & O2).
    assert (L' : x_conn c2 < length (f_handles x)) by (apply nth_error_Some; rewrite O2; now apply nth_error_Some).
    assert (G : opening (fst (sys_open n x)) /\ forall h, snd (sys_open n x) = Ok h -> h <> x_conn c2).
    { unfold sys_open. destruct (dir_get (f_dir x) n) as [[i|]|]; cbn [fst snd]; (split; [split|]); cbn [with_handles f_data f_handles]; auto; try discriminate.
      - rewrite nth_error_app1; auto.
      - intros h [= <-]. lia. }
    apply tri_call; [split; auto|apply G|exact G].
  Qed.

  Lemma opening_retrieve n : x_conn c2 < length (f_handles s) -> kept_by opening (p_retrieve H mv behind (a_chunk a) n).
  Proof.
    intros L. unfold p_retrieve. apply (kept_then' _ (fun h => h <> x_conn c2)); [intros x O; now apply opening_open|].
    intros h Nh. apply kept_catch.
    - unfold p_reference. apply kept_catch; [apply opening_read|]. intros [b| | |]; try apply kept_ret.
      cbv zeta. destruct (_ =? 0)%Z; [apply kept_ret|]. apply kept_then; [apply opening_chunks|]. intros r. apply kept_ret.
    - intros o x (O1 & O2). apply tri_step; [split; auto|]. cbn [fst snd]. apply tri_ret.
      all: unfold sys_close; destruct (nth_error (f_handles x) h) as [[i q [|]]|]; cbn [fst]; split; auto;
        cbn [with_handles f_handles]; rewrite nth_set_other by exact Nh; auto.
  Qed.

  Lemma opening_view x cs hp : opening x -> ptr_get cs id2 = Some p2 -> nth_error hp p2 = Some c2 -> view (Mem cs hp x).
  Proof.
    intros (O1 & O2) E1 E3. split; [exact E1|]. split; [exact E3|]. intros n off. cbn [m_fs]. unfold read_at, data_of. now rewrite O1, O2.
  Qed.

  Lemma states_lift {A} (p : prog A) : forall x, g_states (lift p) x = map (on_fs x) (states p (m_fs x)).
  Proof.
    revert p. fix IH 1. intros [o|f] x; cbn [lift g_states states map].
    - now destruct x.
    - destruct x as [cs hp y]. cbn [on_fs m_ctxs m_heap m_fs]. f_equal. destruct (f y) as [s' p']. rewrite IH. reflexivity.
  Qed.

  Lemma open_keeps_view n : x_conn c2 < length (f_handles s) -> zlen (a_ctxs a) <> id2 ->
    Forall view (g_states (g_open H mv behind a n) m).
  Proof.
    intros L Nz. assert (Ef : m_fs m = s) by apply Im.
    assert (O0 : opening s) by (split; reflexivity).
    unfold g_open. unfold g_then at 1. cbn [g_catch g_states]. constructor; [apply view_now|].
    destruct (existsb _ _); [constructor; [apply view_now|constructor]|].
    destruct (opening_retrieve n L s O0) as (K1 & K2).
    assert (St : forall xs, Forall opening xs -> Forall view (map (on_fs m) xs)).
    { intros xs F. apply Forall_map. eapply Forall_impl; [|exact F]. intros x O. now apply opening_view. }
    unfold g_then at 1. rewrite g_states_catch, states_lift, run_lift, Ef. apply Forall_app. split; [auto|].
    destruct (run (p_retrieve H mv behind (a_chunk a) n) s) as [s1 o]. cbn [fst snd] in *.
    destruct o as [r| | |]; try constructor.
    destruct (opening_open n L s1 K2) as (K3 & K4 & _).
    assert (Tl : forall l : list mem, Forall view l -> Forall view (tl l)) by (intros [|z l] F; [constructor|now inversion F]).
    apply Tl. unfold g_then at 1. rewrite g_states_catch, states_lift, run_lift. cbn [on_fs m_fs m_ctxs m_heap].
    apply Forall_app. split.
    { apply Forall_map. eapply Forall_impl; [|exact K3]. intros x O. now apply opening_view. }
    destruct (run (call (sys_open n)) s1) as [s2 [conn| | |]]; cbn [fst snd] in *. 2-4: constructor.
    apply Tl. unfold g_then, g_enter. cbn [g_catch g_states m_ctxs m_heap m_fs on_fs].
    assert (Lz : zlen (m_ctxs m) <> id2).
    { intros X. apply Nz. rewrite <- X. unfold zlen. now destruct Im as (_ & _ & _ & _ & -> & _). }
    assert (Eh : forall x, nth_error (m_heap m ++ [x]) p2 = Some c2).
    { intros x. rewrite nth_error_app1; [exact Ec2|]. apply nth_error_Some. congruence. }
    repeat (constructor; [apply opening_view; auto|]); [|constructor].
    rewrite ptr_get_set. destruct (Z.eqb_spec (zlen (m_ctxs m)) id2); [contradiction|exact Ep2].
  Qed.
End Elsewhere.
