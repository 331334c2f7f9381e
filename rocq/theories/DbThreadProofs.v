(** Goroutines that share one application. *)
From Coq Require Import List ZArith NArith Lia Bool.
From Coq Require Import Init.Byte Strings.Byte.
From Verif Require Import Base BaseLemmas HashModel HashProofs SpecHash HashTreeModel HashTreeProofs
  RefModel RefProofs SpecRef DbModel SpecDb DbRefProofs DbFsProofs DbCommitProofs DbOpenProofs DbApiProofs
  DbSession DbSessionProofs DbMoreProofs DbMultiProofs DbFrameProofs DbConcurrent DbConcurrentProofs
  DbScheduleProofs DbSchedule3 DbThreads SpecThreads.
Import ListNotations.

(** ** One goroutine alone *)
Lemma g_run_catch {A B} (k : outcome A -> gprog B) p : forall m,
  g_run (g_catch p k) m = g_run (k (snd (g_run p m))) (fst (g_run p m)).
Proof. 
  revert p. fix IH 1. intros [o|f] m; cbn [g_catch g_run]; [reflexivity|]. destruct (f m) as [m' p']. apply IH.
Qed.

Lemma g_states_head {A} (p : gprog A) m : g_states p m = m :: tl (g_states p m).
Proof. destruct p; reflexivity. Qed.

Lemma g_states_catch {A B} (k : outcome A -> gprog B) p : forall m,
  g_states (g_catch p k) m = g_states p m ++ tl (g_states (k (snd (g_run p m))) (fst (g_run p m))).
Proof.
  revert p. fix IH 1. intros [o|f] m; cbn [g_catch g_run g_states app]; [apply g_states_head|].
  destruct (f m) as [m' p'] eqn:E. cbn [app]. f_equal. apply IH.
Qed.

Lemma g_run_then {A B} (p : gprog A) (k : A -> gprog B) m m' v : g_run p m = (m', Ok v) ->
  g_run (g_then p k) m = g_run (k v) m'.
Proof. intros E. unfold g_then. rewrite g_run_catch, E. reflexivity. Qed.

Lemma g_states_then {A B} (p : gprog A) (k : A -> gprog B) m m' v : g_run p m = (m', Ok v) ->
  g_states (g_then p k) m = g_states p m ++ tl (g_states (k v) m').
Proof. intros E. unfold g_then. rewrite g_states_catch, E. reflexivity. Qed.

Lemma g_then_stop {A B} (p : gprog A) (k : A -> gprog B) m m' o : g_run p m = (m', o) -> (forall v, o <> Ok v) ->
  g_run (g_then p k) m = (m', bind o (fun _ => Fuel)) /\ g_states (g_then p k) m = g_states p m.
Proof.
  intros E N. unfold g_then. rewrite g_run_catch, g_states_catch, E. cbn [fst snd].
  destruct o as [v| | |]; [now destruct (N v)| | |]; cbn [g_run g_states tl bind]; rewrite app_nil_r; auto.
Qed.

(** Programs that only read. *)
Definition still {A} (g : gprog A) (o : outcome A) (m : mem) : Prop :=
  g_run g m = (m, o) /\ Forall (eq m) (g_states g m).

Lemma still_ret {A} (o : outcome A) m : still (GRet o) o m.
Proof. split; [reflexivity|]. repeat constructor. Qed.

Lemma still_look {A B} (f : mem -> outcome A) (k : outcome A -> gprog B) m o :
  still (k (f m)) o m -> still (g_catch (GStep (fun m => (m, GRet (f m)))) k) o m.
Proof.
  intros (R & F). split; [rewrite g_run_catch; exact R|]. rewrite g_states_catch. cbn.
  rewrite g_states_head in F. inversion F; subst. repeat constructor; auto.
Qed.

Lemma still_catch {A B} (g : gprog A) (k : outcome A -> gprog B) v o m :
  still g v m -> still (k v) o m -> still (g_catch g k) o m.
Proof.
  intros (R1 & F1) (R2 & F2). split; [now rewrite g_run_catch, R1|]. rewrite g_states_catch, R1. cbn [fst snd].
  apply Forall_app. split; [exact F1|]. rewrite g_states_head in F2. now inversion F2.
Qed.

Lemma still_then {A B} (g : gprog A) (k : A -> gprog B) v o m :
  still g (Ok v) m -> still (k v) o m -> still (g_then g k) o m.
Proof. intros S1 S2. eapply still_catch; eauto. Qed.

(** Programs that change the file system only, as a program of the sequential model does. *)
Definition sim {A} (cs : list (Z * nat)) (hp : list ctx) (g : gprog A) (p : prog A) : Prop := forall s,
  g_run g (Mem cs hp s) = (Mem cs hp (fst (run p s)), snd (run p s)) /\
  Forall (fun x => exists y, In y (states p s) /\ x = Mem cs hp y) (g_states g (Mem cs hp s)).

Section Sim.
  Variable cs : list (Z * nat).
  Variable hp : list ctx.
  Local Notation sim := (sim cs hp).

  Lemma sim_ret {A} (o : outcome A) : sim (GRet o) (Ret o).
  Proof. intros s. split; [reflexivity|]. repeat constructor. exists s. cbn. auto. Qed.

  Lemma sim_lift {A} : forall p : prog A, sim (lift p) p.
  Proof.
    fix IH 1. intros [o|f]; [apply sim_ret|]. intros s. cbn [lift g_run g_states run states m_fs].
    destruct (f s) as [s' p']. cbn [on_fs m_ctxs m_heap]. destruct (IH p' s') as (R & F). split; [exact R|].
    constructor; [exists s; cbn; auto|]. eapply Forall_impl; [|exact F]. intros x (y & I & E). exists y. cbn. auto.
  Qed.

  Lemma states_catch_in {A B} (k : outcome A -> prog B) p s y :
    In y (states p s) \/ In y (states (k (snd (run p s))) (fst (run p s))) -> In y (states (catch p k) s).
  Proof.
    rewrite states_catch_eq. intros [I|I]; apply in_or_app; [now left|].
    assert (Eh : forall (q : prog B) x, states q x = x :: tl (states q x)) by (intros [?|?] ?; reflexivity).
    rewrite Eh in I. destruct I as [<-|I]; [left|now right].
    clear. revert s. revert p. fix IH 1. intros [o|f] s; cbn [run states]; [now left|]. right. destruct (f s) as [s' p']. apply IH.
  Qed.

  Lemma sim_catch {A B} (g : gprog A) (p : prog A) (k : outcome A -> gprog B) (k' : outcome A -> prog B) :
    sim g p -> (forall o, sim (k o) (k' o)) -> sim (g_catch g k) (catch p k').
  Proof.
    intros S K s. destruct (S s) as (R & F). destruct (K (snd (run p s)) (fst (run p s))) as (R' & F').
    split.
    - rewrite g_run_catch, R. cbn [fst snd]. rewrite R', run_catch. destruct (run p s); reflexivity.
    - rewrite g_states_catch, R. cbn [fst snd]. apply Forall_app. split.
      + eapply Forall_impl; [|exact F]. intros x (y & I & E). exists y. split; [apply states_catch_in; now left|exact E].
      + rewrite g_states_head in F'. inversion F' as [|? ? _ F'']; subst. eapply Forall_impl; [|exact F''].
        intros x (y & I & E). exists y. split; [apply states_catch_in; now right|exact E].
  Qed.

  Lemma sim_then {A B} (g : gprog A) (p : prog A) (k : A -> gprog B) (k' : A -> prog B) :
    sim g p -> (forall v, sim (k v) (k' v)) -> sim (g_then g k) (andthen p k').
  Proof. intros S K. apply sim_catch; auto. intros [v| | |]; auto using sim_ret. Qed.

  (** Looking at the memory. *)
  Lemma sim_still {A B} (g : gprog A) (v : A) (k : A -> gprog B) (p : prog B) :
    (forall s, still g (Ok v) (Mem cs hp s)) -> sim (k v) p -> sim (g_then g k) p.
  Proof.
    intros S K s. destruct (S s) as (R1 & F1). destruct (K s) as (R2 & F2). split.
    - erewrite g_run_then by exact R1. exact R2.
    - erewrite g_states_then by exact R1. apply Forall_app. split.
      + eapply Forall_impl; [|exact F1]. intros x <-. exists s. split; [apply states_head|reflexivity].
      + rewrite g_states_head in F2. now inversion F2.
  Qed.
End Sim.

Lemma still_field {A} p (f : ctx -> A) m c : nth_error (m_heap m) p = Some c -> still (g_field p f) (Ok (f c)) m.
Proof. intros E. split; [cbn; now rewrite E|repeat constructor]. Qed.

Lemma sim_field {A B} cs hp p c (f : ctx -> A) (k : A -> gprog B) q : nth_error hp p = Some c ->
  sim cs hp (k (f c)) q -> sim cs hp (g_then (g_field p f) k) q.
Proof. intros E S. eapply sim_still; [|exact S]. intros s. now apply still_field. Qed.

Lemma still_find id m p : ptr_get (m_ctxs m) id = Some p -> still (g_find id) (Ok p) m.
Proof. intros E. unfold g_find. eapply still_then; [split; [cbn; now rewrite E|repeat constructor]|apply still_ret]. Qed.

Lemma still_find_none id m : ptr_get (m_ctxs m) id = None -> still (g_find id) Err m.
Proof.
  intros E. unfold g_find. eapply still_then; [split; [cbn; now rewrite E|repeat constructor]|apply still_ret].
Qed.

Lemma still_reference {A} p m c (nothing : A) f : nth_error (m_heap m) p = Some c ->
  still (g_reference p nothing f) (match x_ref c with None => Ok nothing | Some r => f r end) m.
Proof.
  intros E. unfold g_reference. eapply still_then; [apply still_field; exact E|]. destruct (x_ref c) as [r|] eqn:X; [|apply still_ret].
  eapply still_then; [apply still_field; exact E|]. rewrite X. apply still_ret.
Qed.

(** ** Commit alone *)
Section Commit.
  Variable H : bytes -> bytes.
  Variable mv : byte.
  Variable a : dbapp.

  Lemma still_update_reference id now m p c : ptr_get (m_ctxs m) id = Some p -> nth_error (m_heap m) p = Some c ->
    still (g_update_reference H mv id now) (update_reference H mv c now) m.
  Proof.
    intros Ep Ec. unfold g_update_reference, update_reference.
    eapply still_then; [apply still_find; exact Ep|].
    assert (T : forall A B (g : gprog A) (k : A -> gprog B) (v : outcome A) (k' : A -> outcome B),
      still g v m -> (forall x, v = Ok x -> still (k x) (k' x) m) -> still (g_then g k) (bind v k') m).
    { intros A B g k v k' S1 S2. eapply still_catch; [exact S1|]. destruct v; cbn [bind]; auto using still_ret. }
    replace (match x_ref c with Some r => do l <- commits_latest (r_commits r); Ok (Some (c_hash l)) | None => Ok None end)
      with (match x_ref c with None => Ok None | Some r => do l <- commits_latest (r_commits r); Ok (Some (c_hash l)) end) by (destruct (x_ref c); reflexivity).
    apply T; [now apply still_reference|]. intros parent _.
    eapply still_then; [apply still_field; exact Ec|]. cbv beta.
    apply T; [apply still_ret|]. intros values _. cbv zeta.
    eapply (still_then _ _ (match x_ref c with Some r => r_commits r | None => [] end)).
    { pose proof (still_reference p m c [] (fun r => Ok (r_commits r)) Ec) as S. now destruct (x_ref c). }
    apply T; [apply still_ret|]. intros commits _.
    eapply (still_then _ _ (match x_ref c with Some r => r_keys r | None => [] end)).
    { pose proof (still_reference p m c [] (fun r => Ok (r_keys r)) Ec) as S. now destruct (x_ref c). }
    eapply (still_then _ _ (match x_ref c with Some r => keys_next (r_keys r) | None => 0%Z end)).
    { pose proof (still_reference p m c 0%Z (fun r => Ok (keys_next (r_keys r))) Ec) as S. now destruct (x_ref c). }
    eapply still_then; [apply still_field; exact Ec|]. cbv beta.
    apply T; [apply still_ret|]. intros new _.
    apply T; [apply still_ret|]. intros keys _. apply still_ret.
  Qed.

  Section Files.
    Variables (cs : list (Z * nat)) (hp : list ctx) (p : nat) (c : ctx).
    Hypothesis Ec : nth_error hp p = Some c.

    (** The loop of the sequential model reads in the step that starts the round. *)
    Lemma sim_copy_loop chunk dst fuel : forall roff woff,
      sim cs hp (g_copy_loop fuel p chunk roff dst woff) (copy_loop fuel (x_conn c) chunk roff dst woff).
    Proof.
      induction fuel as [|fuel IH]; intros roff woff; [apply sim_ret|].
      cbn [g_copy_loop]. eapply sim_field; [exact Ec|].
      assert (S : sim cs hp (g_catch (lift (p_read (x_conn c) chunk roff)) (fun o =>
        match o with
        | Ok b => g_catch (lift (p_write dst woff b)) (fun o' =>
            match o' with Ok _ => g_copy_loop fuel p chunk (roff + zlen b) dst (woff + length b) | _ => GRet (Ok woff) end)
        | _ => GRet (Ok woff) end))
        (catch (p_read (x_conn c) chunk roff) (fun o =>
        match o with
        | Ok b => catch (p_write dst woff b) (fun o' =>
            match o' with Ok _ => copy_loop fuel (x_conn c) chunk (roff + zlen b) dst (woff + length b) | _ => Ret (Ok woff) end)
        | _ => Ret (Ok woff) end))).
      { apply sim_catch; [apply sim_lift|]. intros [b| | |]; try apply sim_ret.
        apply sim_catch; [apply sim_lift|]. intros [u| | |]; try apply sim_ret. apply IH. }
      exact S.
    Qed.

    Lemma sim_update_database fuel r : sim cs hp (g_update_database a fuel p r) (update_database fuel a c r).
    Proof.
      unfold g_update_database, update_database. eapply sim_field; [exact Ec|]. cbv beta.
      apply sim_then; [apply sim_lift|]. intros lock. apply sim_catch.
      2:{ intros o. intros s. cbn. split; [reflexivity|]. repeat constructor; [exists s|exists (sys_unlock lock s)]; cbn; auto. }
      unfold g_swap_files, g_prepare_files, swap_files, prepare_files, replace_files.
      assert (Sd : sim cs hp (g_write_destination a fuel p r) (write_destination fuel a c r)).
      { unfold g_write_destination, write_destination. eapply sim_field; [exact Ec|]. cbv beta.
        apply sim_then; [apply sim_lift|]. intros dst. cbv zeta.
        apply sim_then; [apply sim_lift|]. intros _.
        eapply sim_field; [exact Ec|]. cbv beta. eapply sim_field; [exact Ec|]. cbv beta.
        apply sim_then.
        - destruct (x_ref c); [|apply sim_ret]. eapply sim_field; [exact Ec|]. cbv beta.
          apply sim_then; [apply sim_lift|]. intros size. eapply sim_field; [exact Ec|]. cbv beta.
          destruct (_ <=? _)%Z; [apply sim_ret|apply sim_copy_loop].
        - intros woff. eapply sim_field; [exact Ec|]. cbv beta.
          apply sim_then; [apply sim_lift|]. intros _. apply sim_ret. }
      apply sim_then.
      - apply sim_then; [exact Sd|]. intros off.
        apply sim_then; [apply sim_lift|]. intros bck.
        eapply sim_field; [exact Ec|]. cbv beta. apply sim_then; [apply sim_lift|]. intros _.
        eapply sim_field; [exact Ec|]. cbv beta. apply sim_then; [apply sim_lift|]. intros _. apply sim_ret.
      - intros off. unfold g_replace_files. do 4 (apply sim_then; [apply sim_lift|]; intros ?). apply sim_ret.
    Qed.
  End Files.
End Commit.

(** ** A goroutine that only reads, beside another one *)
Inductive reads {A} : gprog A -> Prop :=
| reads_ret o : reads (GRet o)
| reads_step f : (forall m, fst (f m) = m) -> (forall m, reads (snd (f m))) -> reads (GStep f).

Lemma reads_catch {A B} (q : gprog A) (k : outcome A -> gprog B) : reads q -> (forall o, reads (k o)) -> reads (g_catch q k).
Proof.
  intros R K. induction R as [o|f E R IH]; cbn [g_catch]; [apply K|].
  constructor; intros m; specialize (E m); specialize (IH m); destruct (f m) as [m' q']; auto.
Qed.

Lemma reads_then {A B} (q : gprog A) (k : A -> gprog B) : reads q -> (forall v, reads (k v)) -> reads (g_then q k).
Proof. intros R K. apply reads_catch; auto. intros [v| | |]; auto using @reads_ret. Qed.

Lemma reads_look {A} (f : mem -> outcome A) : reads (GStep (fun m => (m, GRet (f m)))).
Proof. constructor; intros m; [reflexivity|constructor]. Qed.

Lemma reads_lift_read h n off : reads (lift (p_read h n off)).
Proof. constructor; intros [cs hp s]; cbn; [reflexivity|constructor]. Qed.

Lemma reads_find id : reads (g_find id).
Proof. apply reads_then; [apply reads_look|]. intros [p|]; constructor. Qed.

Lemma reads_reference {A} p (nothing : A) f : reads (g_reference p nothing f).
Proof.
  apply reads_then; [apply reads_look|]. intros [r|]; [|constructor].
  apply reads_then; [apply reads_look|]. intros [r'|]; constructor.
Qed.

Lemma reads_content_keys id : reads (g_content_keys id).
Proof.
  apply reads_then; [apply reads_find|]. intros p. apply reads_then; [apply reads_reference|]. intros [l|]; constructor.
Qed.

Lemma reads_commits id : reads (g_commits id).
Proof.
  apply reads_then; [apply reads_find|]. intros p. apply reads_then; [apply reads_reference|]. intros [l|]; constructor.
Qed.

Lemma reads_read id q : reads (g_read id q).
Proof.
  apply reads_then; [apply reads_find|]. intros p. apply reads_then; [apply reads_look|]. intros off.
  destruct (_ <=? _)%Z; [constructor|]. apply reads_then; [apply reads_look|]. intros conn. apply reads_lift_read.
Qed.

Lemma reads_by_hash id h : reads (g_read_by_hash id h).
Proof.
  apply reads_then; [apply reads_content_keys|]. intros ks. apply reads_then; [constructor|]. intros k. apply reads_read.
Qed.

Lemma reads_all id ps : reads (g_read_all id ps).
Proof.
  induction ps as [|q ps IH]; [constructor|]. apply reads_then; [apply reads_read|]. intros b. apply reads_then; [exact IH|]. constructor.
Qed.
Lemma reads_hashes id hs : reads (g_read_all_by_hashes id hs).
Proof.
  induction hs as [|h hs IH]; [constructor|]. apply reads_then; [apply reads_by_hash|]. intros b. apply reads_then; [exact IH|]. constructor.
Qed.
Lemma reads_kind id k : reads (g_keys_by_kind id k).
Proof. apply reads_then; [apply reads_content_keys|]. constructor. Qed.
Lemma reads_commit id h : reads (g_commit_by_hash id h).
Proof. apply reads_then; [apply reads_commits|]. constructor. Qed.

(** [sees q l o]: the steps of [q] find memories of [l], in this order, and [o] comes out. *)
Inductive sees {A} : gprog A -> list mem -> outcome A -> Prop :=
| sees_ret o l : sees (GRet o) l o
| sees_step f pre m post o : sees (snd (f m)) (m :: post) o -> sees (GStep f) (pre ++ m :: post) o.

Lemma sees_more {A} (q : gprog A) l o x : sees q l o -> sees q (x :: l) o.
Proof. intros S. inversion S; subst; [constructor|]. rewrite app_comm_cons. now constructor. Qed.

Lemma watch {A B} (w w' : team A B) o : goes w w' -> reads (t_two w) -> t_two w' = GRet o ->
  sees (t_two w) (g_states (t_one w) (t_mem w)) o.
Proof.
  intros G. induction G as [w|f q m m' p' w E G IH|p f m m' q' w E G IH]; intros R Eo; cbn [t_one t_two t_mem] in *.
  - rewrite Eo. constructor.
  - cbn [g_states]. rewrite E. apply sees_more. auto.
  - inversion R as [|f' E1 R1]; subst. specialize (E1 m). specialize (R1 m). rewrite E in *. cbn [fst snd] in *. subst m'.
    specialize (IH R1 Eo). rewrite g_states_head in *. apply (sees_step f [] m). now rewrite E.
Qed.

(** The other one is not disturbed. *)
Lemma undisturbed {A B} (w w' : team A B) : goes w w' -> reads (t_two w) ->
  g_run (t_one w') (t_mem w') = g_run (t_one w) (t_mem w) /\ In (t_mem w') (g_states (t_one w) (t_mem w)).
Proof.
  intros G. induction G as [w|f q m m' p' w E G IH|p f m m' q' w E G IH]; intros R; cbn [t_one t_two t_mem] in *.
  - split; [reflexivity|]. rewrite g_states_head. now left.
  - destruct (IH R) as (I1 & I2). cbn [g_run g_states]. rewrite E. split; [exact I1|now right].
  - inversion R as [|f' E1 R1]; subst. specialize (E1 m). specialize (R1 m). rewrite E in *. cbn [fst snd] in *. subst m'. auto.
Qed.

Lemma goes_trans {A B} (w1 w2 w3 : team A B) : goes w1 w2 -> goes w2 w3 -> goes w1 w3.
Proof. intros G. induction G; intros G'; auto; econstructor; eauto. Qed.

Lemma goes_along {A B} (q : gprog B) pre : forall (p : gprog A) m m1 post, g_states p m = pre ++ m1 :: post ->
  exists p1, goes (Team p q m) (Team p1 q m1) /\ g_states p1 m1 = m1 :: post /\ g_run p1 m1 = g_run p m.
Proof.
  induction pre as [|x pre IH]; intros p m m1 post E.
  - pose proof (g_states_head p m) as Eh. rewrite E in Eh. cbn in Eh. injection Eh as <-. exists p.
    split; [constructor|]. auto.
  - destruct p as [o|f]; cbn [g_states] in E; [destruct pre; discriminate|].
    destruct (f m) as [m' p'] eqn:Ef. cbn [app] in E. injection E as _ E.
    destruct (IH _ _ _ _ E) as (p1 & G & E1 & E2). exists p1. split; [|split; [exact E1|]].
    + econstructor; eauto.
    + cbn [g_run]. now rewrite Ef.
Qed.

Lemma goes_end {A B} (q : gprog B) (p : gprog A) m : goes (Team p q m) (Team (GRet (snd (g_run p m))) q (fst (g_run p m))).
Proof.
  revert p m. fix IH 1. intros [o|f] m; cbn [g_run]; [constructor|]. destruct (f m) as [m' p'] eqn:E. econstructor; [exact E|]. apply IH.
Qed.

(** A schedule for what may be seen. *)
Lemma arrange {A B} (q : gprog B) l o : reads q -> sees q l o -> forall (p : gprog A) m, l = g_states p m ->
  goes (Team p q m) (Team (GRet (snd (g_run p m))) (GRet o) (fst (g_run p m))).
Proof.
  intros R S. induction S as [o l|f pre m1 post o S IH]; intros p m E; [apply goes_end|].
  inversion R as [|f' E1 R1]; subst. symmetry in E. destruct (goes_along (GStep f) pre p m m1 post E) as (p1 & G & Es & Er).
  eapply goes_trans; [exact G|]. specialize (E1 m1). specialize (R1 m1). destruct (f m1) as [m2 q2] eqn:Ef. cbn [fst snd] in *. subst m2.
  econstructor; [exact Ef|]. rewrite <- Er. apply IH; auto.
Qed.

(** A reader that finds the same answers everywhere. *)
Inductive answers {A} (J : mem -> Prop) (o : outcome A) : gprog A -> Prop :=
| answers_ret : answers J o (GRet o)
| answers_step f : (forall m, J m -> answers J o (snd (f m))) -> answers J o (GStep f).

Lemma sees_answers {A} (J : mem -> Prop) (q : gprog A) l o o' : sees q l o' -> Forall J l -> answers J o q -> o' = o.
Proof.
  intros S. induction S as [o' l|f pre m post o' S IH]; intros F An; inversion An as [|f' K]; subst; [reflexivity|].
  apply Forall_app in F as (_ & F). apply IH; [exact F|]. apply K. now inversion F.
Qed.

Lemma answers_catch {A B} J (q : gprog A) (k : outcome A -> gprog B) v o : answers J v q -> answers J o (k v) -> answers J o (g_catch q k).
Proof.
  intros An K. induction An as [|f F IH]; cbn [g_catch]; [exact K|]. constructor. intros m Jm. specialize (IH m Jm).
  destruct (f m) as [m' q']. exact IH.
Qed.
Lemma answers_then {A B} J (q : gprog A) (k : A -> gprog B) v o : answers J (Ok v) q -> answers J o (k v) -> answers J o (g_then q k).
Proof. intros An K. eapply answers_catch; eauto. Qed.
Lemma answers_bind {A B} J (q : gprog A) (k : A -> gprog B) v (k' : A -> outcome B) : answers J v q ->
  (forall x, v = Ok x -> answers J (k' x) (k x)) -> answers J (bind v k') (g_then q k).
Proof. intros An K. eapply answers_catch; [exact An|]. destruct v; cbn [bind]; auto; constructor. Qed.
Lemma answers_look {A} (J : mem -> Prop) (f : mem -> outcome A) o : (forall m, J m -> f m = o) -> answers J o (GStep (fun m => (m, GRet (f m)))).
Proof. intros E. constructor. intros m Jm. cbn [snd]. rewrite (E m Jm). constructor. Qed.

(** ** Commit beside a reader *)
Section Beside.
  Variable H : bytes -> bytes.
  Variable mv : byte.
  Variable a : dbapp.
  Variables (cs : list (Z * nat)) (hp : list ctx) (s : fsys) (id now : Z) (fuel p : nat) (c : ctx).
  Hypothesis Ep : ptr_get cs id = Some p.
  Hypothesis Ec : nth_error hp p = Some c.
  Notation m := (Mem cs hp s).
  Notation G := (g_commit H mv a fuel now id).

  Definition early (q : prog (nat * Z)) (x : mem) : Prop := exists y, (y = s \/ In y (states q s)) /\ x = Mem cs hp y.

  Lemma nth_set_same {A} (l : list A) i x v : nth_error l i = Some v -> nth_error (set_nth l i x) i = Some x.
  Proof. revert i. induction l as [|y l IH]; intros [|i]; cbn; try discriminate; auto. Qed.
  Lemma nth_set_other {A} (l : list A) i j x : i <> j -> nth_error (set_nth l i x) j = nth_error l j.
  Proof. revert i j. induction l as [|y l IH]; intros [|i] [|j] N; cbn; auto; congruence. Qed.

  Lemma assign_run (f : ctx -> ctx) hp1 s1 c1 : nth_error hp1 p = Some c1 ->
    g_run (g_assign id f) (Mem cs hp1 s1) = (Mem cs (set_nth hp1 p (f c1)) s1, Ok tt) /\
    g_states (g_assign id f) (Mem cs hp1 s1) = [Mem cs hp1 s1; Mem cs hp1 s1; Mem cs (set_nth hp1 p (f c1)) s1].
  Proof.
    intros E. unfold g_assign, g_then. rewrite g_run_catch, g_states_catch. cbn [g_lookup g_run g_states fst snd m_ctxs]. rewrite Ep.
    cbn [g_store g_run g_states fst snd tl app m_heap m_ctxs m_fs]. rewrite E. auto.
  Qed.

  Lemma commit_failed r : update_reference H mv c now = r -> (forall x, r <> Ok x) ->
    g_run G m = (m, bind r (fun _ => Fuel)) /\ Forall (eq m) (g_states G m).
  Proof.
    intros Er N. pose proof (still_update_reference H mv id now m p c Ep Ec) as (R & F). rewrite Er in R.
    unfold g_commit. match goal with |- context [g_then (g_update_reference H mv id now) ?k] =>
      destruct (g_then_stop _ k _ _ _ R N) as (R' & S') end. now rewrite R', S'.
  Qed.

  Lemma commit_went r : update_reference H mv c now = Ok r -> forall s' o, run (update_database fuel a c r) s = (s', o) ->
    match o with
    | Ok (conn, off) =>
      let h1 := set_nth hp p (set_ref r c) in
      let h2 := set_nth h1 p (set_off off (set_ref r c)) in
      let h3 := set_nth h2 p (set_conn conn (set_off off (set_ref r c))) in
      g_run G m = (Mem cs h3 s', Ok tt) /\
      exists pre, g_states G m = pre ++ [Mem cs hp s'; Mem cs h1 s'; Mem cs h1 s'; Mem cs h2 s'; Mem cs h2 s'; Mem cs h3 s'] /\
        Forall (early (update_database fuel a c r)) pre
    | _ => g_run G m = (Mem cs hp s', bind o (fun _ => Fuel)) /\ Forall (early (update_database fuel a c r)) (g_states G m)
    end.
  Proof.
    intros Er s' o Ed. pose proof (still_update_reference H mv id now m p c Ep Ec) as (R & F). rewrite Er in R.
    destruct (still_find id m p Ep) as (Rf & Ff).
    destruct (sim_update_database a cs hp p c Ec fuel r s) as (Ru & Fu). rewrite Ed in Ru. cbn [fst snd] in Ru.
    assert (Fe : Forall (early (update_database fuel a c r)) (g_states (g_update_reference H mv id now) m)).
    { eapply Forall_impl; [|exact F]. intros x <-. exists s. auto. }
    assert (Ff' : Forall (early (update_database fuel a c r)) (g_states (g_find id) m)).
    { eapply Forall_impl; [|exact Ff]. intros x <-. exists s. auto. }
    assert (Fu' : Forall (early (update_database fuel a c r)) (g_states (g_update_database a fuel p r) m)).
    { eapply Forall_impl; [|exact Fu]. intros x (y & I & E). exists y. auto. }
    assert (Tl : forall A (P : A -> Prop) l, Forall P l -> Forall P (tl l)) by (intros A P [|? ?] Fl; [exact Fl|now inversion Fl]).
    unfold g_commit.
    rewrite (g_run_then _ _ _ _ _ R), (g_states_then _ _ _ _ _ R), (g_run_then _ _ _ _ _ Rf), (g_states_then _ _ _ _ _ Rf).
    assert (Tapp : forall A (l1 l2 : list A) x, l1 = x :: tl l1 -> tl (l1 ++ l2) = tl l1 ++ l2) by (intros A [|? ?] l2 x E; [discriminate|reflexivity]).
    rewrite (Tapp _ _ _ m (g_states_head _ _)).
    destruct o as [[conn off]| | |].
    - cbv zeta. rewrite (g_run_then _ _ _ _ _ Ru), (g_states_then _ _ _ _ _ Ru). cbn [fst snd].
      destruct (assign_run (set_ref r) hp s' c Ec) as (R1 & S1).
      assert (E1 : nth_error (set_nth hp p (set_ref r c)) p = Some (set_ref r c)) by (eapply nth_set_same; eauto).
      destruct (assign_run (set_off off) _ s' _ E1) as (R2 & S2).
      set (h1 := set_nth hp p (set_ref r c)) in *. set (h2 := set_nth h1 p (set_off off (set_ref r c))) in *.
      assert (E2 : nth_error h2 p = Some (set_off off (set_ref r c))) by (eapply nth_set_same; eauto).
      destruct (assign_run (set_conn conn) _ s' _ E2) as (R3 & S3).
      rewrite (g_run_then _ _ _ _ _ R1), (g_states_then _ _ _ _ _ R1), (g_run_then _ _ _ _ _ R2), (g_states_then _ _ _ _ _ R2).
      rewrite R3, S1, S2, S3. split; [reflexivity|]. cbn [tl app].
      rewrite (Tapp _ _ _ m (g_states_head _ _)).
      exists (g_states (g_update_reference H mv id now) m ++ tl (g_states (g_find id) m) ++ tl (g_states (g_update_database a fuel p r) m)).
      split; [now rewrite <- !app_assoc|]. apply Forall_app. split; [exact Fe|]. apply Forall_app. split; now apply Tl.
    - match goal with |- context [g_then (g_update_database a fuel p r) ?k] =>
        destruct (g_then_stop _ k _ _ _ Ru) as (R' & S'); [discriminate|] end. rewrite R', S'.
      split; [reflexivity|]. apply Forall_app. split; [exact Fe|]. apply Forall_app. split; now apply Tl.
    - match goal with |- context [g_then (g_update_database a fuel p r) ?k] =>
        destruct (g_then_stop _ k _ _ _ Ru) as (R' & S'); [discriminate|] end. rewrite R', S'.
      split; [reflexivity|]. apply Forall_app. split; [exact Fe|]. apply Forall_app. split; now apply Tl.
    - match goal with |- context [g_then (g_update_database a fuel p r) ?k] =>
        destruct (g_then_stop _ k _ _ _ Ru) as (R' & S'); [discriminate|] end. rewrite R', S'.
      split; [reflexivity|]. apply Forall_app. split; [exact Fe|]. apply Forall_app. split; now apply Tl.
  Qed.
End Beside.

(** ** Open files during a commit *)
Section Handles.
  Variables (a : dbapp) (c : ctx) (s0 : fsys).
  Notation conn := (x_conn c).

  Definition handles_kept (x : fsys) : Prop :=
    (forall h v, h <> conn -> nth_error (f_handles s0) h = Some v -> nth_error (f_handles x) h = Some v) /\
    (forall i q b, nth_error (f_handles s0) conn = Some (Handle i q b) -> exists q' b', nth_error (f_handles x) conn = Some (Handle i q' b')).
  Notation J := handles_kept.

  Lemma kept_same x y : f_handles y = f_handles x -> J x -> J y.
  Proof. unfold handles_kept. now intros ->. Qed.
  Lemma kept_writable j : writable J j.
  Proof. split; auto. Qed.
  Lemma kept_handle x i q b q' b' : J x -> nth_error (f_handles x) conn = Some (Handle i q b) ->
    J (with_handles x (set_nth (f_handles x) conn (Handle i q' b'))).
  Proof.
    intros (J1 & J2) E. split; cbn [with_handles f_handles].
    - intros h v N E0. rewrite nth_set_other by auto. eauto.
    - intros i0 q0 b0 E0. destruct (J2 _ _ _ E0) as (q1 & b1 & E1). rewrite E in E1. inversion E1; subst.
      exists q', b'. eapply nth_set_same; eauto.
  Qed.

  Lemma kept_create n : kept_by J (call (sys_create n)).
  Proof.
    apply kept_call. intros x F. unfold sys_create. destruct (dir_get (f_dir x) n) as [[i|]|]; cbn [fst]; auto; eapply kept_same; eauto; reflexivity.
  Qed.
  Lemma kept_remove n : kept_by J (call (sys_remove n)).
  Proof. apply kept_call. intros x F. unfold sys_remove. destruct (dir_get (f_dir x) n) as [[i|]|]; cbn [fst]; auto. Qed.
  Lemma kept_rename n k : kept_by J (call (sys_rename n k)).
  Proof.
    apply kept_call. intros x F. unfold sys_rename. destruct (dir_get (f_dir x) n) as [[i|]|], (dir_get (f_dir x) k) as [[j|]|]; cbn [fst]; auto.
  Qed.
  Lemma kept_open n : kept_by J (call (sys_open n)).
  Proof.
    apply kept_call. intros x (J1 & J2). unfold sys_open. destruct (dir_get (f_dir x) n) as [[i|]|]; cbn [fst]; try (split; auto; fail).
    assert (E : forall h v, nth_error (f_handles x) h = Some v -> nth_error (f_handles x ++ [Handle i 0 true]) h = Some v).
    { intros h v Ev. rewrite nth_error_app1; auto. apply nth_error_Some. congruence. }
    split; cbn [with_handles f_handles]; [eauto|]. intros i0 q b E0. destruct (J2 _ _ _ E0) as (q' & b' & E1). eauto.
  Qed.
  Lemma kept_close : kept_by J (call (sys_close conn)).
  Proof.
    apply kept_call. intros x F. unfold sys_close. destruct (nth_error (f_handles x) conn) as [[i q [|]]|] eqn:E; cbn [fst]; auto.
    eapply kept_handle; eauto.
  Qed.
  Lemma kept_copy b : kept_by J (p_copy b conn).
  Proof.
    unfold p_copy. apply kept_then.
    - apply kept_call. intros x F. destruct (nth_error (f_handles x) conn) as [[i q [|]]|] eqn:E; cbn [fst]; auto. eapply kept_handle; eauto.
    - intros [|d0 d]; [apply kept_ret|]. apply kept_write, kept_writable.
  Qed.

  Lemma kept_handles fuel r : kept_by J (update_database fuel a c r).
  Proof.
    unfold update_database. apply kept_then.
    { apply kept_call. intros x F. unfold sys_trylock. destruct (dir_get (f_dir x) (x_name c)) as [[i|]|]; cbn [fst]; auto. destruct (existsb _ _); exact F. }
    intros lock. apply kept_catch.
    2:{ intros o x F. apply tri_step; auto. cbn [fst snd]. apply tri_ret; exact F. }
    unfold swap_files. apply kept_then.
    - unfold prepare_files. apply kept_then.
      + unfold write_destination. apply kept_then; [apply kept_create|].
        intros d. apply kept_then; [apply kept_write, kept_writable|]. intros _. apply kept_then.
        * destruct (x_ref c); [|apply kept_ret]. apply kept_then; [apply kept_call; auto|].
          intros size. destruct (_ <=? _)%Z; [apply kept_ret|]. apply kept_copy_loop, kept_writable.
        * intros woff. apply kept_then; [apply kept_write_pending, kept_writable|]. intros _. apply kept_ret.
      + intros off. apply kept_then; [apply kept_create|]. intros b.
        apply kept_then; [apply kept_copy|]. intros _. apply kept_then; [apply kept_close|]. intros _. apply kept_ret.
    - intros off. unfold replace_files.
      apply kept_then; [apply kept_remove|]. intros _. apply kept_then; [apply kept_rename|]. intros _.
      apply kept_then; [apply kept_remove|]. intros _. apply kept_then; [apply kept_open|]. intros h. apply kept_ret.
  Qed.
End Handles.

(** ** Reading one database while another one is committed *)
Lemma ptr_get_in l id p : ptr_get l id = Some p -> In (id, p) l.
Proof.
  induction l as [|[i q] l IH]; cbn; [discriminate|]. destruct (Z.eqb_spec i id) as [->|N]; [intros [= ->]; now left|right; auto].
Qed.

Lemma nodup_snd {A B} (l : list (A * B)) x y p : NoDup (map snd l) -> In (x, p) l -> In (y, p) l -> x = y.
Proof.
  induction l as [|[z q] l IH]; cbn; [tauto|]. intros N I1 I2. inversion N as [|? ? N1 N2]; subst.
  destruct I1 as [E1|I1], I2 as [E2|I2]; try (inversion E1; subst); try (inversion E2; subst); auto.
  - destruct N1. change p with (snd (y, p)). now apply in_map.
  - destruct N1. change p with (snd (x, p)). now apply in_map.
Qed.

Lemma in_memory_apart a s m id1 id2 p : in_memory a s m -> ptr_get (m_ctxs m) id1 = Some p -> ptr_get (m_ctxs m) id2 = Some p -> id1 = id2.
Proof. intros (_ & _ & _ & N & _) E1 E2. eapply nodup_snd; eauto using ptr_get_in. Qed.

Lemma in_memory_ctx a s m id c : in_memory a s m -> ctx_get (a_ctxs a) id = Some c ->
  exists p, ptr_get (m_ctxs m) id = Some p /\ nth_error (m_heap m) p = Some c.
Proof. intros (_ & _ & _ & _ & _ & _ & E) Ec. rewrite E in Ec. destruct (ptr_get (m_ctxs m) id) as [p|]; [eauto|discriminate]. Qed.

Section View.
  Variables (a : dbapp) (s : fsys) (id : Z) (p : nat) (c : ctx).
  Hypothesis Ec : ctx_get (a_ctxs a) id = Some c.

  (** The context is where it was and its open file reads as before. *)
  Definition view (x : mem) : Prop :=
    ptr_get (m_ctxs x) id = Some p /\ nth_error (m_heap x) p = Some c /\
    forall n off, read_at (m_fs x) (x_conn c) n off = read_at s (x_conn c) n off.

  Lemma answers_find : answers view (Ok p) (g_find id).
  Proof.
    unfold g_find. eapply answers_then; [apply answers_look with (o := Ok (Some p)); intros m (E & _); now rewrite E|constructor].
  Qed.
  Lemma answers_field {A} (f : ctx -> A) : answers view (Ok (f c)) (g_field p f).
  Proof. apply answers_look. intros m (_ & E & _). now rewrite E. Qed.
  Lemma answers_reference {A} (nothing : A) f :
    answers view (match x_ref c with None => Ok nothing | Some r => f r end) (g_reference p nothing f).
  Proof.
    unfold g_reference. eapply answers_then; [apply answers_field|]. destruct (x_ref c) as [r|] eqn:X; [|constructor].
    eapply answers_then; [apply answers_field|]. rewrite X. constructor.
  Qed.
  Lemma answers_keys : answers view (content_keys a id) (g_content_keys id).
  Proof.
    unfold content_keys, g_content_keys. rewrite Ec. eapply answers_then; [apply answers_find|].
    eapply (answers_then _ _ _ (match x_ref c with None => None | Some r => Some (r_keys r) end)).
    - pose proof (answers_reference None (fun r => Ok (Some (r_keys r)))) as An. now destruct (x_ref c).
    - destruct (x_ref c); constructor.
  Qed.
  Lemma answers_commits : answers view (commits_db a id) (g_commits id).
  Proof.
    unfold commits_db, g_commits. rewrite Ec. eapply answers_then; [apply answers_find|].
    eapply (answers_then _ _ _ (match x_ref c with None => None | Some r => Some (r_commits r) end)).
    - pose proof (answers_reference None (fun r => Ok (Some (r_commits r)))) as An. now destruct (x_ref c).
    - destruct (x_ref c); constructor.
  Qed.
  Lemma answers_read q : answers view (read_db a s id q) (g_read id q).
  Proof.
    unfold read_db, g_read. rewrite Ec. eapply answers_then; [apply answers_find|].
    eapply answers_then; [apply answers_field|]. destruct (_ <=? _)%Z; [constructor|].
    eapply answers_then; [apply answers_field|]. constructor. intros m (_ & _ & E). cbn [lift p_read call snd].
    rewrite E. constructor.
  Qed.
  Lemma answers_hash h : answers view (read_by_hash a s id h) (g_read_by_hash id h).
  Proof.
    unfold read_by_hash, g_read_by_hash. apply answers_bind; [apply answers_keys|]. intros ks _.
    apply answers_bind; [constructor|]. intros k _. apply answers_read.
  Qed.
  Lemma answers_reading B (q : gprog B) o : reading a s id B q o -> answers view o q.
  Proof.
    intros R. destruct R; auto using answers_read, answers_keys, answers_commits, answers_hash.
    - unfold content_keys_by_kind, g_keys_by_kind. apply answers_bind; [apply answers_keys|]. constructor.
    - unfold commit_by_hash, g_commit_by_hash. apply answers_bind; [apply answers_commits|]. constructor.
    - induction ps as [|q ps IH]; [constructor|]. cbn [read_all g_read_all]. apply answers_bind; [apply answers_read|]. intros b _.
      apply answers_bind; [exact IH|]. constructor.
    - induction hs as [|h hs IH]; [constructor|]. cbn [read_all_by_hashes g_read_all_by_hashes]. apply answers_bind; [apply answers_hash|]. intros b _.
      apply answers_bind; [exact IH|]. constructor.
  Qed.
  Lemma reading_reads B (q : gprog B) o : reading a s id B q o -> reads q.
  Proof.
    intros R. destruct R; auto using reads_read, reads_by_hash, reads_content_keys, reads_commits, reads_kind, reads_commit, reads_all, reads_hashes.
  Qed.
End View.

(** Alone. *)
Lemma answers_alone {A} (J : mem -> Prop) (q : gprog A) o m : reads q -> answers J o q -> J m -> g_run q m = (m, o).
Proof.
  intros R An Jm. induction An as [|f F IH]; [reflexivity|]. inversion R as [|f' E1 R1]; subst. cbn [g_run].
  specialize (E1 m). specialize (R1 m). specialize (IH m Jm). destruct (f m) as [m' q']. cbn [fst snd] in *. subst m'. auto.
Qed.

Section OtherDatabase.
  Variable H : bytes -> bytes.
  Variable mv : byte.
  Variables (a : dbapp) (s : fsys) (m : mem) (id1 id2 now : Z) (c1 c2 : ctx) (n2 : bytes) (i2 : nat).
  Hypothesis Im : in_memory a s m.
  Hypothesis Fs : fs_ok s.
  Hypothesis E1 : ctx_get (a_ctxs a) id1 = Some c1.
  Hypothesis E2 : ctx_get (a_ctxs a) id2 = Some c2.
  Hypothesis Nid : id1 <> id2.
  Hypothesis Nh : x_conn c2 <> x_conn c1.
  Hypothesis Eh : nth_error (f_handles s) (x_conn c2) = Some (Handle i2 0 true).
  Hypothesis En : dir_get (f_dir s) n2 = Some (EFile i2).
  Hypothesis N1 : n2 <> x_name c1.
  Hypothesis N2 : n2 <> side (x_name c1) (a_dst a).
  Hypothesis N3 : n2 <> side (x_name c1) (a_bck a).

  Lemma commit_keeps_view p2 : ptr_get (m_ctxs m) id2 = Some p2 -> nth_error (m_heap m) p2 = Some c2 ->
    Forall (view s id2 p2 c2) (g_states (g_commit H mv a (rounds a s id1) now id1) m).
  Proof.
    intros Ep2 Ec2. destruct (in_memory_ctx _ _ _ _ _ Im E1) as (p1 & Ep1 & Ec1).
    assert (Np : p1 <> p2) by (intros ->; apply Nid; eapply in_memory_apart; eauto).
    assert (Em : m = Mem (m_ctxs m) (m_heap m) s) by (destruct Im as (<- & _); now destruct m). set (cs := m_ctxs m) in *. set (hp := m_heap m) in *.
    rewrite Em. clear Em.
    assert (V : forall y hp', (forall n off, read_at y (x_conn c2) n off = read_at s (x_conn c2) n off) -> nth_error hp' p2 = Some c2 ->
      view s id2 p2 c2 (Mem cs hp' y)) by (intros y hp' R E; repeat split; auto).
    unfold rounds. rewrite E1. set (fuel := S (conn_size s c1)).
    destruct (update_reference H mv c1 now) as [r| | |] eqn:Er.
    2-4: (destruct (commit_failed H mv a cs hp s id1 now fuel p1 c1 Ep1 Ec1 _ Er ltac:(discriminate)) as (_ & F);
          eapply Forall_impl; [|exact F]; intros x <-; apply V; auto).
    assert (K0 : handles_kept c1 s s) by (split; eauto).
    destruct (kept_handles a c1 s fuel r s K0) as (Kh & Kl).
    pose proof (commit_frame_all H mv now a s id1 c1 Fs E1) as Fr. unfold commit_states in Fr. rewrite E1, Er in Fr. fold fuel in Fr.
    assert (Rd : forall y, In y (states (update_database fuel a c1 r) s) -> forall n off, read_at y (x_conn c2) n off = read_at s (x_conn c2) n off).
    { intros y Iy n off. rewrite Forall_forall in Kh, Fr. destruct (Kh y Iy) as (K1 & _).
      destruct (Fr y Iy n2 N1 N2 N3) as (Ed & Ef). unfold read_at. rewrite (K1 _ _ Nh Eh), Eh.
      unfold file_at in Ef. rewrite Ed, En in Ef. assert (Ed' : data_of y i2 = data_of s i2) by (unfold data_of; now inversion Ef).
      now rewrite Ed'. }
    assert (Re : forall x, early cs hp s (update_database fuel a c1 r) x -> view s id2 p2 c2 x).
    { intros x (y & [->|Iy] & ->); apply V; auto. }
    destruct (run (update_database fuel a c1 r) s) as [s' o] eqn:Ed.
    assert (Is : In s' (states (update_database fuel a c1 r) s)).
    { replace s' with (fst (run (update_database fuel a c1 r) s)) by (now rewrite Ed). apply states_last. }
    pose proof (commit_went H mv a cs hp s id1 now fuel p1 c1 Ep1 Ec1 r Er s' o Ed) as W.
    destruct o as [[conn off]| | |].
    - cbv zeta in W. destruct W as (_ & pre & -> & F). apply Forall_app. split; [eapply Forall_impl; [|exact F]; auto|].
      assert (Q : forall h f, nth_error h p2 = Some c2 -> nth_error (set_nth h p1 f) p2 = Some c2) by (intros h f E; now rewrite nth_set_other by auto).
      repeat (constructor; [apply V; auto 6|]). constructor.
    - destruct W as (_ & F). eapply Forall_impl; [|exact F]. auto.
    - destruct W as (_ & F). eapply Forall_impl; [|exact F]. auto.
    - destruct W as (_ & F). eapply Forall_impl; [|exact F]. auto.
  Qed.

  Lemma other_reading B (q : gprog B) answer w : reading a s id2 B q answer ->
    goes (Team (g_commit H mv a (rounds a s id1) now id1) q m) w ->
    (forall o, t_two w = GRet o -> o = answer) /\
    g_run (t_one w) (t_mem w) = g_run (g_commit H mv a (rounds a s id1) now id1) m.
  Proof.
    intros R G. destruct (in_memory_ctx _ _ _ _ _ Im E2) as (p2 & Ep2 & Ec2).
    pose proof (commit_keeps_view p2 Ep2 Ec2) as F. split.
    - intros o Eo. pose proof (watch _ _ o G (reading_reads a s id2 B q answer R) Eo) as S.
      eapply sees_answers; [exact S|exact F|]. eapply answers_reading; eauto.
    - destruct (undisturbed _ _ G (reading_reads a s id2 B q answer R)) as (E & _). exact E.
  Qed.
End OtherDatabase.
