(** Descriptors: a call that runs alone does what it does without them. *)
From Coq Require Import List ZArith NArith Lia Bool.
From Coq Require Import Init.Byte Strings.Byte.
From Verif Require Import Base BaseLemmas HashModel HashTreeModel RefModel DbModel DbConcurrent DbThreads SpecThreads DbThreadProofs DbThreadProofs2
  DbDescriptors SpecDescriptors.
Import ListNotations.

(** ** Programs *)
Lemma d_run_catch {A B} (k : outcome A -> dprog B) p : forall q,
  d_run (d_catch p k) q = d_run (k (snd (d_run p q))) (fst (d_run p q)).
Proof.
  revert p. fix IH 1. intros [o|f] q; cbn [d_catch d_run]; [reflexivity|]. destruct (f q) as [q' p']. apply IH.
Qed.

Lemma d_run_then {A B} (p : dprog A) (k : A -> dprog B) q q' v : d_run p q = (q', Ok v) -> d_run (d_then p k) q = d_run (k v) q'.
Proof. intros E. unfold d_then. rewrite d_run_catch, E. reflexivity. Qed.

Lemma g_run_bind {A B} (p : gprog A) (k : A -> gprog B) m : g_run (g_then p k) m =
  match g_run p m with (m', Ok v) => g_run (k v) m' | (m', Err) => (m', Err) | (m', Panic) => (m', Panic) | (m', Fuel) => (m', Fuel) end.
Proof. unfold g_then. rewrite g_run_catch. now destruct (g_run p m) as [m' [v| | |]]. Qed.
Lemma d_run_bind {A B} (p : dprog A) (k : A -> dprog B) q : d_run (d_then p k) q =
  match d_run p q with (q', Ok v) => d_run (k v) q' | (q', Err) => (q', Err) | (q', Panic) => (q', Panic) | (q', Fuel) => (q', Fuel) end.
Proof. unfold d_then. rewrite d_run_catch. now destruct (d_run p q) as [q' [v| | |]]. Qed.

Lemma d_run_lift {A} (g : gprog A) : forall q, d_run (d_lift g) q = (on_mem q (fst (g_run g (q_mem q))), snd (g_run g (q_mem q))).
Proof.
  revert g. fix IH 1. intros [o|f] q; cbn [d_lift d_run g_run].
  - now destruct q.
  - destruct (f (q_mem q)) as [m' p']. rewrite IH. destruct q. reflexivity.
Qed.

Lemma d_run_call {A} (f : proc -> proc * outcome A) q : d_run (d_call f) q = f q.
Proof. unfold d_call. cbn [d_run]. now destruct (f q). Qed.

Lemma g_run_call {A} (f : fsys -> fsys * outcome A) m : g_run (lift (call f)) m = (on_fs m (fst (f (m_fs m))), snd (f (m_fs m))).
Proof. cbn [lift call g_run]. destruct (f (m_fs m)) as [s' o]. cbn [lift g_run fst snd]. reflexivity. Qed.

(** ** Numbers *)
Lemma num_get_del l i j : num_get (num_del l i) j = if Nat.eqb i j then None else num_get l j.
Proof.
  induction l as [|[x k] l IH]; cbn [num_del filter num_get fst]; [now destruct (Nat.eqb i j)|].
  destruct (Nat.eqb_spec x i) as [->|N]; cbn [negb].
  - fold (num_del l i). rewrite IH. destruct (Nat.eqb_spec i j); reflexivity.
  - cbn [num_get]. fold (num_del l i). rewrite IH. destruct (Nat.eqb_spec x j) as [->|]; [|reflexivity].
    destruct (Nat.eqb_spec i j); [congruence|reflexivity].
Qed.

Lemma lowest_free t : fd_get t (lowest t) = None.
Proof. unfold fd_get. induction t as [|[d|] t IH]; cbn; auto. Qed.

Lemma lowest_below t : forall j, j < lowest t -> fd_get t j <> None.
Proof. unfold fd_get. induction t as [|[d|] t IH]; intros [|j] L; cbn in *; try lia; [discriminate|]. apply IH. lia. Qed.

Lemma lowest_is t k : fd_get t k = None -> (forall j, j < k -> fd_get t j <> None) -> lowest t = k.
Proof.
  intros F B. destruct (lt_eq_lt_dec (lowest t) k) as [[L|E]|L]; [|exact E|].
  - now apply B in L; rewrite lowest_free in L.
  - now apply lowest_below in L.
Qed.

Lemma lowest_len t : lowest t <= length t.
Proof. induction t as [|[d|] t IH]; cbn; lia. Qed.

Lemma nth_set {A} (l : list A) : forall i j x, nth_error (set_nth l i x) j = if (Nat.eqb i j && (i <? length l))%bool then Some x else nth_error l j.
Proof.
  induction l as [|y l IH]; intros [|i] [|j] x; cbn [set_nth nth_error Nat.eqb length]; auto.
  - now rewrite andb_false_r.
  - rewrite IH. reflexivity.
Qed.

Lemma fd_get_put t d j : fd_get (fd_put t (lowest t) d) j = if Nat.eqb (lowest t) j then Some d else fd_get t j.
Proof.
  unfold fd_put, fd_get. pose proof (lowest_len t) as L. destruct (Nat.ltb_spec (lowest t) (length t)) as [L'|L'].
  - rewrite nth_set. apply Nat.ltb_lt in L'. rewrite L', andb_true_r. now destruct (Nat.eqb _ j).
  - assert (E : lowest t = length t) by lia. rewrite E. destruct (Nat.eqb_spec (length t) j) as [<-|N].
    + rewrite nth_error_app2, Nat.sub_diag by lia. reflexivity.
    + destruct (lt_eq_lt_dec j (length t)) as [[Lj|]|Lj]; [|congruence|].
      * now rewrite nth_error_app1.
      * rewrite nth_error_app2 by lia. destruct (j - length t) as [|n] eqn:Ej; [lia|]. cbn.
        rewrite (proj2 (nth_error_None t j)) by lia. now destruct n.
Qed.

Lemma fd_get_set t k x j : fd_get t k <> None -> fd_get (set_nth t k x) j = if Nat.eqb k j then x else fd_get t j.
Proof.
  intros N. unfold fd_get in *. rewrite nth_set. destruct (nth_error t k) as [o|] eqn:E; [|congruence].
  assert (L : k < length t) by (apply nth_error_Some; congruence). apply Nat.ltb_lt in L. rewrite L, andb_true_r.
  destruct (Nat.eqb k j); [now destruct x|reflexivity].
Qed.

(** ** Calls that leave open files open *)
Definition steady {A} (g : gprog A) : Prop := forall m h i, open_at (m_fs (fst (g_run g m))) h i <-> open_at (m_fs m) h i.

Lemma steady_ret {A} (o : outcome A) : steady (GRet o).
Proof. intros m h i. reflexivity. Qed.
Lemma steady_catch {A B} (g : gprog A) (k : outcome A -> gprog B) : steady g -> (forall o, steady (k o)) -> steady (g_catch g k).
Proof. intros S K m h i. rewrite g_run_catch. rewrite (K _ _ h i). apply S. Qed.
Lemma steady_then {A B} (g : gprog A) (k : A -> gprog B) : steady g -> (forall v, steady (k v)) -> steady (g_then g k).
Proof. intros S K. apply steady_catch; auto. intros [v| | |]; auto using steady_ret. Qed.
Lemma reads_run {A} (g : gprog A) m : reads g -> fst (g_run g m) = m.
Proof.
  intros R. revert m. induction R as [o|f E R IH]; intros m; cbn [g_run]; [reflexivity|]. specialize (E m). specialize (IH m).
  destruct (f m) as [m' p']. cbn [fst snd] in *. subst m'. apply IH.
Qed.
Lemma steady_reads {A} (g : gprog A) : reads g -> steady g.
Proof. intros R m h i. now rewrite reads_run. Qed.
Lemma steady_field {A} p (f : ctx -> A) : steady (g_field p f).
Proof. apply steady_reads, reads_look. Qed.
Lemma steady_lift {A} (p : prog A) : (forall s, f_handles (fst (run p s)) = f_handles s) -> steady (lift p).
Proof. intros E m h i. rewrite run_lift. cbn [fst on_fs m_fs]. unfold open_at. now rewrite E. Qed.

Lemma bytes_handles i d o : forall off s, f_handles (fst (run (p_bytes i off d o) s)) = f_handles s.
Proof. induction d as [|b d IH]; intros off s; cbn [p_bytes run]; [reflexivity|]. rewrite IH. reflexivity. Qed.
Lemma write_handles i off d s : f_handles (fst (run (p_write i off d) s)) = f_handles s.
Proof. unfold p_write. cbn [run]. destruct (f_faults s) as [|[n|] l]; rewrite bytes_handles; reflexivity. Qed.
Lemma run_catch_fst {A B} (p : prog A) (k : outcome A -> prog B) s : run (catch p k) s = run (k (snd (run p s))) (fst (run p s)).
Proof.
  revert p s. fix IH 1. intros [o|f] s; cbn [catch run]; [reflexivity|]. destruct (f s) as [s' p']. apply IH.
Qed.
Lemma pending_handles dst l : forall woff s, f_handles (fst (run (write_pending dst woff l) s)) = f_handles s.
Proof.
  induction l as [|c l IH]; intros woff s; cbn [write_pending]; [reflexivity|]. rewrite run_catch_fst.
  destruct (snd (run (p_write dst woff (ct_data c)) s)) as [v| | |]; rewrite ?IH; cbn [run fst]; apply write_handles.
Qed.

Lemma steady_copy_loop fuel : forall p chunk roff dst woff, steady (g_copy_loop fuel p chunk roff dst woff).
Proof.
  induction fuel as [|fuel IH]; intros; cbn [g_copy_loop]; [apply steady_ret|].
  apply steady_then; [apply steady_field|]. intros conn. apply steady_catch; [apply steady_reads, reads_lift_read|].
  intros [b| | |]; try apply steady_ret. apply steady_catch; [apply steady_lift; intros; apply write_handles|].
  intros [x| | |]; try apply steady_ret. apply IH.
Qed.

(** What [g_write_destination] does after os.Create. *)
Definition g_fill (a : dbapp) (fuel : nat) (p : nat) (r : reference) (dst : nat) : gprog Z :=
  let ref_data := reference_to_content r in
  go* _ <- lift (p_write dst 0 ref_data);
  go* roff <- g_field p x_off;
  go* seen <- g_field p x_ref;
  go* woff <-
    match seen with
    | None => GRet (Ok (length ref_data))
    | Some _ =>
      go* conn <- g_field p x_conn;
      go* size <- lift (call (fun s => (s,
        match nth_error (f_handles s) conn with
        | Some (Handle i _ true) => Ok (zlen (data_of s i))
        | _ => Panic
        end)));
      go* off <- g_field p x_off;
      let chunk := make_chunk (a_chunk a) (u64 (size - off)) in
      if (two63 <=? chunk)%Z then GRet Panic
      else g_copy_loop fuel p chunk roff dst (length ref_data)
    end;
  go* pending <- g_field p x_pending;
  go* _ <- lift (write_pending dst woff pending);
  GRet (Ok (zlen ref_data)).

Lemma steady_fill a fuel p r dst : steady (g_fill a fuel p r dst).
Proof.
  unfold g_fill. cbv zeta. apply steady_then; [apply steady_lift; intros; apply write_handles|]. intros _.
  apply steady_then; [apply steady_field|]. intros roff. apply steady_then; [apply steady_field|]. intros seen.
  apply steady_then.
  - destruct seen; [|apply steady_ret]. apply steady_then; [apply steady_field|]. intros conn.
    apply steady_then; [apply steady_lift; reflexivity|]. intros size. apply steady_then; [apply steady_field|]. intros off.
    destruct (_ <=? _)%Z; [apply steady_ret|apply steady_copy_loop].
  - intros woff. apply steady_then; [apply steady_field|]. intros pd. apply steady_then; [apply steady_lift; intros; apply pending_handles|].
    intros _. apply steady_ret.
Qed.

Lemma steady_copy b conn : steady (lift (p_copy b conn)).
Proof.
  intros m h i. rewrite run_lift. cbn [fst on_fs m_fs]. unfold p_copy, andthen. rewrite run_catch_fst. cbn [call run].
  destruct (nth_error (f_handles (m_fs m)) conn) as [[i0 p0 [|]]|] eqn:E; cbn [run fst snd]; try reflexivity.
  assert (K : open_at (with_handles (m_fs m) (set_nth (f_handles (m_fs m)) conn (Handle i0 (p0 + length (skipn p0 (data_of (m_fs m) i0))) true))) h i <-> open_at (m_fs m) h i).
  { unfold open_at. cbn [with_handles f_handles]. destruct (Nat.eq_dec conn h) as [<-|N].
    - rewrite (nth_set_same _ _ _ _ E), E. split; intros (pos & X); injection X as <- _; eauto.
    - now rewrite nth_set_other. }
  destruct (skipn p0 (data_of (m_fs m) i0)) as [|b0 d0]; [exact K|]. rewrite <- K. unfold open_at. now rewrite write_handles.
Qed.
Lemma steady_call {A} (f : fsys -> fsys * outcome A) : (forall s, f_handles (fst (f s)) = f_handles s) -> steady (lift (call f)).
Proof. intros E. apply steady_lift. intros s. cbn [call run]. specialize (E s). destruct (f s). exact E. Qed.
Lemma create_handles n s : f_handles (fst (sys_create n s)) = f_handles s.
Proof. unfold sys_create. destruct (dir_get _ _) as [[i|]|]; reflexivity. Qed.
Lemma remove_handles n s : f_handles (fst (sys_remove n s)) = f_handles s.
Proof. unfold sys_remove. destruct (dir_get _ _) as [[i|]|]; reflexivity. Qed.
Lemma rename_handles x y s : f_handles (fst (sys_rename x y s)) = f_handles s.
Proof. unfold sys_rename. destruct (dir_get (f_dir s) x) as [[i|]|], (dir_get (f_dir s) y) as [[j|]|]; reflexivity. Qed.

(** Calls that leave the contexts alone. *)
Definition lasting {A} (g : gprog A) : Prop := forall m, m_ctxs (fst (g_run g m)) = m_ctxs m /\ m_heap (fst (g_run g m)) = m_heap m.
Lemma lasting_ret {A} (o : outcome A) : lasting (GRet o).
Proof. intros m. now split. Qed.
Lemma lasting_catch {A B} (g : gprog A) (k : outcome A -> gprog B) : lasting g -> (forall o, lasting (k o)) -> lasting (g_catch g k).
Proof.
  intros S K m. rewrite g_run_catch. destruct (K (snd (g_run g m)) (fst (g_run g m))) as (X & Y). rewrite X, Y. apply S.
Qed.
Lemma lasting_then {A B} (g : gprog A) (k : A -> gprog B) : lasting g -> (forall v, lasting (k v)) -> lasting (g_then g k).
Proof. intros S K. apply lasting_catch; auto. intros [v| | |]; auto using lasting_ret. Qed.
Lemma lasting_lift {A} (p : prog A) : lasting (lift p).
Proof. intros m. rewrite run_lift. now split. Qed.
Lemma lasting_reads {A} (g : gprog A) : reads g -> lasting g.
Proof. intros R m. rewrite (reads_run g m R). now split. Qed.
Lemma lasting_field {A} p (f : ctx -> A) : lasting (g_field p f).
Proof. apply lasting_reads, reads_look. Qed.
Lemma lasting_copy_loop fuel : forall p chunk roff dst woff, lasting (g_copy_loop fuel p chunk roff dst woff).
Proof.
  induction fuel as [|fuel IH]; intros; cbn [g_copy_loop]; [apply lasting_ret|].
  apply lasting_then; [apply lasting_field|]. intros conn. apply lasting_catch; [apply lasting_lift|].
  intros [b| | |]; try apply lasting_ret. apply lasting_catch; [apply lasting_lift|].
  intros [x| | |]; try apply lasting_ret. apply IH.
Qed.
Lemma lasting_destination a fuel p r : lasting (g_write_destination a fuel p r).
Proof.
  unfold g_write_destination. apply lasting_then; [apply lasting_field|]. intros name. apply lasting_then; [apply lasting_lift|]. intros dst.
  cbv zeta. apply lasting_then; [apply lasting_lift|]. intros _.
  apply lasting_then; [apply lasting_field|]. intros roff. apply lasting_then; [apply lasting_field|]. intros seen.
  apply lasting_then.
  - destruct seen; [|apply lasting_ret]. apply lasting_then; [apply lasting_field|]. intros conn.
    apply lasting_then; [apply lasting_lift|]. intros size. apply lasting_then; [apply lasting_field|]. intros off.
    destruct (_ <=? _)%Z; [apply lasting_ret|apply lasting_copy_loop].
  - intros woff. apply lasting_then; [apply lasting_field|]. intros pd. apply lasting_then; [apply lasting_lift|].
    intros _. apply lasting_ret.
Qed.
Lemma lasting_prepare a fuel p name r : lasting (g_prepare_files a fuel p name r).
Proof.
  unfold g_prepare_files. apply lasting_then; [apply lasting_destination|]. intros off. apply lasting_then; [apply lasting_lift|]. intros b.
  apply lasting_then; [apply lasting_field|]. intros c. apply lasting_then; [apply lasting_lift|]. intros _.
  apply lasting_then; [apply lasting_field|]. intros c'. apply lasting_then; [apply lasting_lift|]. intros _. apply lasting_ret.
Qed.
Lemma lasting_replace a name off : lasting (g_replace_files a name off).
Proof.
  unfold g_replace_files. do 4 (apply lasting_then; [apply lasting_lift|]; intros ?). apply lasting_ret.
Qed.

(** ** Numbers of a process *)
Definition same (q q' : proc) : Prop :=
  q_files q' = q_files q /\ q_locks q' = q_locks q /\ forall j, fd_get (q_table q') j = fd_get (q_table q) j.

(** Descriptors that are not connections are kept. *)
Definition keeps (q q' : proc) : Prop := q_locks q' = q_locks q /\
  forall k d, fd_get (q_table q) k = Some d -> d_handle d = None -> fd_get (q_table q') k = Some d.

Lemma same_refl q m : same q (on_mem q m).
Proof. now split. Qed.
Lemma same_trans q q1 q2 : same q q1 -> same q1 q2 -> same q q2.
Proof. intros (A & B & C) (D & E & F). split; [congruence|]. split; [congruence|]. intros j. now rewrite F. Qed.
Lemma same_keeps q q' : same q q' -> keeps q q'.
Proof. intros (_ & B & C). split; [exact B|]. intros k d E _. now rewrite C. Qed.
Lemma keeps_trans q q1 q2 : keeps q q1 -> keeps q1 q2 -> keeps q q2.
Proof. intros (A & B) (C & D). split; [congruence|]. auto. Qed.

Lemma numbered_ext q q' : q_files q' = q_files q ->
  (forall k d h, fd_get (q_table q) k = Some d -> d_handle d = Some h -> fd_get (q_table q') k = Some d) ->
  (forall h i, open_at (m_fs (q_mem q')) h i <-> open_at (m_fs (q_mem q)) h i) -> numbered q -> numbered q'.
Proof.
  intros F T O N h. specialize (N h). rewrite F. destruct (num_get (q_files q) h) as [k|].
  - destruct N as (i & X & Y). exists i. split; [now apply O|]. eapply T; eauto. reflexivity.
  - intros i X. apply O in X. now apply N in X.
Qed.

Lemma numbered_lift {A} (g : gprog A) q : steady g -> numbered q -> numbered (on_mem q (fst (g_run g (q_mem q)))).
Proof. intros S. apply numbered_ext; auto. intros h i. apply S. Qed.

Lemma numbered_same q q' : same q q' -> (forall h i, open_at (m_fs (q_mem q')) h i <-> open_at (m_fs (q_mem q)) h i) -> numbered q -> numbered q'.
Proof. intros (A & _ & C) O. apply numbered_ext; auto. intros. now rewrite C. Qed.

(** ** Each open connection has its number: reading through the number is reading the connection *)
Definition agree {A} (d : dprog A) (g : gprog A) : Prop := forall q, numbered q -> d_run d q = (on_mem q (fst (g_run g (q_mem q))), snd (g_run g (q_mem q))).

Lemma agree_lift {A} (g : gprog A) : agree (d_lift g) g.
Proof. intros q _. apply d_run_lift. Qed.
Lemma agree_ret {A} (o : outcome A) : agree (DRet o) (GRet o).
Proof. apply (agree_lift (GRet o)). Qed.
Lemma agree_catch {A B} (d : dprog A) g (k : outcome A -> dprog B) k' : agree d g -> steady g -> (forall o, agree (k o) (k' o)) -> agree (d_catch d k) (g_catch g k').
Proof.
  intros D S K q N. rewrite d_run_catch, g_run_catch, (D q N). cbn [fst snd].
  rewrite (K (snd (g_run g (q_mem q))) (on_mem q (fst (g_run g (q_mem q)))) (numbered_lift g q S N)). reflexivity.
Qed.
Lemma agree_then {A B} (d : dprog A) g (k : A -> dprog B) k' : agree d g -> steady g -> (forall v, agree (k v) (k' v)) -> agree (d_then d k) (g_then g k').
Proof. intros D S K. apply agree_catch; auto. intros [v| | |]; [apply K|apply agree_ret..]. Qed.

Lemma on_mem_same q : on_mem q (q_mem q) = q.
Proof. now destruct q. Qed.

Lemma closed_read s h n off : (forall i, ~ open_at s h i) -> read_at s h n off = Err.
Proof. intros O. unfold read_at. destruct (nth_error (f_handles s) h) as [[i pos [|]]|] eqn:E; try reflexivity. exfalso. apply (O i). now exists pos. Qed.

Lemma pread_numbered q h n off : numbered q -> pread q h n off = read_at (m_fs (q_mem q)) h n off.
Proof.
  intros N. specialize (N h). unfold pread. destruct (num_get (q_files q) h) as [k|].
  - destruct N as (i & _ & ->). reflexivity.
  - symmetry. now apply closed_read.
Qed.

Lemma agree_pread h n off : agree (d_pread h n off) (lift (p_read h n off)).
Proof.
  intros q N. unfold d_pread. rewrite d_run_call, run_lift, pread_numbered by exact N. unfold p_read. cbn [call run fst snd].
  f_equal. destruct q as [[x y z] ? ? ?]. reflexivity.
Qed.

Lemma agree_size h : agree (d_size h) (lift (call (fun s => (s, match nth_error (f_handles s) h with Some (Handle i _ true) => Ok (zlen (data_of s i)) | _ => Panic end)))).
Proof.
  intros q N. unfold d_size. rewrite d_run_call, run_lift. cbn [call run fst snd]. f_equal; [destruct q as [[x y z] ? ? ?]; reflexivity|].
  specialize (N h). destruct (num_get (q_files q) h) as [k|].
  - destruct N as (i & (pos & ->) & ->). reflexivity.
  - destruct (nth_error (f_handles (m_fs (q_mem q))) h) as [[i pos [|]]|] eqn:E; try reflexivity. exfalso. apply (N i). now exists pos.
Qed.

Lemma agree_copy b h : agree (d_copy b h) (lift (p_copy b h)).
Proof.
  intros q N. unfold d_copy, p_copy. rewrite d_run_bind, d_run_call, run_lift. unfold andthen. rewrite run_catch_fst. cbn [call run fst snd].
  pose proof (N h) as Nh. destruct (num_get (q_files q) h) as [k|].
  - destruct Nh as (i & (pos & E) & ->). rewrite E. cbn [fst snd run].
    destruct (skipn pos (data_of (m_fs (q_mem q)) i)) as [|x l]; [reflexivity|]. rewrite d_run_lift, run_lift. reflexivity.
  - destruct (nth_error (f_handles (m_fs (q_mem q))) h) as [[i pos [|]]|] eqn:E; [exfalso; apply (Nh i); now exists pos|..];
      cbn [fst snd run]; destruct q as [[x y z] ? ? ?]; reflexivity.
Qed.

Lemma agree_copy_loop fuel : forall p chunk roff dst woff, agree (d_copy_loop fuel p chunk roff dst woff) (g_copy_loop fuel p chunk roff dst woff).
Proof.
  induction fuel as [|fuel IH]; intros; cbn [d_copy_loop g_copy_loop]; [apply agree_ret|].
  apply agree_then; [apply agree_lift|apply steady_field|]. intros conn.
  apply agree_catch; [apply agree_pread|apply steady_reads, reads_lift_read|]. intros [b| | |]; try apply agree_ret.
  apply agree_catch; [apply agree_lift|apply steady_lift; intros; apply write_handles|]. intros [x| | |]; try apply agree_ret. apply IH.
Qed.

Lemma agree_fill a fuel p r dst : agree (d_fill a fuel p r dst) (g_fill a fuel p r dst).
Proof.
  unfold d_fill, g_fill. cbv zeta.
  apply agree_then; [apply agree_lift|apply steady_lift; intros; apply write_handles|]. intros _.
  apply agree_then; [apply agree_lift|apply steady_field|]. intros roff.
  apply agree_then; [apply agree_lift|apply steady_field|]. intros seen.
  apply agree_then.
  - destruct seen; [|apply agree_ret].
    apply agree_then; [apply agree_lift|apply steady_field|]. intros conn.
    apply agree_then; [apply agree_size|apply steady_lift; reflexivity|]. intros size.
    apply agree_then; [apply agree_lift|apply steady_field|]. intros off.
    destruct (_ <=? _)%Z; [apply agree_ret|apply agree_copy_loop].
  - destruct seen; [|apply steady_ret].
    apply steady_then; [apply steady_field|]. intros conn. apply steady_then; [apply steady_lift; reflexivity|]. intros size.
    apply steady_then; [apply steady_field|]. intros off. destruct (_ <=? _)%Z; [apply steady_ret|apply steady_copy_loop].
  - intros woff. apply agree_then; [apply agree_lift|apply steady_field|]. intros pd.
    apply agree_then; [apply agree_lift|apply steady_lift; intros; apply pending_handles|]. intros _. apply agree_ret.
Qed.

(** A file for writing, and a connection. *)
Lemma create_run n q : let (s', o) := sys_create n (m_fs (q_mem q)) in
  match o with
  | Ok i => exists q', d_run (d_create n) q = (q', Ok (i, lowest (q_table q))) /\ q_mem q' = on_fs (q_mem q) s' /\ q_files q' = q_files q /\
      q_locks q' = q_locks q /\ forall j, fd_get (q_table q') j = if Nat.eqb (lowest (q_table q)) j then Some (Desc i None false) else fd_get (q_table q) j
  | _ => o = Err /\ s' = m_fs (q_mem q) /\ d_run (d_create n) q = (q, Err)
  end.
Proof.
  unfold d_create. rewrite d_run_call. unfold sys_create. destruct (dir_get (f_dir (m_fs (q_mem q))) n) as [[i|]|].
  - cbn [take]. eexists. split; [reflexivity|]. repeat split; auto. intros j. apply fd_get_put.
  - split; [reflexivity|]. split; [reflexivity|]. destruct q as [[? ? ?] ? ? ?]. reflexivity.
  - cbn [take]. eexists. split; [reflexivity|]. repeat split; auto. intros j. apply fd_get_put.
Qed.

Lemma drop_plain q k i : fd_get (q_table q) k = Some (Desc i None false) ->
  exists q', drop_number k q = (q', Ok tt) /\ q_mem q' = q_mem q /\ q_files q' = q_files q /\ q_locks q' = q_locks q /\
    forall j, fd_get (q_table q') j = if Nat.eqb k j then None else fd_get (q_table q) j.
Proof.
  intros E. unfold drop_number. rewrite E. cbn [d_handle d_lock]. eexists. split; [reflexivity|].
  repeat split; [now destruct q as [[? ? ?] ? ? ?]|]. intros j. apply fd_get_set. congruence.
Qed.

Section Alone.
  Variable a : dbapp.

  Lemma write_destination_alone fuel p r q : numbered q -> exists q',
    d_run (d_write_destination a fuel p r) q = (q', snd (g_run (g_write_destination a fuel p r) (q_mem q))) /\
    q_mem q' = fst (g_run (g_write_destination a fuel p r) (q_mem q)) /\ same q q' /\ numbered q'.
  Proof.
    intros N. change (g_write_destination a fuel p r) with (go* name <- g_field p x_name; go* dst <- lift (call (sys_create (side name (a_dst a)))); g_fill a fuel p r dst).
    unfold d_write_destination. rewrite d_run_bind, d_run_lift, g_run_bind. cbn [g_field g_run fst snd].
    assert (Q : on_mem q (q_mem q) = q) by (destruct q; reflexivity). rewrite Q.
    destruct (nth_error (m_heap (q_mem q)) p) as [c|]; [|exists q; split; [reflexivity|]; split; [reflexivity|]; split; [now split|exact N]].
    rewrite d_run_bind, g_run_bind, g_run_call.
    pose proof (create_run (side (x_name c) (a_dst a)) q) as C. pose proof (create_handles (side (x_name c) (a_dst a)) (m_fs (q_mem q))) as Hc.
    destruct (sys_create (side (x_name c) (a_dst a)) (m_fs (q_mem q))) as [s1 o1]. cbn [fst snd] in *.
    destruct o1 as [i| | |]; try (now destruct C as (C1 & _)); try (destruct C as (_ & -> & ->); exists q; cbn [fst snd];
      split; [reflexivity|]; split; [now destruct q as [[? ? ?] ? ? ?]|]; split; [now split|exact N]).
    destruct C as (q1 & -> & M1 & F1 & L1 & T1).
    assert (N1 : numbered q1).
    { apply (numbered_ext q q1 F1); [|intros h j; rewrite M1; unfold open_at; cbn [on_fs m_fs]; now rewrite Hc|exact N].
      intros k d h E _. rewrite T1. destruct (Nat.eqb_spec (lowest (q_table q)) k) as [<-|]; [rewrite lowest_free in E; discriminate|exact E]. }
    rewrite d_run_catch. cbn [fst snd]. rewrite (agree_fill a fuel p r i q1 N1). cbn [fst snd]. rewrite M1.
    pose proof (steady_fill a fuel p r i (on_fs (q_mem q) s1)) as St.
    destruct (g_run (g_fill a fuel p r i) (on_fs (q_mem q) s1)) as [m2 o2]. cbn [fst snd] in *.
    rewrite d_run_catch. unfold d_close_number. rewrite d_run_call.
    assert (E : fd_get (q_table (on_mem q1 m2)) (lowest (q_table q)) = Some (Desc i None false)) by (cbn [on_mem q_table]; now rewrite T1, Nat.eqb_refl).
    destruct (drop_plain (on_mem q1 m2) (lowest (q_table q)) i E) as (q2 & -> & M2 & F2 & L2 & T2). cbn [fst snd d_run].
    exists q2. split; [reflexivity|]. split; [exact M2|].
    assert (S : same q q2).
    { split; [rewrite F2; exact F1|]. split; [rewrite L2; exact L1|]. intros j. rewrite T2. cbn [on_mem q_table]. rewrite T1.
      destruct (Nat.eqb_spec (lowest (q_table q)) j) as [<-|]; [now rewrite lowest_free|reflexivity]. }
    split; [exact S|]. apply (numbered_same q q2 S); [|exact N]. intros h j. rewrite M2. cbn [on_mem q_mem]. rewrite St. unfold open_at. cbn [on_fs m_fs]. now rewrite Hc.
  Qed.

  (** The connection is closed: its number is free. *)
  Lemma close_alone h q : numbered q -> exists q', d_run (d_close_file h) q = (q', snd (sys_close h (m_fs (q_mem q)))) /\
    q_mem q' = on_fs (q_mem q) (fst (sys_close h (m_fs (q_mem q)))) /\ keeps q q' /\ numbered q' /\
    (forall j k, j <> h -> num_get (q_files q) j = Some k -> num_get (q_files q') j = Some k) /\
    (snd (sys_close h (m_fs (q_mem q))) = Ok tt -> exists k, num_get (q_files q) h = Some k /\
      forall j, fd_get (q_table q') j = if Nat.eqb k j then None else fd_get (q_table q) j).
  Proof.
    intros N. unfold d_close_file. rewrite d_run_call. pose proof (N h) as Nh. destruct (num_get (q_files q) h) as [k|] eqn:Ek.
    - destruct Nh as (i & (pos & Eh) & Et). unfold drop_number. cbn [with_files q_table q_mem]. rewrite Et. cbn [d_handle d_lock].
      assert (Ec : sys_close h (m_fs (q_mem q)) = (with_handles (m_fs (q_mem q)) (set_nth (f_handles (m_fs (q_mem q))) h (Handle i pos false)), Ok tt)) by (unfold sys_close; now rewrite Eh).
      unfold shut. rewrite Ec. cbn [fst snd]. eexists. split; [reflexivity|]. cbn [on_files on_mem with_table with_files q_mem q_table q_files q_locks].
      split; [reflexivity|].
      assert (T : forall j, fd_get (set_nth (q_table q) k None) j = if Nat.eqb k j then None else fd_get (q_table q) j) by (intros j; apply fd_get_set; congruence).
      split. { split; [reflexivity|]. cbn [q_table]. intros k' d E Hd. rewrite T. destruct (Nat.eqb_spec k k') as [<-|]; [|exact E]. rewrite Et in E. injection E as <-. discriminate. }
      split; [|split; [|intros _; exists k; split; [reflexivity|exact T]]].
      + intros h'. cbn [on_files on_mem with_table with_files q_mem q_table q_files q_locks on_fs m_fs]. rewrite num_get_del. destruct (Nat.eqb_spec h h') as [<-|Nh].
        * intros i' (pos' & X). cbn [with_handles f_handles] in X. rewrite (nth_set_same _ _ _ _ Eh) in X. discriminate.
        * specialize (N h'). assert (O : forall i', open_at (with_handles (m_fs (q_mem q)) (set_nth (f_handles (m_fs (q_mem q))) h (Handle i pos false))) h' i' <-> open_at (m_fs (q_mem q)) h' i').
          { intros i'. unfold open_at. cbn [with_handles f_handles]. now rewrite nth_set_other. }
          destruct (num_get (q_files q) h') as [k'|] eqn:Ek'.
          -- destruct N as (i' & X & Y). exists i'. split; [now apply O|]. rewrite T. destruct (Nat.eqb_spec k k') as [<-|]; [|exact Y]. rewrite Et in Y. injection Y as _ Y. congruence.
          -- intros i' X. apply O in X. now apply N in X.
      + intros j k' Nj Ej. rewrite num_get_del. destruct (Nat.eqb_spec h j); [congruence|exact Ej].
    - assert (E : sys_close h (m_fs (q_mem q)) = (m_fs (q_mem q), Err)).
      { unfold sys_close. destruct (nth_error (f_handles (m_fs (q_mem q))) h) as [[i0 p0 [|]]|] eqn:Eh; auto. exfalso. apply (Nh i0). now exists p0. }
      rewrite E. cbn [fst snd]. exists q. split; [reflexivity|]. split; [now destruct q as [[? ? ?] ? ? ?]|]. split; [now split|]. split; [exact N|]. split; [auto|discriminate].
  Qed.

  (** A connection is opened: it gets the lowest number. *)
  Lemma open_alone n q : numbered q -> exists q', d_run (d_open_file n) q = (q', snd (sys_open n (m_fs (q_mem q)))) /\
    q_mem q' = on_fs (q_mem q) (fst (sys_open n (m_fs (q_mem q)))) /\ keeps q q' /\ numbered q' /\
    (forall h, snd (sys_open n (m_fs (q_mem q))) = Ok h -> exists i, q_files q' = (h, lowest (q_table q)) :: q_files q /\
      num_get (q_files q) h = None /\ open_at (m_fs (q_mem q')) h i /\
      forall j, fd_get (q_table q') j = if Nat.eqb (lowest (q_table q)) j then Some (Desc i (Some h) false) else fd_get (q_table q) j).
  Proof.
    intros N. unfold d_open_file. rewrite d_run_call. unfold sys_open. set (s := m_fs (q_mem q)) in *.
    assert (K : exists q', (on_files q s, @Err nat) = (q', @Err nat) /\ q_mem q' = on_fs (q_mem q) s /\ keeps q q' /\ numbered q' /\
      (forall h, Err = Ok h -> exists i, q_files q' = (h, lowest (q_table q)) :: q_files q /\ num_get (q_files q) h = None /\ open_at (m_fs (q_mem q')) h i /\
      forall j, fd_get (q_table q') j = if Nat.eqb (lowest (q_table q)) j then Some (Desc i (Some h) false) else fd_get (q_table q) j)).
    { exists (on_files q s). split; [reflexivity|]. split; [reflexivity|]. split; [now split|]. split; [|discriminate].
      assert (Q : on_files q s = q) by (unfold s; destruct q as [[? ? ?] ? ? ?]; reflexivity). rewrite Q. exact N. }
    destruct (dir_get (f_dir s) n) as [[i|]|]; [|exact K|exact K]. clear K. cbn [fst snd with_handles f_handles].
    assert (Eh : nth_error (f_handles s ++ [Handle i 0 true]) (length (f_handles s)) = Some (Handle i 0 true)).
    { rewrite nth_error_app2, Nat.sub_diag by lia. reflexivity. }
    rewrite Eh. cbn [take h_ino]. eexists. split; [reflexivity|]. cbn [with_files with_table on_files on_mem q_mem q_files q_table q_locks].
    split; [reflexivity|].
    assert (T := fd_get_put (q_table q) (Desc i (Some (length (f_handles s))) false)).
    assert (None' : num_get (q_files q) (length (f_handles s)) = None).
    { specialize (N (length (f_handles s))). destruct (num_get (q_files q) (length (f_handles s))); [|reflexivity]. exfalso.
      destruct N as (i' & (pos & X) & _). fold s in X. rewrite (proj2 (nth_error_None _ _)) in X by lia. discriminate. }
    split; [split; [reflexivity|]; cbn [q_table]; intros k d E _; rewrite T; destruct (Nat.eqb_spec (lowest (q_table q)) k) as [<-|]; [rewrite lowest_free in E; discriminate|exact E]|].
    split.
    - intros h. cbn [on_files on_mem with_table with_files q_mem q_table q_files q_locks on_fs m_fs num_get]. destruct (Nat.eqb_spec (length (f_handles s)) h) as [<-|Nh].
      + exists i. split; [now exists 0|]. now rewrite T, Nat.eqb_refl.
      + specialize (N h). fold s in N.
        assert (O : forall i', open_at (with_handles s (f_handles s ++ [Handle i 0 true])) h i' <-> open_at s h i').
        { intros i'. unfold open_at. cbn [with_handles f_handles]. destruct (lt_dec h (length (f_handles s))) as [L|L]; [now rewrite nth_error_app1|].
          split; intros (pos & X).
          - rewrite nth_error_app2 in X by lia. destruct (h - length (f_handles s)) as [|x] eqn:Ex; [lia|]. cbn in X. now destruct x.
          - rewrite (proj2 (nth_error_None _ _)) in X by lia. discriminate. }
        destruct (num_get (q_files q) h) as [k'|] eqn:Ek'.
        * destruct N as (i' & X & Y). exists i'. split; [now apply O|]. rewrite T. destruct (Nat.eqb_spec (lowest (q_table q)) k') as [<-|]; [rewrite lowest_free in Y; discriminate|exact Y].
        * intros i' X. apply O in X. now apply N in X.
    - intros h [= <-]. exists i. split; [reflexivity|]. split; [exact None'|]. split; [now exists 0|exact T].
  Qed.

  Lemma on_same q : on_mem q (q_mem q) = q.
  Proof. now destruct q. Qed.
  Lemma on_fs_same m : on_fs m (m_fs m) = m.
  Proof. now destruct m. Qed.

  Lemma field_run {A} p (f : ctx -> A) q : d_run (d_lift (g_field p f)) q = (q, match nth_error (m_heap (q_mem q)) p with Some c => Ok (f c) | None => Panic end).
  Proof. rewrite d_run_lift. cbn [g_field g_run fst snd]. now rewrite on_same. Qed.

  Lemma prepare_alone fuel p name r q : numbered q -> exists q',
    d_run (d_prepare_files a fuel p name r) q = (q', snd (g_run (g_prepare_files a fuel p name r) (q_mem q))) /\
    q_mem q' = fst (g_run (g_prepare_files a fuel p name r) (q_mem q)) /\ keeps q q' /\ numbered q' /\
    (forall off, snd (g_run (g_prepare_files a fuel p name r) (q_mem q)) = Ok off -> exists c k,
      nth_error (m_heap (q_mem q)) p = Some c /\ num_get (q_files q) (x_conn c) = Some k /\
      forall j, fd_get (q_table q') j = if Nat.eqb k j then None else fd_get (q_table q) j).
  Proof.
    intros N. unfold d_prepare_files, g_prepare_files. rewrite d_run_bind, g_run_bind.
    destruct (write_destination_alone fuel p r q N) as (q1 & -> & M1 & S1 & N1).
    pose proof (lasting_destination a fuel p r (q_mem q)) as (_ & Hp).
    destruct (g_run (g_write_destination a fuel p r) (q_mem q)) as [m1 o1]. cbn [fst snd] in *.
    destruct o1 as [off| | |]; try (exists q1; cbn [fst snd]; split; [reflexivity|]; split; [exact M1|]; split; [now apply same_keeps|]; split; [exact N1|discriminate]).
    subst m1. rewrite d_run_bind, g_run_bind, g_run_call.
    pose proof (create_run (side name (a_bck a)) q1) as C. pose proof (create_handles (side name (a_bck a)) (m_fs (q_mem q1))) as Hc.
    destruct (sys_create (side name (a_bck a)) (m_fs (q_mem q1))) as [s2 o2]. cbn [fst snd] in *.
    destruct o2 as [b| | |]; try (now destruct C as (C1 & _)); try (destruct C as (_ & -> & ->); exists q1; cbn [fst snd];
      split; [reflexivity|]; split; [now rewrite on_fs_same|]; split; [now apply same_keeps|]; split; [exact N1|discriminate]).
    destruct C as (q2 & -> & M2 & F2 & L2 & T2). cbn [fst snd]. rewrite d_run_bind, field_run, g_run_bind. cbn [g_field g_run]. rewrite M2. cbn [on_fs m_heap].
    set (kb := lowest (q_table q1)) in *.
    assert (N2 : numbered q2).
    { apply (numbered_ext q1 q2 F2); [|intros h i; rewrite M2; unfold open_at; cbn [on_fs m_fs]; now rewrite Hc|exact N1].
      intros k d h E _. rewrite T2. destruct (Nat.eqb_spec kb k) as [<-|]; [unfold kb in E; rewrite lowest_free in E; discriminate|exact E]. }
    assert (K2 : keeps q q2).
    { apply (keeps_trans q q1 q2 (same_keeps _ _ S1)). split; [exact L2|]. intros k d E _. rewrite T2.
      destruct (Nat.eqb_spec kb k) as [<-|]; [unfold kb in E; rewrite lowest_free in E; discriminate|exact E]. }
    rewrite Hp. destruct (nth_error (m_heap (q_mem q)) p) as [c|] eqn:Ec;
      [|exists q2; cbn [fst snd]; split; [reflexivity|]; split; [exact M2|]; split; [exact K2|]; split; [exact N2|discriminate]].
    rewrite d_run_bind. cbn [fst snd]. rewrite (agree_copy b (x_conn c) q2 N2), g_run_bind, M2.
    pose proof (steady_copy b (x_conn c) (on_fs (q_mem q1) s2)) as St. pose proof (lasting_lift (p_copy b (x_conn c)) (on_fs (q_mem q1) s2)) as (_ & Hp3).
    destruct (g_run (lift (p_copy b (x_conn c))) (on_fs (q_mem q1) s2)) as [m3 o3]. cbn [fst snd] in *.
    assert (N3 : numbered (on_mem q2 m3)) by (apply (numbered_ext q2); auto; intros h i; cbn [on_mem q_mem]; now rewrite St, M2).
    destruct o3 as [u| | |]; try (exists (on_mem q2 m3); cbn [fst snd]; split; [reflexivity|]; split; [reflexivity|]; split; [exact K2|]; split; [exact N3|discriminate]).
    rewrite d_run_bind. unfold d_close_number. rewrite d_run_call.
    assert (E : fd_get (q_table (on_mem q2 m3)) kb = Some (Desc b None false)) by (cbn [on_mem q_table]; now rewrite T2, Nat.eqb_refl).
    destruct (drop_plain (on_mem q2 m3) kb b E) as (q4 & -> & M4 & F4 & L4 & T4).
    rewrite d_run_bind, field_run, g_run_bind. cbn [g_field g_run]. rewrite M4. cbn [on_mem q_mem]. rewrite Hp3. cbn [on_fs m_heap]. rewrite Hp, Ec.
    assert (T4' : forall j, fd_get (q_table q4) j = fd_get (q_table q) j).
    { destruct S1 as (_ & _ & S1). intros j. rewrite T4. cbn [on_mem q_table]. rewrite T2. destruct (Nat.eqb_spec kb j) as [<-|]; [|apply S1].
      rewrite <- S1. symmetry. unfold kb. apply lowest_free. }
    assert (F4' : q_files q4 = q_files q) by (rewrite F4; cbn [on_mem q_files]; rewrite F2; apply S1).
    assert (L4' : q_locks q4 = q_locks q) by (rewrite L4; cbn [on_mem q_locks]; rewrite L2; apply S1).
    assert (N4 : numbered q4).
    { apply (numbered_ext q q4 F4'); [intros k d h X _; now rewrite T4'| |exact N]. intros h i. rewrite M4. cbn [on_mem q_mem]. rewrite St.
      destruct S1 as (S1 & _ & S2). unfold open_at. cbn [on_fs m_fs]. rewrite Hc. fold (open_at (m_fs (q_mem q1)) h i). fold (open_at (m_fs (q_mem q)) h i).
      clear - N N1 S1 S2. specialize (N h). specialize (N1 h). rewrite S1 in N1. destruct (num_get (q_files q) h) as [k|].
      - destruct N as (i1 & O1 & T1), N1 as (i2 & O2 & T2). rewrite S2, T1 in T2. injection T2 as <-.
        split; intros (pos & X); destruct O1 as (p1 & O1), O2 as (p2 & O2).
        + rewrite O2 in X. injection X as <- _. now exists p1.
        + rewrite O1 in X. injection X as <- _. now exists p2.
      - split; intros X; exfalso; [now apply (N1 i)|now apply (N i)]. }
    rewrite d_run_bind, g_run_bind, g_run_call.
    destruct (close_alone (x_conn c) q4 N4) as (q5 & -> & M5 & K5 & N5 & _ & Cl). rewrite M4 in *. cbn [on_mem q_mem] in *.
    destruct (sys_close (x_conn c) (m_fs m3)) as [s5 o5]. cbn [fst snd] in *.
    assert (K5' : keeps q q5).
    { apply (keeps_trans q q4 q5); [|exact K5]. split; [exact L4'|]. intros k d X _. now rewrite T4'. }
    destruct o5 as [[]| | |]; try (exists q5; cbn [fst snd]; split; [reflexivity|]; split; [exact M5|]; split; [exact K5'|]; split; [exact N5|discriminate]).
    exists q5. cbn [d_run g_run fst snd]. split; [reflexivity|]. split; [exact M5|]. split; [exact K5'|]. split; [exact N5|]. intros off' _.
    destruct (Cl eq_refl) as (k & Ek & Tk). exists c, k. split; [reflexivity|]. split; [now rewrite <- F4'|]. intros j. rewrite Tk, T4'. reflexivity.
  Qed.

  Lemma replace_alone name off q : numbered q -> exists q',
    d_run (d_replace_files a name off) q = (q', snd (g_run (g_replace_files a name off) (q_mem q))) /\
    q_mem q' = fst (g_run (g_replace_files a name off) (q_mem q)) /\ keeps q q' /\ numbered q' /\
    (forall h o, snd (g_run (g_replace_files a name off) (q_mem q)) = Ok (h, o) -> exists i,
      q_files q' = (h, lowest (q_table q)) :: q_files q /\ num_get (q_files q) h = None /\ open_at (m_fs (q_mem q')) h i /\
      forall j, fd_get (q_table q') j = if Nat.eqb (lowest (q_table q)) j then Some (Desc i (Some h) false) else fd_get (q_table q) j).
  Proof.
    intros N. unfold d_replace_files, g_replace_files. rewrite d_run_bind, d_run_lift, g_run_bind.
    assert (X1 : steady (lift (call (sys_remove name)))) by (apply steady_call; intros; apply remove_handles).
    assert (N1 := numbered_lift _ _ X1 N). clear X1.
    destruct (g_run (lift (call (sys_remove name))) (q_mem q)) as [m1 o1]. cbn [fst snd] in *.
    destruct o1 as [u| | |]; try (exists (on_mem q m1); cbn [fst snd]; split; [reflexivity|]; split; [reflexivity|]; split; [now split|]; split; [exact N1|discriminate]).
    rewrite d_run_bind, d_run_lift, g_run_bind.
    assert (X2 : steady (lift (call (sys_rename (side name (a_dst a)) name)))) by (apply steady_call; intros; apply rename_handles).
    assert (N2 := numbered_lift _ _ X2 N1). clear X2. cbn [on_mem q_mem] in N2. cbn [on_mem q_mem].
    destruct (g_run (lift (call (sys_rename (side name (a_dst a)) name))) m1) as [m2 o2]. cbn [fst snd] in *.
    change (on_mem (on_mem q m1) m2) with (on_mem q m2) in *.
    destruct o2 as [u2| | |]; try (exists (on_mem q m2); cbn [fst snd]; split; [reflexivity|]; split; [reflexivity|]; split; [now split|]; split; [exact N2|discriminate]).
    rewrite d_run_bind, d_run_lift, g_run_bind.
    assert (X3 : steady (lift (call (sys_remove (side name (a_bck a)))))) by (apply steady_call; intros; apply remove_handles).
    assert (N3 := numbered_lift _ _ X3 N2). clear X3. cbn [on_mem q_mem] in N3. cbn [on_mem q_mem].
    destruct (g_run (lift (call (sys_remove (side name (a_bck a))))) m2) as [m3 o3]. cbn [fst snd] in *.
    change (on_mem (on_mem q m2) m3) with (on_mem q m3) in *.
    destruct o3 as [u3| | |]; try (exists (on_mem q m3); cbn [fst snd]; split; [reflexivity|]; split; [reflexivity|]; split; [now split|]; split; [exact N3|discriminate]).
    rewrite d_run_bind, g_run_bind, g_run_call. destruct (open_alone name (on_mem q m3) N3) as (q4 & -> & M4 & K4 & N4 & Op). cbn [on_mem q_mem q_files q_table] in *.
    destruct (sys_open name (m_fs m3)) as [s4 o4]. cbn [fst snd] in *.
    destruct o4 as [h| | |]; try (exists q4; cbn [fst snd]; split; [reflexivity|]; split; [exact M4|]; split; [exact K4|]; split; [exact N4|discriminate]).
    exists q4. cbn [d_run g_run fst snd]. split; [reflexivity|]. split; [exact M4|]. split; [exact K4|]. split; [exact N4|]. intros h' o' [= <- <-]. now apply Op.
  Qed.
End Alone.
