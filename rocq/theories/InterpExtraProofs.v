(** Names, argument maps and the number of module calls. *)
From Coq Require Import List Arith Bool Lia Sorted.
From Coq Require Import Init.Byte.
From Verif Require Import Base BaseLemmas InterpModel SpecInterp InterpProofs InterpMoreProofs.
Import ListNotations.

Section Interp.
Variable V : Type.
Variable vbytes : bytes -> V.
Variable vlist : list V -> V.
Variable W : Type.

Notation comp := (comp W).
Notation module := (module V W).
Notation value := (value V W).
Notation cstate := (cstate V W).

(** An attached value that does not touch the world. *)
Definition stable (input : list V) (v : value) (x : V) : Prop :=
  forall w, exec_value V vbytes vlist W input v w = (Ok x, w).

Lemma exec_atts_map : forall input atts xs,
  Forall2 (fun vt x => stable input (fst vt) x) atts xs ->
  forall done ps, StronglySorted lt (map fst ps) ->
  (forall t v, In (t, v) ps <-> last_of t v done) ->
  exists ps', (forall w, exec_atts V vbytes vlist W input atts ps w = (Ok ps', w)) /\
    StronglySorted lt (map fst ps') /\
    forall t v, In (t, v) ps' <-> last_of t v (done ++ combine (map snd atts) xs).
Proof.
  intros input. induction 1 as [|[v t] x atts xs P F IH]; intros done ps S M.
  - exists ps. split; [reflexivity|]. split; auto. cbn. rewrite app_nil_r. exact M.
  - cbn [fst] in P. destruct (IH (done ++ [(t, x)]) (pset t x ps)) as (ps' & E & S' & M').
    + apply pset_sorted. exact S.
    + intros t' v'. rewrite pset_in by assumption. rewrite last_of_snoc, M. reflexivity.
    + exists ps'. split; [|split; auto].
      * intros w. cbn [exec_atts]. unfold seq. rewrite P. apply E.
      * intros t' v'. rewrite M'. cbn [map snd combine]. rewrite <- app_assoc. reflexivity.
Qed.

Theorem exec_app_map : forall input i m atts xs,
  Forall2 (fun vt x => stable input (fst vt) x) atts xs ->
  exists ps, StronglySorted lt (map fst ps) /\
    (forall t v, In (t, v) ps <-> last_of t v (combine (map snd atts) xs)) /\
    forall w, exec_app V vbytes vlist W input (PApp V W i m atts) w = m_fn V W m ps w.
Proof.
  intros input i m atts xs F. destruct (exec_atts_map input atts xs F [] []) as (ps & E & S & M).
  - constructor.
  - intros t v. split; [intros []|]. intros (l1 & l2 & E & _). destruct l1; discriminate.
  - exists ps. split; auto. split; auto. intros w. rewrite exec_app_eq. unfold seq. rewrite E. reflexivity.
Qed.

(** ** Names *)
Section Names.
Variable nm ren : bytes -> bytes.
Hypothesis ren_inj : forall a b, ren a = ren b -> a = b.
Variable mods : list module.

Definition rmap {A} (m : list (bytes * A)) : list (bytes * A) := map (fun ka => (ren (fst ka), snd ka)) m.

Definition rstate (c : cstate) : cstate :=
  mk_cstate V W (rmap (c_modules V W c)) (rmap (c_apps V W c)) (rmap (c_params V W c))
            (c_outputs V W c) (rmap (c_values V W c)) (c_instrs V W c).

Lemma ren_eqb : forall a b, bytes_eqb (ren a) (ren b) = bytes_eqb a b.
Proof.
  intros a b. destruct (bytes_eqb a b) eqn:E.
  - apply bytes_eqb_true in E. subst. apply bytes_eqb_refl.
  - destruct (bytes_eqb (ren a) (ren b)) eqn:R; auto. apply bytes_eqb_true in R. apply ren_inj in R. subst.
    rewrite bytes_eqb_refl in E. discriminate.
Qed.

Lemma rmap_cons : forall A k (a : A) m, rmap ((k, a) :: m) = (ren k, a) :: rmap m.
Proof. reflexivity. Qed.

Lemma rmap_get : forall A k (m : list (bytes * A)), mget (ren k) (rmap m) = mget k m.
Proof.
  intros A k m. induction m as [|[k' a] m IH]; auto. rewrite rmap_cons. cbn [mget]. rewrite ren_eqb, IH. reflexivity.
Qed.

Lemma rmap_set : forall A k (a : A) m, mset (ren k) a (rmap m) = rmap (mset k a m).
Proof.
  intros A k a m. induction m as [|[k' b] m IH]; auto. rewrite rmap_cons. cbn [mset]. rewrite ren_eqb.
  destruct (bytes_eqb k k'); [reflexivity|]. rewrite IH. reflexivity.
Qed.

Lemma rmap_filter : forall m : list (bytes * param),
  length (filter (fun kp => p_input (snd kp)) (rmap m)) = length (filter (fun kp => p_input (snd kp)) m).
Proof.
  induction m as [|[k p] m IH]; auto. rewrite rmap_cons. cbn [filter snd]. destruct (p_input p); cbn [length]; congruence.
Qed.

Lemma rmap_length : forall A (m : list (bytes * A)), length (rmap m) = length m.
Proof. intros. apply map_length. Qed.

Notation nm' := (fun n => ren (nm n)).

Definition rout (o : outcome cstate) : outcome cstate :=
  match o with Ok c => Ok (rstate c) | Err => Err | Panic => Panic | Fuel => Fuel end.

Lemma rename_list : forall l, Forall (fun i => forall c, compile_instr V W nm' mods i (rstate c) = rout (compile_instr V W nm mods i c)) l ->
  forall c, compile_list V W nm' mods l (rstate c) = rout (compile_list V W nm mods l c).
Proof.
  induction 1 as [|i l P F IH]; intros c; cbn [compile_list]; [reflexivity|].
  rewrite P. destruct (compile_instr V W nm mods i c); cbn [bind rout]; auto.
Qed.

Lemma rename_finish : forall l, Forall (fun i => forall c, compile_instr V W nm' mods i (rstate c) = rout (compile_instr V W nm mods i c)) l ->
  compile V W nm' mods l = compile V W nm mods l.
Proof.
  intros l F. unfold compile. pose proof (rename_list l F (c_empty V W)) as E.
  change (rstate (c_empty V W)) with (c_empty V W) in E. rewrite E.
  destruct (compile_list V W nm mods l (c_empty V W)); reflexivity.
Qed.

Lemma rename_instr : forall i c, compile_instr V W nm' mods i (rstate c) = rout (compile_instr V W nm mods i c).
Proof.
  apply (sinstr_all (fun i => forall c, compile_instr V W nm' mods i (rstate c) = rout (compile_instr V W nm mods i c))
                    (fun v => forall c, compile_value V W nm' mods v (rstate c) = compile_value V W nm mods v c)).
  - intros n k c. cbn [compile_instr]. unfold compile_module. destruct (fetch_module V W mods k); [|reflexivity].
    cbn [rstate c_modules]. rewrite rmap_get. destruct (mget (nm n) (c_modules V W c)); [reflexivity|].
    cbn [rout]. unfold rstate. cbn. rewrite rmap_set. reflexivity.
  - intros n m c. cbn [compile_instr]. unfold compile_application.
    cbn [rstate c_modules c_apps]. rewrite !rmap_get, rmap_length. destruct (mget (nm n) (c_apps V W c)); [reflexivity|].
    destruct (mget (nm m) (c_modules V W c)); [|reflexivity].
    cbn [rout]. unfold rstate. cbn. rewrite rmap_set. reflexivity.
  - intros n b c. cbn [compile_instr]. unfold compile_parameter.
    cbn [rstate c_params]. rewrite !rmap_get, rmap_length, rmap_filter. destruct (mget (nm n) (c_params V W c)); [reflexivity|].
    cbn [rout]. unfold rstate. cbn. rewrite rmap_set. reflexivity.
  - intros x v IH c. rewrite !compile_instr_assign, IH. destruct (compile_value V W nm mods v c); cbn [bind rout]; auto.
    f_equal. unfold compile_assign, rstate. cbn. rewrite rmap_get, rmap_set. reflexivity.
  - intros x t a c. cbn [compile_instr]. unfold compile_attachment, compile_attachment_value.
    cbn [rstate c_values c_apps c_params]. rewrite !rmap_get.
    destruct (mget (nm x) (c_values V W c)) as [v|]; [|destruct (mget (nm x) (c_params V W c)) as [p|]; [destruct (p_input p)|]];
      cbn [bind rout]; auto; destruct (mget (nm a) (c_apps V W c)) as [[i m atts]|]; cbn [rout]; auto;
      unfold rstate; cbn; rewrite rmap_set; reflexivity.
  - intros a c. cbn [compile_instr]. unfold compile_execution. cbn [rstate c_apps]. rewrite rmap_get.
    destruct (mget (nm a) (c_apps V W c)); reflexivity.
  - intros y c. cbn [compile_value rstate c_params]. rewrite rmap_get. reflexivity.
  - reflexivity.
  - intros l F c. rewrite !compile_value_instrs', rename_finish by assumption. reflexivity.
  - intros a c. cbn [compile_value rstate c_apps]. rewrite rmap_get. reflexivity.
Qed.

Theorem rename_compile : forall l, compile V W nm' mods l = compile V W nm mods l.
Proof. intros l. apply rename_finish. apply Forall_forall. intros. apply rename_instr. Qed.

End Names.
End Interp.

(** ** The number of module calls *)

(** The world counts calls; the module adds one and returns nothing. *)
Definition counter : module unit nat := mk_module unit nat 0 (fun _ w => (Ok tt, S w)).

Definition nth_name (n : nat) : bytes := repeat x61 n.

(** Application [n + 1] gets the variable [n] twice, and the variable [n + 1] is its result. *)
Definition doubling_step (n : nat) : list sinstr :=
  [SApp (nth_name (S n)) []; SAttach (nth_name n) 0 (nth_name (S n)); SAttach (nth_name n) 1 (nth_name (S n));
   SAssign (nth_name (S n)) (SVExec (nth_name (S n)))].

Fixpoint doubling (n : nat) : list sinstr :=
  match n with
  | O => [SModule [] 0; SApp (nth_name 0) []; SAssign (nth_name 0) (SVExec (nth_name 0))]
  | S n' => doubling n' ++ doubling_step n'
  end.

Lemma doubling_length : forall n, length (doubling n) = 4 * n + 3.
Proof. induction n; cbn [doubling]; [reflexivity|]. rewrite app_length, IHn. cbn. lia. Qed.

Fixpoint dvalue (n : nat) : value unit nat :=
  match n with
  | O => PExec unit nat (PApp unit nat 0 counter [])
  | S n' => PExec unit nat (PApp unit nat (S n') counter [(dvalue n', 0); (dvalue n', 1)])
  end.

Lemma nth_name_eqb : forall a b, bytes_eqb (nth_name a) (nth_name b) = (a =? b).
Proof.
  induction a as [|a IH]; intros [|b]; cbn; auto.
Qed.

Lemma doubling_compiles : forall n, exists c,
  compile_list unit nat (fun b => b) [counter] (doubling n) (c_empty unit nat) = Ok c /\
  mget [] (c_modules unit nat c) = Some counter /\
  (forall k, n < k -> mget (nth_name k) (c_apps unit nat c) = None) /\
  length (c_apps unit nat c) = S n /\
  mget (nth_name n) (c_values unit nat c) = Some (dvalue n) /\
  exists l, c_instrs unit nat c = l ++ [IValue unit nat (dvalue n)].
Proof.
  induction n as [|n (c & E & M & A & L & G & l & I)].
  - eexists. split; [reflexivity|]. cbn. split; auto. split.
    + intros [|k] K; [lia|reflexivity].
    + split; auto. split; auto. exists []. reflexivity.
  - cbn [doubling]. rewrite compile_list_app, E. cbn [bind]. unfold doubling_step.
    cbn [compile_list compile_instr]. unfold compile_application. rewrite (A (S n)) by lia. rewrite M. cbn [bind].
    unfold compile_attachment, compile_attachment_value. cbn [c_values c_apps]. rewrite G. cbn [bind].
    rewrite mget_mset, bytes_eqb_refl. cbn [bind c_values c_apps c_modules c_params c_outputs c_instrs].
    rewrite G. cbn [bind]. rewrite mget_mset, bytes_eqb_refl.
    cbn [bind c_values c_apps c_modules c_params c_outputs c_instrs]. cbn [compile_value c_apps].
    rewrite mget_mset, bytes_eqb_refl. cbn [bind].
    eexists. split; [reflexivity|]. unfold compile_assign. cbn [c_values c_apps c_modules c_instrs].
    split; auto. split; [|split; [|split]].
    + intros k K. rewrite !mget_mset, nth_name_eqb. destruct (k =? S n) eqn:B; [apply Nat.eqb_eq in B; lia|].
      apply A. lia.
    + assert (X : forall (a b : application unit nat) m, length (mset (nth_name (S n)) a (mset (nth_name (S n)) b m)) = length (mset (nth_name (S n)) b m)).
      { intros a b m. induction m as [|[k0 x] m IHm]; cbn [mset length]; [rewrite bytes_eqb_refl; reflexivity|].
        destruct (bytes_eqb (nth_name (S n)) k0) eqn:B; cbn [mset length]; rewrite B; cbn [length]; auto. }
      rewrite !X. rewrite mset_new by (apply A; lia). rewrite app_length, L. cbn. lia.
    + rewrite mget_mset, bytes_eqb_refl, L. reflexivity.
    + eexists. rewrite L. reflexivity.
Qed.

(** Evaluating the variable [n] makes 2^(n+1) - 1 calls. *)
Lemma dvalue_calls : forall vb vl input n w,
  exec_value unit vb vl nat input (dvalue n) w = (Ok tt, w + (2 ^ S n - 1)).
Proof.
  intros vb vl input. induction n as [|n IH]; intros w.
  - cbn. f_equal. lia.
  - change (exec_value unit vb vl nat input (dvalue (S n)) w) with
      (exec_app unit vb vl nat input (PApp unit nat (S n) counter [(dvalue n, 0); (dvalue n, 1)]) w).
    rewrite exec_app_eq. cbn [exec_atts]. unfold seq. rewrite IH. rewrite IH. cbn [ret m_fn counter]. f_equal.
    assert (P : 2 ^ S n <> 0) by (apply Nat.pow_nonzero; lia).
    change (2 ^ S (S n)) with (2 * 2 ^ S n). generalize dependent (2 ^ S n). intros. lia.
Qed.

Lemma counter_total : forall vb vl input l vals w,
  Forall (fun i => exists v, i = IValue unit nat v /\ forall w, exists w', exec_value unit vb vl nat input v w = (Ok tt, w') /\ w <= w') l ->
  exists vals' w', exec_instrs unit vb vl nat input l vals w = (Ok vals', w') /\ w <= w'.
Proof.
  intros vb vl input l vals w F. revert vals w. induction F as [|i l (v & -> & P) F IH]; intros vals w.
  - exists vals, w. split; [reflexivity|lia].
  - rewrite exec_instrs_cons. rewrite exec_instr_value. unfold seq. destruct (P w) as (w1 & E & L). rewrite E. cbn [ret].
    destruct (IH (vals ++ [Some tt]) w1) as (vals' & w' & E' & L'). exists vals', w'. split; [exact E'|lia].
Qed.

Lemma doubling_instrs : forall n c,
  compile_list unit nat (fun b => b) [counter] (doubling n) (c_empty unit nat) = Ok c ->
  c_instrs unit nat c = map (fun k => IValue unit nat (dvalue k)) (List.seq 0 (S n)) /\ c_outputs unit nat c = [].
Proof.
  induction n as [|n IH]; intros c E.
  - cbn in E. injection E as <-. split; reflexivity.
  - destruct (doubling_compiles n) as (c0 & E0 & M & A & L & G & _). destruct (IH c0 E0) as [I O].
    cbn [doubling] in E. rewrite compile_list_app, E0 in E. cbn [bind] in E. unfold doubling_step in E.
    cbn [compile_list compile_instr] in E. unfold compile_application in E. rewrite (A (S n)) in E by lia.
    rewrite M in E. cbn [bind] in E.
    unfold compile_attachment, compile_attachment_value in E. cbn [c_values c_apps] in E. rewrite G in E. cbn [bind] in E.
    rewrite mget_mset, bytes_eqb_refl in E. cbn [bind c_values c_apps c_modules c_params c_outputs c_instrs] in E.
    rewrite G in E. cbn [bind] in E. rewrite mget_mset, bytes_eqb_refl in E.
    cbn [bind c_values c_apps c_modules c_params c_outputs c_instrs] in E. cbn [compile_value c_apps] in E.
    rewrite mget_mset, bytes_eqb_refl in E. cbn [bind] in E. injection E as <-.
    unfold compile_assign. cbn [c_instrs c_outputs c_params].
    assert (P : c_params unit nat c0 = []).
    { clear - E0. revert c0 E0. induction n as [|n IHn]; intros c0 E0.
      - cbn in E0. injection E0 as <-. reflexivity.
      - destruct (doubling_compiles n) as (c1 & E1 & M & A & L & G & _).
        cbn [doubling] in E0. rewrite compile_list_app, E1 in E0. cbn [bind] in E0. unfold doubling_step in E0.
        cbn [compile_list] in E0.
        apply bind_Ok_inv in E0. destruct E0 as (c2 & X2 & E0). apply compile_instr_inv in X2. destruct X2 as (? & _ & _ & ->).
        apply bind_Ok_inv in E0. destruct E0 as (c3 & X3 & E0). apply compile_instr_inv in X3. destruct X3 as (? & ? & ? & ? & _ & _ & ->).
        apply bind_Ok_inv in E0. destruct E0 as (c4 & X4 & E0). apply compile_instr_inv in X4. destruct X4 as (? & ? & ? & ? & _ & _ & ->).
        apply bind_Ok_inv in E0. destruct E0 as (c5 & X5 & E0). apply compile_instr_inv in X5. destruct X5 as (? & _ & ->).
        injection E0 as <-. cbn. apply IHn. exact E1. }
    rewrite P, O, I. cbn [mget]. split; [|reflexivity].
    rewrite (seq_S (S n) 0), map_app. cbn [map plus]. rewrite L. reflexivity.
Qed.

Theorem doubling_calls : forall n, exists p,
  compile unit nat (fun b => b) [counter] (doubling n) = Ok p /\
  exists calls, execute unit (fun _ => tt) (fun _ => tt) nat [] p 0 = (Ok [], calls) /\ 2 ^ n <= calls.
Proof.
  intros n. destruct (doubling_compiles n) as (c & E & _). destruct (doubling_instrs n c E) as [I O].
  exists (Prog unit nat (c_instrs unit nat c) (c_outputs unit nat c)). split.
  - unfold compile. rewrite E. cbn [bind]. unfold finish. rewrite I. reflexivity.
  - rewrite I, O. unfold execute. rewrite exec_prog_eq. rewrite (seq_S n 0), map_app. cbn [map plus].
    unfold InterpModel.seq at 1. rewrite exec_instrs_app. unfold InterpModel.seq at 1.
    destruct (counter_total (fun _ => tt) (fun _ => tt) [] (map (fun k => IValue unit nat (dvalue k)) (List.seq 0 n)) [] 0) as (vals & w & X & L).
    { apply Forall_forall. intros i Hi. apply in_map_iff in Hi. destruct Hi as (k & <- & _). exists (dvalue k). split; auto.
      intros w. exists (w + (2 ^ S k - 1)). split; [apply dvalue_calls|lia]. }
    rewrite X. rewrite exec_instrs_value. unfold InterpModel.seq. rewrite dvalue_calls. cbn [ret select].
    eexists. split; [reflexivity|].
    assert (2 ^ n <> 0) by (apply Nat.pow_nonzero; lia). change (2 ^ S n) with (2 * 2 ^ n). lia.
Qed.

(** ** A call with attached inputs *)
Section Call.
Variable V : Type.
Variable vbytes : bytes -> V.
Variable vlist : list V -> V.
Variable W : Type.
Variable nm : bytes -> bytes.
Variable again : bool.
Variable mods : list (module V W).
Variable input : list V.

Notation run_list := (run_list V vbytes vlist W nm again mods input).

Lemma run_list_app : forall l1 l2 s w,
  run_list (l1 ++ l2) s w = seq W (run_list l1 s) (run_list l2) w.
Proof.
  induction l1 as [|i l1 IH]; intros l2 s w; cbn [app SpecInterp.run_list].
  - symmetry. apply ret_seq.
  - rewrite seq_assoc. unfold seq. destruct (run_instr V vbytes vlist W nm again mods input i s w) as [[s'| | |] w']; auto.
    apply IH.
Qed.

Lemma run_params : forall ys s w,
  run_list (map (fun y => SParam y true) ys) s w =
  (Ok (mk_scope V W (s_mod V W s) (s_app V W s) (s_in V W s ++ map nm ys) (s_out V W s) (s_var V W s) (s_results V W s)), w).
Proof.
  induction ys as [|y ys IH]; intros s w; cbn [map SpecInterp.run_list].
  - rewrite app_nil_r. destruct s; reflexivity.
  - unfold seq. cbn [run_instr]. unfold ret at 1. rewrite IH. cbn. rewrite <- app_assoc. reflexivity.
Qed.

Lemma run_attaches : forall a m ys atts s done,
  s_app V W s (nm a) = Some (m, done) -> (forall k, s_var V W s k = None) ->
  exists s', s_app V W s' (nm a) =
      Some (m, done ++ map (fun jt => (snd jt, read V W input s (nm (nth (fst jt) ys [])))) atts) /\
    s_in V W s' = s_in V W s /\ s_out V W s' = s_out V W s /\ s_results V W s' = s_results V W s /\
    forall w, run_list (map (fun jt => SAttach (nth (fst jt) ys []) (snd jt) a) atts) s w = (Ok s', w).
Proof.
  intros a m ys. induction atts as [|[j t] atts IH]; intros s done A N.
  - exists s. cbn. rewrite app_nil_r. auto.
  - set (s1 := mk_scope V W (s_mod V W s)
      (bound (nm a) (m, done ++ [(t, read V W input s (nm (nth j ys [])))]) (s_app V W s))
      (s_in V W s) (s_out V W s) (s_var V W s) (s_results V W s)).
    destruct (IH s1 (done ++ [(t, read V W input s (nm (nth j ys [])))])) as (s' & A' & I & O & R & E).
    + unfold s1. cbn. unfold bound. rewrite bytes_eqb_refl. reflexivity.
    + exact N.
    + exists s'. rewrite A'. split; [|repeat (split; auto)].
      * cbn [map fst snd]. rewrite <- app_assoc. reflexivity.
      * intros w. cbn [map SpecInterp.run_list fst snd]. unfold seq. cbn [run_instr]. rewrite A, N.
        unfold ret at 1. apply E.
Qed.

Lemma position_nth : forall l j, NoDup l -> j < length l -> position (nth j l []) l = Some j.
Proof.
  induction l as [|k l IH]; intros j D L; cbn in L; [lia|]. inversion D as [|? ? N D']. subst.
  destruct j as [|j]; cbn [nth position].
  - rewrite bytes_eqb_refl. reflexivity.
  - destruct (bytes_eqb (nth j l []) k) eqn:E.
    + apply bytes_eqb_true in E. exfalso. apply N. rewrite <- E. apply nth_In. lia.
    + rewrite IH by (auto; lia). reflexivity.
Qed.

Lemma arguments_read : forall ys (s : scope V W) atts xs, NoDup (map nm ys) -> s_in V W s = map nm ys ->
  Forall (fun jt : nat * nat => fst jt < length ys) atts ->
  Forall2 (fun jt x => nth_error input (fst jt) = Some x) atts xs ->
  forall w, arguments V W (map (fun jt => (snd jt, read V W input s (nm (nth (fst jt) ys [])))) atts) w =
    (Ok (combine (map snd atts) xs), w).
Proof.
  intros ys s atts xs D I J F. induction F as [|[j t] x atts xs X F IH]; intros w; cbn [map fst snd arguments combine]; [reflexivity|].
  inversion J as [|? ? J1 J2]. subst. cbn [fst] in J1, X. unfold seq at 1, read at 1. rewrite I.
  replace (position (nm (nth j ys [])) (map nm ys)) with (Some j).
  - rewrite X. unfold ret at 1, seq at 1. rewrite IH by assumption. reflexivity.
  - symmetry. assert (Z : nm (nth j ys []) = nth j (map nm ys) []).
    { rewrite (nth_indep (map nm ys) [] (nm [])) by (rewrite map_length; exact J1). symmetry. apply map_nth. }
    rewrite Z. apply position_nth; auto. rewrite map_length. exact J1.
Qed.

Lemma last_of_combine : forall atts xs t v,
  Forall2 (fun (jt : nat * nat) x => nth_error input (fst jt) = Some x) atts xs ->
  (last_of t v (combine (map snd atts) xs) <->
   exists l1 j l2, atts = l1 ++ (j, t) :: l2 /\ ~ In t (map snd l2) /\ nth_error input j = Some v).
Proof.
  intros atts xs t v F.
  induction F as [|[j k] x atts xs X F IH]; cbn [map snd combine].
  - split; [intros (l1 & l2 & E & _) | intros (l1 & j & l2 & E & _)]; destruct l1; discriminate.
  - assert (K : map fst (combine (map snd atts) xs) = map snd atts).
    { clear - F. induction F; cbn; congruence. }
    cbn [fst] in X. split.
    + intros (l1 & l2 & E & N). destruct l1 as [|y l1]; cbn in E; injection E.
      * intros <- -> ->. exists [], j, atts. rewrite K in N. auto.
      * intros E' _. destruct IH as [IH _]. destruct IH as (m1 & j' & m2 & -> & N' & X'); [exists l1, l2; auto|].
        exists ((j, k) :: m1), j', m2. auto.
    + intros (m1 & j' & m2 & E & N & X'). destruct m1 as [|y m1]; cbn in E; injection E.
      * intros -> -> ->. exists [], (combine (map snd m2) xs). rewrite K. split; [|exact N]. cbn. congruence.
      * intros E' _. destruct IH as [_ IH]. destruct IH as (l1 & l2 & E'' & N'); [exists m1, j', m2; auto|].
        exists ((k, x) :: l1), l2. rewrite E''. auto.
Qed.

Lemma module_at_last : forall m mods1 mods2, mods = mods1 ++ m :: mods2 ->
  (forall m', In m' mods2 -> m_index V W m' <> m_index V W m) -> module_at V W mods (m_index V W m) = Some m.
Proof.
  intros m mods1 mods2 Em Hm. unfold module_at. rewrite Em, rev_app_distr. cbn [rev]. rewrite <- app_assoc, find_app.
  destruct (find (fun m0 => m_index V W m0 =? m_index V W m) (rev mods2)) as [m'|] eqn:E.
  - apply find_some in E. destruct E as [I E]. apply Nat.eqb_eq in E. apply in_rev in I. apply Hm in I. contradiction.
  - cbn. rewrite Nat.eqb_refl. reflexivity.
Qed.

Theorem call_inputs : forall m mods1 mods2 modname a out ys atts,
  mods = mods1 ++ m :: mods2 -> (forall m', In m' mods2 -> m_index V W m' <> m_index V W m) ->
  NoDup (map nm ys) -> length ys <= length input -> Forall (fun jt : nat * nat => fst jt < length ys) atts ->
  exists ps, StronglySorted lt (map fst ps) /\
    (forall t v, In (t, v) ps <->
       exists l1 j l2, atts = l1 ++ (j, t) :: l2 /\ ~ In t (map snd l2) /\ nth_error input j = Some v) /\
    forall w, interpret V vbytes vlist W nm again mods input
      ([SModule modname (m_index V W m); SApp a modname] ++ map (fun y => SParam y true) ys ++
       map (fun jt => SAttach (nth (fst jt) ys []) (snd jt) a) atts ++
       [SParam out false; SAssign out (SVExec a)]) w =
    seq W (m_fn V W m ps) (fun v => ret W [v]) w.
Proof.
  intros m mods1 mods2 modname a out ys atts Em Hm D L F.
  assert (X : exists xs, Forall2 (fun (jt : nat * nat) x => nth_error input (fst jt) = Some x) atts xs).
  { clear - F L. induction F as [|[j t] atts J F (xs & IH)]; [exists []; constructor|].
    destruct (nth_error input j) as [x|] eqn:E; [exists (x :: xs); constructor; auto|].
    apply nth_error_None in E. cbn in J. lia. }
  destruct X as (xs & X).
  exists (passed (combine (map snd atts) xs)).
  split; [apply passed_sorted|]. split; [intros t v; rewrite passed_in; apply last_of_combine; exact X|].
  intros w. unfold interpret.
  set (s2 := mk_scope V W (bound (nm modname) m (fun _ => None)) (bound (nm a) (m, []) (fun _ => None)) [] [] (fun _ => None) []).
  set (s3 := mk_scope V W (s_mod V W s2) (s_app V W s2) (s_in V W s2 ++ map nm ys) (s_out V W s2) (s_var V W s2) (s_results V W s2)).
  destruct (run_attaches a m ys atts s3 []) as (s4 & A & I & O & R & E4).
  { cbn. unfold bound. rewrite bytes_eqb_refl. reflexivity. }
  { reflexivity. }
  unfold seq at 1. rewrite run_list_app. unfold seq at 1.
  replace (run_list [SModule modname (m_index V W m); SApp a modname] (no_scope V W) w)
    with (@Ok (scope V W) s2, w).
  2:{ symmetry. cbn [SpecInterp.run_list]. unfold seq at 1. cbn [run_instr]. rewrite (module_at_last _ _ _ Em Hm).
      unfold ret at 1. unfold seq at 1. cbn [run_instr s_mod]. unfold bound at 1. rewrite bytes_eqb_refl. reflexivity. }
  rewrite run_list_app. unfold seq at 1. rewrite run_params. fold s3.
  rewrite run_list_app. unfold seq at 1. rewrite E4.
  cbn [SpecInterp.run_list]. unfold seq at 1. cbn [run_instr]. unfold ret at 1. unfold seq at 1.
  cbn [run_instr run_value]. unfold seq at 1 2. unfold call. cbn [s_app]. rewrite A. cbn [app].
  unfold seq at 1. rewrite (arguments_read ys s3 atts xs D eq_refl F X).
  unfold seq. destruct (m_fn V W m (passed (combine (map snd atts) xs)) w) as [[v| | |] w']; cbn; auto.
  rewrite O, R. cbn. rewrite bytes_eqb_refl. reflexivity.
Qed.
End Call.
