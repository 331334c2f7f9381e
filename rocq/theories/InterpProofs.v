(** Proofs about the interpreter: Execute after Compile is the direct interpretation. *)
From Coq Require Import List Arith Bool Lia Sorted.
From Verif Require Import Base BaseLemmas InterpModel SpecInterp.
Import ListNotations.

(** ** Argument maps *)
Section Args.
Context {A : Type}.

Lemma pset_in : forall k (a : A) m t v, StronglySorted lt (map fst m) ->
  (In (t, v) (pset k a m) <-> (t = k /\ v = a) \/ (t <> k /\ In (t, v) m)).
Proof.
  intros k a m t v S. induction m as [|[k' b] m IH]; cbn [pset].
  - cbn. split.
    + intros [E|[]]. injection E as <- <-. auto.
    + intros [[-> ->]|[_ []]]. auto.
  - cbn [map fst] in S. apply StronglySorted_inv in S. destruct S as [S F].
    assert (G : forall t' v', In (t', v') m -> k' < t').
    { intros t' v' I. rewrite Forall_forall in F. apply F. apply in_map_iff. exists (t', v'). auto. }
    destruct (k =? k') eqn:E1; [apply Nat.eqb_eq in E1; subst k'|].
    + cbn [In]. split.
      * intros [E|I]; [injection E as <- <-; auto|]. right. split; [|auto]. intros ->. apply G in I. lia.
      * intros [[-> ->]|[N [E|I]]]; auto. injection E as <- <-. congruence.
    + apply Nat.eqb_neq in E1. destruct (k <? k') eqn:E2.
      * apply Nat.ltb_lt in E2. cbn [In]. split.
        -- intros [E|[E|I]]; [injection E as <- <-; auto | injection E as <- <-; right; auto with arith|].
           right. split; [|auto]. intros ->. apply G in I. lia.
        -- intros [[-> ->]|[N [E|I]]]; auto.
      * cbn [In]. rewrite IH by assumption. split.
        -- intros [E|[?|[? ?]]]; [injection E as <- <-; right; auto | auto | auto].
        -- intros [?|[? [?|?]]]; auto.
Qed.

Lemma pset_keys : forall k (a : A) m x, In x (map fst (pset k a m)) -> x = k \/ In x (map fst m).
Proof.
  intros k a m x. induction m as [|[k' b] m IH]; cbn [pset].
  - cbn. intros [<-|[]]. auto.
  - destruct (k =? k') eqn:E1; [apply Nat.eqb_eq in E1; subst k'; cbn; intros [<-|?]; auto|].
    destruct (k <? k'); cbn; [intros [<-|[<-|?]]; auto|]. intros [<-|I]; auto. apply IH in I. destruct I; auto.
Qed.

Lemma pset_sorted : forall k (a : A) m, StronglySorted lt (map fst m) -> StronglySorted lt (map fst (pset k a m)).
Proof.
  intros k a m S. induction m as [|[k' b] m IH]; cbn [pset].
  - cbn. constructor; constructor.
  - cbn [map fst] in S. pose proof S as S0. apply StronglySorted_inv in S. destruct S as [S F].
    destruct (k =? k') eqn:E1; [apply Nat.eqb_eq in E1; subst k'; exact S0|]. apply Nat.eqb_neq in E1.
    destruct (k <? k') eqn:E2.
    + apply Nat.ltb_lt in E2. cbn [map fst]. constructor; auto. constructor; auto.
      eapply Forall_impl; [|exact F]. cbn. lia.
    + apply Nat.ltb_ge in E2. cbn [map fst]. constructor; auto.
      apply Forall_forall. intros x I. apply pset_keys in I. destruct I as [->|I]; [lia|].
      rewrite Forall_forall in F. auto.
Qed.

(** [(t, v)] is the last entry of [t] in [l]. *)
Definition last_of (t : nat) (v : A) (l : list (nat * A)) : Prop :=
  exists l1 l2, l = l1 ++ (t, v) :: l2 /\ ~ In t (map fst l2).

Lemma last_of_snoc : forall t v l k a,
  last_of t v (l ++ [(k, a)]) <-> (t = k /\ v = a) \/ (t <> k /\ last_of t v l).
Proof.
  intros t v l k a. split.
  - intros (l1 & l2 & E & N). destruct l2 as [|x l2 _] using rev_ind.
    + apply app_inj_tail in E. destruct E as [_ E]. injection E as <- <-. auto.
    + rewrite app_comm_cons, app_assoc in E. apply app_inj_tail in E. destruct E as [-> <-].
      rewrite map_app, in_app_iff in N. cbn in N. right. split; [intros ->; tauto|].
      exists l1, l2. split; auto.
  - intros [[-> ->]|[N (l1 & l2 & -> & M)]].
    + exists l, []. auto.
    + exists l1, (l2 ++ [(k, a)]). rewrite <- app_assoc. split; auto. rewrite map_app, in_app_iff. cbn.
      intros [?|[?|[]]]; auto.
Qed.

Lemma sorted_ext : forall l1 l2 : list (nat * A), StronglySorted lt (map fst l1) -> StronglySorted lt (map fst l2) ->
  (forall t v, In (t, v) l1 <-> In (t, v) l2) -> l1 = l2.
Proof.
  induction l1 as [|[t v] l1 IH]; intros l2 S1 S2 E.
  - destruct l2 as [|[t v] l2]; auto. exfalso. apply (E t v). left. reflexivity.
  - destruct l2 as [|[t' v'] l2]; [exfalso; apply (E t v); left; reflexivity|].
    cbn [map fst] in S1, S2. apply StronglySorted_inv in S1, S2. destruct S1 as [S1 F1], S2 as [S2 F2].
    rewrite Forall_forall in F1, F2.
    assert (G1 : forall x y, In (x, y) l1 -> t < x) by (intros x y I; apply F1; apply in_map_iff; exists (x, y); auto).
    assert (G2 : forall x y, In (x, y) l2 -> t' < x) by (intros x y I; apply F2; apply in_map_iff; exists (x, y); auto).
    assert (T : (t, v) = (t', v')).
    { destruct (proj1 (E t v) (or_introl eq_refl)) as [?|I]; [congruence|].
      destruct (proj2 (E t' v') (or_introl eq_refl)) as [?|J]; [congruence|].
      apply G2 in I. apply G1 in J. lia. }
    injection T as <- <-. f_equal. apply IH; auto. intros x y. split; intros I.
    + destruct (proj1 (E x y) (or_intror I)) as [K|?]; auto. injection K as <- <-. apply G1 in I. lia.
    + destruct (proj2 (E x y) (or_intror I)) as [K|?]; auto. injection K as <- <-. apply G2 in I. lia.
Qed.

Lemma last_at_of : forall t v (l : list (nat * A)), last_at t l = Some v <-> last_of t v l.
Proof.
  intros t v l. induction l as [|[k a] l IH] using rev_ind.
  - split; [discriminate|]. intros (l1 & l2 & E & _). destruct l1; discriminate.
  - rewrite last_of_snoc, <- IH. unfold last_at. rewrite rev_app_distr. cbn [rev app find fst].
    destruct (k =? t) eqn:E; [apply Nat.eqb_eq in E; subst k|apply Nat.eqb_neq in E].
    + cbn. split; [intros X; injection X as ->; auto|]. intros [[_ ->]|[N _]]; congruence.
    + split; [intros X; right; auto|]. intros [[-> _]|[_ X]]; congruence.
Qed.

Lemma passed_in : forall (l : list (nat * A)) t v, In (t, v) (passed l) <-> last_of t v l.
Proof.
  intros l t v. unfold passed. rewrite in_flat_map, <- last_at_of. split.
  - intros (x & _ & I). destruct (last_at x l) eqn:E; [|destruct I]. destruct I as [I|[]]. injection I as <- <-. exact E.
  - intros E. exists t. rewrite E. split; [|left; reflexivity]. apply in_seq. split; [lia|].
    apply last_at_of in E. destruct E as (l1 & l2 & -> & _).
    assert (K : Forall (fun k => k <= list_max (map fst (l1 ++ (t, v) :: l2))) (map fst (l1 ++ (t, v) :: l2)))
      by (apply list_max_le; lia).
    rewrite Forall_forall in K. specialize (K t). rewrite map_app, in_app_iff in K. cbn in K.
    specialize (K (or_intror (or_introl eq_refl))). rewrite map_app. cbn. lia.
Qed.

Lemma passed_sorted : forall l : list (nat * A), StronglySorted lt (map fst (passed l)).
Proof.
  intros l. unfold passed. generalize (S (list_max (map fst l))). intros n. generalize 0.
  induction n as [|n IH]; intros s; cbn [List.seq flat_map map]; [constructor|].
  rewrite map_app. destruct (last_at s l) as [v|]; [|apply IH]. cbn [map fst app]. constructor; [apply IH|].
  apply Forall_forall. intros x I. apply in_map_iff in I. destruct I as ([y w] & <- & I).
  apply in_flat_map in I. destruct I as (z & I & J). apply in_seq in I. destruct (last_at z l); [|destruct J].
  destruct J as [J|[]]. injection J as <- <-. cbn. lia.
Qed.

Lemma passed_snoc : forall (l : list (nat * A)) k a, passed (l ++ [(k, a)]) = pset k a (passed l).
Proof.
  intros l k a. apply sorted_ext; [apply passed_sorted | apply pset_sorted, passed_sorted|].
  intros t v. rewrite pset_in by apply passed_sorted. rewrite !passed_in, last_of_snoc. reflexivity.
Qed.

End Args.

(** ** Induction on instructions and the programs inside them *)
Section SourceInd.
Variable P : sinstr -> Prop.
Variable Q : svalue -> Prop.
Hypothesis Hmodule : forall n k, P (SModule n k).
Hypothesis Happ : forall n m, P (SApp n m).
Hypothesis Hparam : forall n b, P (SParam n b).
Hypothesis Hassign : forall x v, Q v -> P (SAssign x v).
Hypothesis Hattach : forall x t a, P (SAttach x t a).
Hypothesis Hexec : forall a, P (SExec a).
Hypothesis Hvar : forall y, Q (SVVar y).
Hypothesis Hconst : forall c, Q (SVConst c).
Hypothesis Hinstrs : forall l, Forall P l -> Q (SVInstrs l).
Hypothesis Hvexec : forall a, Q (SVExec a).

Fixpoint sinstr_all (i : sinstr) : P i :=
  match i with
  | SModule n k => Hmodule n k
  | SApp n m => Happ n m
  | SParam n b => Hparam n b
  | SAssign x v => Hassign x v (svalue_all v)
  | SAttach x t a => Hattach x t a
  | SExec a => Hexec a
  end
with svalue_all (v : svalue) : Q v :=
  match v with
  | SVVar y => Hvar y
  | SVConst c => Hconst c
  | SVInstrs l =>
      Hinstrs l ((fix go (l : list sinstr) : Forall P l :=
                    match l with
                    | [] => Forall_nil P
                    | i :: l' => Forall_cons i (sinstr_all i) (go l')
                    end) l)
  | SVExec a => Hvexec a
  end.

Lemma sinstrs_all : forall l, Forall P l.
Proof. induction l; constructor; auto using sinstr_all. Qed.
End SourceInd.

(** ** Maps *)
Section MapLemmas.
Context {A : Type}.

Lemma bytes_eqb_sym : forall a b, bytes_eqb a b = bytes_eqb b a.
Proof.
  intros a b. destruct (bytes_eqb a b) eqn:E.
  - apply bytes_eqb_true in E. subst. symmetry. apply bytes_eqb_refl.
  - destruct (bytes_eqb b a) eqn:E2; auto.
    apply bytes_eqb_true in E2. subst. rewrite bytes_eqb_refl in E. discriminate.
Qed.

Lemma mget_mset : forall k (a : A) m k',
  mget k' (mset k a m) = if bytes_eqb k' k then Some a else mget k' m.
Proof.
  intros k a. induction m as [|[k0 b] m IH]; intros k'; cbn [mset mget].
  - reflexivity.
  - destruct (bytes_eqb k k0) eqn:E; cbn [mget].
    + apply bytes_eqb_true in E. subst k0. destruct (bytes_eqb k' k); reflexivity.
    + destruct (bytes_eqb k' k0) eqn:E2.
      * apply bytes_eqb_true in E2. subst k0. rewrite bytes_eqb_sym, E. reflexivity.
      * apply IH.
Qed.

Lemma mset_new : forall k (a : A) m, mget k m = None -> mset k a m = m ++ [(k, a)].
Proof.
  intros k a. induction m as [|[k0 b] m IH]; intros H; cbn [mset app]; auto.
  cbn [mget] in H. destruct (bytes_eqb k k0) eqn:E; [discriminate|].
  rewrite IH by assumption. reflexivity.
Qed.
End MapLemmas.

Section Interp.
Variable V : Type.
Variable vbytes : bytes -> V.
Variable vlist : list V -> V.
Variable W : Type.
Variable nm : bytes -> bytes.

Notation comp := (comp W).
Notation module := (module V W).
Notation cstate := (cstate V W).
Notation value := (value V W).
Notation instr := (instr V W).

(** ** Computations *)
Definition ceq {A} (m1 m2 : comp A) : Prop := forall w, m1 w = m2 w.

Lemma seq_ceq : forall A B (m1 m2 : comp A) (f1 f2 : A -> comp B),
  ceq m1 m2 -> (forall a, ceq (f1 a) (f2 a)) -> ceq (seq W m1 f1) (seq W m2 f2).
Proof.
  intros A B m1 m2 f1 f2 E F w. unfold seq. rewrite E. destruct (m2 w) as [[a| | |] w']; auto. apply F.
Qed.

Lemma seq_assoc : forall A B C (m : comp A) (f : A -> comp B) (g : B -> comp C) w,
  seq W (seq W m f) g w = seq W m (fun a => seq W (f a) g) w.
Proof. intros. unfold seq. destruct (m w) as [[a| | |] w']; auto. Qed.

Lemma seq_ret : forall A (m : comp A) w, seq W m (ret W) w = m w.
Proof. intros. unfold seq, ret. destruct (m w) as [[a| | |] w']; auto. Qed.

Lemma ret_seq : forall A B (a : A) (f : A -> comp B) w, seq W (ret W a) f w = f a w.
Proof. reflexivity. Qed.

(** ** Unfolding the nested loops *)
Section Loops.
Variable input : list V.

Fixpoint exec_atts (atts : list (value * nat)) (ps : list (nat * V)) : comp (list (nat * V)) :=
  match atts with
  | [] => ret W ps
  | (v, local) :: atts' =>
      seq W (exec_value V vbytes vlist W input v) (fun x => exec_atts atts' (pset local x ps))
  end.

Fixpoint exec_instrs (l : list instr) (vals : list (option V)) : comp (list (option V)) :=
  match l with
  | [] => ret W vals
  | i :: l' =>
      seq W (exec_instr V vbytes vlist W input i) (fun x => exec_instrs l' (vals ++ [x]))
  end.

End Loops.

Lemma exec_app_eq : forall input i m atts,
  exec_app V vbytes vlist W input (PApp V W i m atts) = seq W (exec_atts input atts []) (m_fn V W m).
Proof. reflexivity. Qed.

Lemma exec_prog_eq : forall input l outs,
  exec_prog V vbytes vlist W input (Prog V W l outs) =
  seq W (exec_instrs input l []) (fun vals w => (select V vals outs, w)).
Proof. reflexivity. Qed.

Lemma exec_value_prog : forall input p,
  exec_value V vbytes vlist W input (PProg V W p) =
  seq W (exec_prog V vbytes vlist W input p) (fun l => ret W (vlist l)).
Proof. reflexivity. Qed.

Lemma compile_value_instrs : forall mods l c,
  compile_value V W nm mods (SVInstrs l) c =
  (do c' <- compile_list V W nm mods l (c_empty V W);
   do p <- finish V W c';
   Ok (PProg V W p)).
Proof.
  intros mods l c. cbn [compile_value].
  assert (G : forall l c0,
    (fix go (l : list sinstr) (c : cstate) : outcome cstate :=
       match l with
       | [] => Ok c
       | i :: l' => do c' <- compile_instr V W nm mods i c; go l' c'
       end) l c0 = compile_list V W nm mods l c0).
  { clear. induction l as [|i l IH]; intros c0; cbn [compile_list]; [reflexivity|].
    destruct (compile_instr V W nm mods i c0); cbn [bind]; auto. }
  rewrite G. reflexivity.
Qed.

Lemma compile_value_instrs' : forall mods l c,
  compile_value V W nm mods (SVInstrs l) c =
  (do p <- compile V W nm mods l; Ok (PProg V W p)).
Proof.
  intros. rewrite compile_value_instrs. unfold compile.
  destruct (compile_list V W nm mods l (c_empty V W)); reflexivity.
Qed.

Lemma run_value_instrs : forall again mods input l s,
  run_value V vbytes vlist W nm again mods input (SVInstrs l) s =
  seq W (run_list V vbytes vlist W nm again mods input l (no_scope V W)) (fun s' => ret W (vlist (s_results V W s'))).
Proof. reflexivity. Qed.

Lemma run_instr_assign : forall again mods input x v s,
  run_instr V vbytes vlist W nm again mods input (SAssign x v) s =
  seq W (run_value V vbytes vlist W nm again mods input v s) (fun a =>
        ret W (mk_scope V W (s_mod V W s) (s_app V W s) (s_in V W s) (s_out V W s)
                        (bound (nm x) (if again then run_value V vbytes vlist W nm again mods input v s else ret W a) (s_var V W s))
                        (if among (nm x) (s_out V W s) then s_results V W s ++ [a] else s_results V W s))).
Proof. reflexivity. Qed.

Lemma exec_instrs_value : forall input v vals w,
  exec_instrs input [IValue V W v] vals w =
  seq W (exec_value V vbytes vlist W input v) (fun x => ret W (vals ++ [Some x])) w.
Proof. intros. cbn [exec_instrs exec_instr]. rewrite seq_assoc. reflexivity. Qed.

Lemma exec_instrs_exec : forall input a vals w,
  exec_instrs input [IExec V W a] vals w =
  seq W (exec_app V vbytes vlist W input a) (fun _ => ret W (vals ++ [None])) w.
Proof. intros. cbn [exec_instrs exec_instr]. rewrite seq_assoc. reflexivity. Qed.

Lemma exec_instrs_app : forall input l1 l2 vals w,
  exec_instrs input (l1 ++ l2) vals w =
  seq W (exec_instrs input l1 vals) (exec_instrs input l2) w.
Proof.
  intros input l1 l2. induction l1 as [|i l1 IH]; intros vals w; cbn [exec_instrs app].
  - reflexivity.
  - rewrite seq_assoc. apply seq_ceq; [intro; reflexivity|]. intros a w'. apply IH.
Qed.

Lemma exec_instrs_vals : forall input l vals w vals' w',
  exec_instrs input l vals w = (Ok vals', w') -> exists r, vals' = vals ++ r /\ length r = length l.
Proof.
  intros input l. induction l as [|i l IH]; intros vals w vals' w' E; cbn [exec_instrs] in E.
  - injection E as <- <-. exists []. rewrite app_nil_r. auto.
  - unfold seq in E. destruct (exec_instr V vbytes vlist W input i w) as [[a| | |] w1]; try discriminate.
    apply IH in E. destruct E as (r & -> & L). exists (a :: r). rewrite <- app_assoc. cbn. auto.
Qed.

(** ** Modules *)
Lemma find_app : forall A (f : A -> bool) l1 l2,
  find f (l1 ++ l2) = match find f l1 with Some a => Some a | None => find f l2 end.
Proof.
  intros A f l1 l2. induction l1 as [|a l1 IH]; cbn [find app]; auto. destruct (f a); auto.
Qed.

Lemma fetch_module_at : forall mods k, fetch_module V W mods k = module_at V W mods k.
Proof.
  intros mods k. unfold module_at. induction mods as [|m mods IH]; [reflexivity|].
  cbn [fetch_module rev]. rewrite find_app, <- IH. destruct (fetch_module V W mods k); auto.
Qed.

Lemma fetch_module_in : forall mods k m,
  fetch_module V W mods k = Some m -> In m mods /\ m_index V W m = k.
Proof.
  intros mods k m E. rewrite fetch_module_at in E. unfold module_at in E.
  apply find_some in E. destruct E as [I E]. apply in_rev in I. apply Nat.eqb_eq in E. auto.
Qed.

Lemma fetch_module_some : forall mods k,
  (exists m, In m mods /\ m_index V W m = k) <-> (exists m, fetch_module V W mods k = Some m).
Proof.
  intros mods k. split.
  - intros (m & I & E). destruct (fetch_module V W mods k) as [m'|] eqn:F; [eauto|].
    rewrite fetch_module_at in F. unfold module_at in F.
    pose proof (find_none _ _ F m (proj1 (in_rev mods m) I)) as N.
    cbn beta in N. rewrite E, Nat.eqb_refl in N. discriminate.
  - intros (m & F). exists m. apply fetch_module_in. exact F.
Qed.

(** ** Positions *)
Lemma position_app : forall k l x,
  position k (l ++ [x]) =
  match position k l with
  | Some n => Some n
  | None => if bytes_eqb k x then Some (length l) else None
  end.
Proof.
  intros k l x. induction l as [|y l IH]; cbn [position app length].
  - destruct (bytes_eqb k x); reflexivity.
  - destruct (bytes_eqb k y); auto. rewrite IH. destruct (position k l); cbn; auto.
    destruct (bytes_eqb k x); reflexivity.
Qed.

Lemma among_app : forall k l x, among k (l ++ [x]) = (among k l || bytes_eqb k x)%bool.
Proof. intros. unfold among. rewrite existsb_app. cbn. rewrite orb_false_r. reflexivity. Qed.

(** ** Purity of the specification *)
Section Sim.
Variable again : bool.
Variable mods : list module.
Variable input : list V.

Notation exec_value := (exec_value V vbytes vlist W input).
Notation exec_instrs := (exec_instrs input).
Notation run_value := (run_value V vbytes vlist W nm again mods input).
Notation run_instr := (run_instr V vbytes vlist W nm again mods input).
Notation run_list := (run_list V vbytes vlist W nm again mods input).
Notation scope := (scope V W).

(** The result of a pure computation does not depend on the world, which it leaves unchanged. *)
Definition cpure {A} (m : comp A) : Prop := exists o, forall w, m w = (o, w).

Lemma cpure_ret : forall A (a : A), cpure (ret W a).
Proof. intros. exists (Ok a). reflexivity. Qed.

Lemma cpure_fail : forall A, cpure (@fail W A).
Proof. intros. exists Err. reflexivity. Qed.

Lemma cpure_seq : forall A B (m : comp A) (f : A -> comp B),
  cpure m -> (forall a, (forall w, m w = (Ok a, w)) -> cpure (f a)) -> cpure (seq W m f).
Proof.
  intros A B m f [o E] F. destruct o as [a| | |].
  - destruct (F a E) as [o' E']. exists o'. intros w. unfold seq. rewrite E. apply E'.
  - exists Err. intros w. unfold seq. rewrite E. reflexivity.
  - exists Panic. intros w. unfold seq. rewrite E. reflexivity.
  - exists Fuel. intros w. unfold seq. rewrite E. reflexivity.
Qed.

Lemma cpure_at : forall A (m : comp A) w o w', cpure m -> m w = (o, w') -> ceq m (fun w => (o, w)).
Proof.
  intros A m w o w' [o' E] F. rewrite E in F. injection F as -> ->. exact E.
Qed.

Record pure_scope (s : scope) : Prop := {
  ps_mod : forall k m, s_mod V W s k = Some m -> pure m;
  ps_app : forall k m atts, s_app V W s k = Some (m, atts) -> pure m /\ Forall (fun td => cpure (snd td)) atts;
  ps_var : forall k d, s_var V W s k = Some d -> cpure d
}.

Lemma pure_no_scope : pure_scope (no_scope V W).
Proof. split; intros; discriminate. Qed.

Lemma arguments_pure : forall atts, Forall (fun td : nat * comp V => cpure (snd td)) atts ->
  cpure (arguments V W atts).
Proof.
  induction 1 as [|[t d] atts P F IH]; cbn [arguments].
  - apply cpure_ret.
  - apply cpure_seq; auto. intros x _. apply cpure_seq; auto. intros l _. apply cpure_ret.
Qed.

Lemma call_pure : forall s a, pure_scope s -> cpure (call V W s a).
Proof.
  intros s a P. unfold call. destruct (s_app V W s a) as [[m atts]|] eqn:E; [|apply cpure_fail].
  destruct (ps_app _ P _ _ _ E) as [[f F] A].
  apply cpure_seq; [apply arguments_pure; assumption|].
  intros l _. exists (f (passed l)). intros w. apply F.
Qed.

Lemma read_pure : forall s y, cpure (read V W input s y).
Proof.
  intros. unfold read. destruct (position y (s_in V W s)) as [n|]; [|apply cpure_fail].
  destruct (nth_error input n); [apply cpure_ret | apply cpure_fail].
Qed.

(** Running a list keeps scopes pure, and is itself pure. *)
Definition pure_run (m : comp scope) : Prop :=
  exists o, (forall w, m w = (o, w)) /\ (forall s', o = Ok s' -> pure_scope s').

Lemma pure_run_fail : pure_run (fail W).
Proof. exists Err. split; [reflexivity|discriminate]. Qed.

Lemma pure_run_ret : forall s, pure_scope s -> pure_run (ret W s).
Proof. intros s P. exists (Ok s). split; [reflexivity|]. intros s' E. injection E as <-. exact P. Qed.

Lemma pure_run_seq : forall A (m : comp A) (f : A -> comp scope),
  cpure m -> (forall a, (forall w, m w = (Ok a, w)) -> pure_run (f a)) -> pure_run (seq W m f).
Proof.
  intros A m f [o E] F. destruct o as [a| | |].
  - destruct (F a E) as (o' & E' & P'). exists o'. split; [|exact P']. intros w. unfold seq. rewrite E. apply E'.
  - exists Err. split; [|discriminate]. intros w. unfold seq. rewrite E. reflexivity.
  - exists Panic. split; [|discriminate]. intros w. unfold seq. rewrite E. reflexivity.
  - exists Fuel. split; [|discriminate]. intros w. unfold seq. rewrite E. reflexivity.
Qed.

Lemma pure_run_then : forall (m : comp scope) (f : scope -> comp scope),
  pure_run m -> (forall s, pure_scope s -> pure_run (f s)) -> pure_run (seq W m f).
Proof.
  intros m f (o & E & P) F. destruct o as [a| | |].
  - destruct (F a (P a eq_refl)) as (o' & E' & P'). exists o'. split; [|exact P'].
    intros w. unfold seq. rewrite E. apply E'.
  - exists Err. split; [|discriminate]. intros w. unfold seq. rewrite E. reflexivity.
  - exists Panic. split; [|discriminate]. intros w. unfold seq. rewrite E. reflexivity.
  - exists Fuel. split; [|discriminate]. intros w. unfold seq. rewrite E. reflexivity.
Qed.

Lemma pure_run_cpure : forall m, pure_run m -> cpure m.
Proof. intros m (o & E & _). exists o. exact E. Qed.

Hypothesis Hpure : Forall pure mods.

Lemma run_list_pure_of : forall l,
  Forall (fun i => forall s, pure_scope s -> pure_run (run_instr i s)) l ->
  forall s, pure_scope s -> pure_run (run_list l s).
Proof.
  induction 1 as [|i l P F IH]; intros s S; cbn [SpecInterp.run_list].
  - apply pure_run_ret. assumption.
  - apply pure_run_then; auto.
Qed.

Lemma bound_some : forall A k (a : A) f k' b, bound k a f k' = Some b ->
  (k' = k /\ b = a) \/ f k' = Some b.
Proof.
  intros A k a f k' b E. unfold bound in E. destruct (bytes_eqb k' k) eqn:K; auto.
  apply bytes_eqb_true in K. injection E as <-. auto.
Qed.

Lemma run_instr_pure : forall i s, pure_scope s -> pure_run (run_instr i s).
Proof.
  apply (sinstr_all (fun i => forall s, pure_scope s -> pure_run (run_instr i s))
                    (fun v => forall s, pure_scope s -> cpure (run_value v s))).
  - intros n k s S. cbn [SpecInterp.run_instr].
    destruct (module_at V W mods k) as [m|] eqn:E; [|apply pure_run_fail].
    apply pure_run_ret. split; cbn [s_mod s_app s_var].
    + intros k' m' B. apply bound_some in B. destruct B as [[-> ->]|B]; [|eapply ps_mod; eauto].
      rewrite <- fetch_module_at in E. apply fetch_module_in in E. destruct E as [I _].
      rewrite Forall_forall in Hpure. auto.
    + apply (ps_app s S).
    + apply (ps_var s S).
  - intros n m s S. cbn [SpecInterp.run_instr].
    destruct (s_mod V W s (nm m)) as [md|] eqn:E; [|apply pure_run_fail].
    apply pure_run_ret. split; cbn [s_mod s_app s_var].
    + apply (ps_mod s S).
    + intros k' m' atts B. apply bound_some in B. destruct B as [[-> B]|B]; [|eapply ps_app; eauto].
      injection B as -> ->. split; [eapply ps_mod; eauto | constructor].
    + apply (ps_var s S).
  - intros n b s S. cbn [SpecInterp.run_instr]. destruct b; apply pure_run_ret; split; cbn [s_mod s_app s_var]; apply S.
  - intros x v IH s S. rewrite run_instr_assign. apply pure_run_seq; [apply IH; assumption|].
    intros a E. apply pure_run_ret. split; cbn [s_mod s_app s_var].
    + apply (ps_mod s S).
    + apply (ps_app s S).
    + intros k d B. apply bound_some in B. destruct B as [[-> ->]|B]; [|eapply ps_var; eauto].
      destruct again; [apply IH; assumption | apply cpure_ret].
  - intros x t a s S. cbn [SpecInterp.run_instr].
    destruct (s_app V W s (nm a)) as [[m atts]|] eqn:E; [|apply pure_run_fail].
    apply pure_run_ret. split; cbn [s_mod s_app s_var].
    + apply (ps_mod s S).
    + intros k' m' atts' B. apply bound_some in B. destruct B as [[-> B]|B]; [|eapply ps_app; eauto].
      injection B as -> ->. destruct (ps_app s S _ _ _ E) as [PM PA]. split; auto.
      apply Forall_app. split; auto. constructor; auto. cbn [snd].
      destruct (s_var V W s (nm x)) as [d|] eqn:D; [eapply ps_var; eauto | apply read_pure].
    + apply (ps_var s S).
  - intros a s S. cbn [SpecInterp.run_instr]. apply pure_run_seq; [apply call_pure; assumption|].
    intros _ _. apply pure_run_ret. assumption.
  - intros y s S. apply read_pure.
  - intros c s S. apply cpure_ret.
  - intros l F s S. rewrite run_value_instrs. apply cpure_seq.
    + apply pure_run_cpure. apply run_list_pure_of; auto. apply pure_no_scope.
    + intros. apply cpure_ret.
  - intros a s S. apply call_pure. assumption.
Qed.

Lemma run_value_pure : forall v s, pure_scope s -> cpure (run_value v s).
Proof.
  intros v s S. destruct v as [y|c|l|a].
  - apply read_pure.
  - apply cpure_ret.
  - rewrite run_value_instrs. apply cpure_seq.
    + apply pure_run_cpure. apply run_list_pure_of; [|apply pure_no_scope].
      apply Forall_forall. intros i _. apply run_instr_pure.
    + intros. apply cpure_ret.
  - apply call_pure. assumption.
Qed.

End Sim.

(** ** Simulation *)
Section Simulation.
Variable again : bool.
Variable mods : list module.
Variable input : list V.

Notation exec_value := (exec_value V vbytes vlist W input).
Notation exec_instrs := (exec_instrs input).
Notation run_value := (run_value V vbytes vlist W nm again mods input).
Notation run_instr := (run_instr V vbytes vlist W nm again mods input).
Notation run_list := (run_list V vbytes vlist W nm again mods input).
Notation scope := (scope V W).

Hypothesis Hmode : again = true \/ Forall pure mods.

Definition att_rel (vt : value * nat) (td : nat * comp V) : Prop :=
  snd vt = fst td /\ ceq (exec_value (fst vt)) (snd td).

Definition app_rel (pa : option (application V W)) (sa : option (module * list (nat * comp V))) : Prop :=
  match pa, sa with
  | Some (PApp _ _ _ m atts), Some (m', l) => m = m' /\ Forall2 att_rel atts l
  | None, None => True
  | _, _ => False
  end.

Definition var_rel (pv : option value) (d : option (comp V)) : Prop :=
  match pv, d with
  | Some v, Some d => ceq (exec_value v) d
  | None, None => True
  | _, _ => False
  end.

Definition param_rel (op : option param) (k : bytes) (ins outs : list bytes) : Prop :=
  match op with
  | None => position k ins = None /\ among k outs = false
  | Some p =>
      if p_input p then position k ins = Some (p_index p) /\ among k outs = false
      else position k ins = None /\ among k outs = true
  end.

Record rel (c : cstate) (s : scope) (vals : list (option V)) : Prop := {
  r_mod : forall k, mget k (c_modules V W c) = s_mod V W s k;
  r_app : forall k, app_rel (mget k (c_apps V W c)) (s_app V W s k);
  r_param : forall k, param_rel (mget k (c_params V W c)) k (s_in V W s) (s_out V W s);
  r_count : length (filter (fun kp => p_input (snd kp)) (c_params V W c)) = length (s_in V W s);
  r_var : forall k, var_rel (mget k (c_values V W c)) (s_var V W s k);
  r_len : length vals = length (c_instrs V W c);
  r_select : select V vals (c_outputs V W c) = Ok (s_results V W s);
  r_pure : again = true \/ pure_scope s
}.

Lemma rel_empty : rel (c_empty V W) (no_scope V W) [].
Proof.
  split; try reflexivity; try (intros; exact I).
  - intros k. split; reflexivity.
  - right. apply pure_no_scope.
Qed.

Lemma read_ceq : forall s y n, position y (s_in V W s) = Some n ->
  ceq (exec_value (PInput V W n)) (read V W input s y).
Proof.
  intros s y n P w. unfold read. rewrite P. cbn [InterpModel.exec_value]. reflexivity.
Qed.

Lemma arguments_ceq : forall atts l, Forall2 att_rel atts l ->
  forall done, ceq (exec_atts input atts (passed done)) (seq W (arguments V W l) (fun r => ret W (passed (done ++ r)))).
Proof.
  induction 1 as [|[v t] [t' d] atts l [T D] F IH]; intros done; cbn [exec_atts arguments].
  - intros w. cbn. rewrite app_nil_r. reflexivity.
  - cbn [fst snd] in T, D. subst t'. intros w. rewrite seq_assoc. revert w. apply seq_ceq; auto.
    intros x w. rewrite seq_assoc, <- passed_snoc, IH. revert w. apply seq_ceq; [intro; reflexivity|].
    intros r w. rewrite ret_seq, <- app_assoc. reflexivity.
Qed.

Lemma call_ceq : forall c s vals k a, rel c s vals -> mget k (c_apps V W c) = Some a ->
  ceq (exec_app V vbytes vlist W input a) (call V W s k).
Proof.
  intros c s vals k a R E. pose proof (r_app _ _ _ R k) as A. rewrite E in A. unfold app_rel in A.
  destruct a as [i m atts]. unfold call. destruct (s_app V W s k) as [[m' l]|]; [|contradiction].
  destruct A as [<- F]. rewrite exec_app_eq. intros w.
  rewrite (seq_ceq _ _ _ _ (m_fn V W m) (m_fn V W m) (arguments_ceq _ _ F [])) by (intros ? ?; reflexivity).
  rewrite seq_assoc. revert w. apply seq_ceq; [intro; reflexivity|]. intros r w. apply ret_seq.
Qed.

Lemma select_app : forall vals more outs r,
  select V vals outs = Ok r -> select V (vals ++ more) outs = Ok r.
Proof.
  intros vals more. induction outs as [|o outs IH]; intros r E; cbn [select] in *; auto.
  destruct (nth_error vals o) as [[v|]|] eqn:N; try discriminate.
  rewrite nth_error_app1 by (apply nth_error_Some; congruence). rewrite N.
  destruct (select V vals outs) as [r'| | |]; try discriminate.
  rewrite (IH r' eq_refl). exact E.
Qed.

Lemma select_snoc : forall vals outs o r v,
  select V vals outs = Ok r -> nth_error vals o = Some (Some v) ->
  select V vals (outs ++ [o]) = Ok (r ++ [v]).
Proof.
  intros vals outs o. induction outs as [|o' outs IH]; intros r v E N; cbn [select app] in *.
  - injection E as <-. rewrite N. reflexivity.
  - destruct (nth_error vals o') as [[x|]|]; try discriminate.
    destruct (select V vals outs) as [r'| | |]; try discriminate.
    rewrite (IH r' v eq_refl N). cbn in *. injection E as <-. reflexivity.
Qed.

(** Two runs end in the same world, both fail in the same way, or both succeed with related results. *)
Definition agree {A B} (P : A -> B -> Prop) (r1 : outcome A * W) (r2 : outcome B * W) : Prop :=
  snd r1 = snd r2 /\
  match fst r1, fst r2 with
  | Ok a, Ok b => P a b
  | Err, Err | Panic, Panic | Fuel, Fuel => True
  | _, _ => False
  end.

Lemma agree_seq : forall A B A' B' (P : A -> B -> Prop) (Q : A' -> B' -> Prop) m1 m2 f g w,
  agree P (m1 w) (m2 w) -> (forall a b w', P a b -> agree Q (f a w') (g b w')) ->
  agree Q (seq W m1 f w) (seq W m2 g w).
Proof.
  intros A B A' B' P Q m1 m2 f g w [E M] F. unfold seq.
  destruct (m1 w) as [[a| | |] w1]; destruct (m2 w) as [[b| | |] w2]; cbn in E, M; subst; try contradiction; auto;
    split; cbn; auto.
Qed.

(** What an instruction compiled to does at run time, against the specification. *)
Definition steps (c' : cstate) (new : list instr) (vals : list (option V)) (m : comp scope) : Prop :=
  forall w, agree (fun vals' s' => rel c' s' vals') (exec_instrs new vals w) (m w).

Definition instr_sim (i : sinstr) : Prop :=
  forall c s vals c', rel c s vals -> compile_instr V W nm mods i c = Ok c' ->
  exists new, c_instrs V W c' = c_instrs V W c ++ new /\ steps c' new vals (run_instr i s).

Definition value_sim (v : svalue) : Prop :=
  forall c s vals pv, rel c s vals -> compile_value V W nm mods v c = Ok pv ->
  ceq (exec_value pv) (run_value v s).

Lemma list_sim : forall l, Forall instr_sim l ->
  forall c s vals c', rel c s vals -> compile_list V W nm mods l c = Ok c' ->
  exists new, c_instrs V W c' = c_instrs V W c ++ new /\ steps c' new vals (run_list l s).
Proof.
  induction 1 as [|i l S F IH]; intros c s vals c' R E; cbn [compile_list SpecInterp.run_list] in *.
  - injection E as <-. exists []. rewrite app_nil_r. split; auto. intros w. split; auto.
  - apply bind_Ok_inv in E. destruct E as (c1 & E1 & E2).
    destruct (S c s vals c1 R E1) as (new1 & N1 & S1).
    assert (C : forall s1 vals1, rel c1 s1 vals1 ->
      exists new, c_instrs V W c' = c_instrs V W c1 ++ new /\ steps c' new vals1 (run_list l s1))
      by (intros; eapply IH; eauto).
    (* the instructions of the rest do not depend on the values *)
    assert (X : exists new2, c_instrs V W c' = c_instrs V W c1 ++ new2).
    { clear - E2. revert c1 E2. induction l as [|j l IHl]; intros c1 E2; cbn [compile_list] in E2.
      - injection E2 as <-. exists []. rewrite app_nil_r. reflexivity.
      - apply bind_Ok_inv in E2. destruct E2 as (c2 & E3 & E4).
        destruct (IHl c2 E4) as [n2 ->].
        assert (Y : exists n, c_instrs V W c2 = c_instrs V W c1 ++ n).
        { destruct j as [n k|n m|n b|x v|x t a|a]; cbn [compile_instr] in E3.
          - unfold compile_module in E3. destruct (fetch_module V W mods k); [|discriminate].
            destruct (mget (nm n) (c_modules V W c1)); [discriminate|]. injection E3 as <-.
            exists []. cbn. rewrite app_nil_r. reflexivity.
          - unfold compile_application in E3. destruct (mget (nm n) (c_apps V W c1)); [discriminate|].
            destruct (mget (nm m) (c_modules V W c1)); [|discriminate]. injection E3 as <-.
            exists []. cbn. rewrite app_nil_r. reflexivity.
          - unfold compile_parameter in E3. destruct (mget (nm n) (c_params V W c1)); [discriminate|].
            injection E3 as <-. exists []. cbn. rewrite app_nil_r. reflexivity.
          - apply bind_Ok_inv in E3. destruct E3 as (pv & _ & E3). injection E3 as <-.
            exists [IValue V W pv]. reflexivity.
          - unfold compile_attachment in E3. apply bind_Ok_inv in E3. destruct E3 as (pv & _ & E3).
            destruct (mget (nm a) (c_apps V W c1)) as [[i m atts]|]; [|discriminate]. injection E3 as <-.
            exists []. cbn. rewrite app_nil_r. reflexivity.
          - unfold compile_execution in E3. destruct (mget (nm a) (c_apps V W c1)) as [pa|]; [|discriminate].
            injection E3 as <-. exists [IExec V W pa]. reflexivity. }
        destruct Y as [n1 ->]. exists (n1 ++ n2). rewrite app_assoc. reflexivity. }
    destruct X as [new2 N2].
    exists (new1 ++ new2). split.
    + rewrite N2, N1, app_assoc. reflexivity.
    + intros w. rewrite exec_instrs_app. 
      eapply agree_seq; [apply S1|]. cbn beta. intros vals1 s1 w1 R1. destruct (C s1 vals1 R1) as (n & N & S2).
      assert (n = new2) as ->.
      { rewrite N2 in N. apply app_inv_head in N. auto. }
      apply S2.
Qed.

Lemma bound_mget : forall A (m : list (bytes * A)) k a k',
  mget k' (mset k a m) = bound k a (fun k => mget k m) k'.
Proof. intros. rewrite mget_mset. reflexivity. Qed.

Lemma instr_value_sim : forall i, instr_sim i.
Proof.
  apply (sinstr_all instr_sim value_sim).
  - (* module *)
    intros n k c s vals c' R E. cbn [compile_instr SpecInterp.run_instr] in *. unfold compile_module in E.
    rewrite fetch_module_at in E. destruct (module_at V W mods k) as [m|] eqn:M; [|discriminate].
    destruct (mget (nm n) (c_modules V W c)) eqn:G; [discriminate|]. injection E as <-.
    exists []. split; [cbn; rewrite app_nil_r; reflexivity|]. intros w. split; [reflexivity|].
    destruct R; split; cbn; auto.
    + intros k'. rewrite mget_mset. unfold bound. rewrite r_mod0. reflexivity.
    + destruct r_pure0 as [?|P]; auto. destruct Hmode as [?|HP]; auto. right. destruct P; split; cbn; auto.
      intros k' m' B. apply bound_some in B. destruct B as [[-> ->]|B]; eauto.
      rewrite <- fetch_module_at in M. apply fetch_module_in in M. rewrite Forall_forall in HP. apply HP, M.
  - (* application *)
    intros n m c s vals c' R E. cbn [compile_instr SpecInterp.run_instr] in *. unfold compile_application in E.
    destruct (mget (nm n) (c_apps V W c)) eqn:G; [discriminate|].
    rewrite (r_mod _ _ _ R) in E. destruct (s_mod V W s (nm m)) as [md|] eqn:M; [|discriminate]. injection E as <-.
    exists []. split; [cbn; rewrite app_nil_r; reflexivity|]. intros w. split; [reflexivity|].
    destruct R; split; cbn; auto.
    + intros k. rewrite mget_mset. unfold bound. destruct (bytes_eqb k (nm n)); auto. cbn. auto.
    + destruct r_pure0 as [?|P]; auto. right. destruct P; split; cbn; auto.
      intros k' m' atts B. apply bound_some in B. destruct B as [[-> B]|B]; eauto.
      injection B as -> ->. split; [eauto|constructor].
  - (* parameter *)
    intros n b c s vals c' R E. cbn [compile_instr SpecInterp.run_instr] in *. unfold compile_parameter in E.
    destruct (mget (nm n) (c_params V W c)) eqn:G; [discriminate|]. injection E as <-.
    exists []. split; [cbn; rewrite app_nil_r; reflexivity|]. intros w.
    pose proof (r_param _ _ _ R (nm n)) as PN. rewrite G in PN. cbn in PN. destruct PN as [PN1 PN2].
    destruct b; (split; [reflexivity|]); destruct R; split; cbn; auto.
    + intros k. rewrite mget_mset. specialize (r_param0 k). destruct (bytes_eqb k (nm n)) eqn:K.
      * apply bytes_eqb_true in K. subst k. cbn. rewrite position_app, PN1, bytes_eqb_refl, PN2. rewrite r_count0. auto.
      * unfold param_rel in *. rewrite position_app, K.
        destruct (mget k (c_params V W c)) as [p|]; [destruct (p_input p)|]; destruct r_param0 as [-> ->]; auto.
    + rewrite mset_new by assumption. rewrite filter_app, !app_length, r_count0. reflexivity.
    + destruct r_pure0 as [?|P]; auto. right. destruct P; split; cbn; auto.
    + intros k. rewrite mget_mset. specialize (r_param0 k). destruct (bytes_eqb k (nm n)) eqn:K.
      * apply bytes_eqb_true in K. subst k. cbn. rewrite among_app, PN1, bytes_eqb_refl, orb_true_r. auto.
      * unfold param_rel in *. rewrite among_app, K, orb_false_r.
        destruct (mget k (c_params V W c)) as [p|]; [destruct (p_input p)|]; destruct r_param0 as [-> ->]; auto.
    + rewrite mset_new by assumption. rewrite filter_app, !app_length, r_count0. cbn. lia.
    + destruct r_pure0 as [?|P]; auto. right. destruct P; split; cbn; auto.
  - (* assignment *)
    intros x v IH c s vals c' R E. rewrite run_instr_assign. cbn [compile_instr] in E.
    apply bind_Ok_inv in E. destruct E as (pv & E & E'). injection E' as <-.
    pose proof (IH c s vals pv R E) as S.
    exists [IValue V W pv]. split; [reflexivity|]. intros w.
    rewrite exec_instrs_value.
    assert (PV : again = true \/ cpure (run_value v s)).
    { destruct Hmode as [?|HP]; auto. destruct (r_pure _ _ _ R) as [?|P]; auto. right.
      apply run_value_pure; auto. }
    unfold seq. rewrite S. destruct (run_value v s w) as [[a| | |] w'] eqn:RV; try (split; reflexivity).
    split; [reflexivity|]. pose proof R as R0. destruct R; split; cbn; auto.
    + intros k. rewrite mget_mset. unfold bound. destruct (bytes_eqb k (nm x)); [|apply r_var0]. cbn.
      destruct PV as [->|PV]; [exact S|].
      intros w1. rewrite S. rewrite (cpure_at _ _ _ _ _ PV RV w1).
      destruct again; [rewrite (cpure_at _ _ _ _ _ PV RV w1)|]; reflexivity.
    + rewrite !app_length, r_len0. reflexivity.
    + specialize (r_param0 (nm x)). unfold param_rel in r_param0.
      destruct (mget (nm x) (c_params V W c)) as [p|]; [destruct (p_input p)|]; destruct r_param0 as [_ ->];
        try (apply select_app; assumption).
      apply select_snoc; [apply select_app; assumption|].
      rewrite <- r_len0, nth_error_app2, Nat.sub_diag by lia. reflexivity.
    + destruct r_pure0 as [?|P]; auto. destruct PV as [?|PV]; auto. right. destruct P; split; cbn; auto.
      intros k d B. apply bound_some in B. destruct B as [[-> ->]|B]; eauto.
      destruct again; [exact PV | apply cpure_ret].
  - (* attachment *)
    intros x t a c s vals c' R E. cbn [compile_instr SpecInterp.run_instr] in *. unfold compile_attachment in E.
    apply bind_Ok_inv in E. destruct E as (pv & EV & E).
    pose proof (r_app _ _ _ R (nm a)) as A. destruct (mget (nm a) (c_apps V W c)) as [[i m atts]|]; [|discriminate].
    cbn in A. destruct (s_app V W s (nm a)) as [[m' l]|] eqn:SA; [|contradiction]. destruct A as [<- F].
    injection E as <-.
    exists []. split; [cbn; rewrite app_nil_r; reflexivity|]. intros w. split; [reflexivity|].
    assert (D : ceq (exec_value pv) (match s_var V W s (nm x) with Some d => d | None => read V W input s (nm x) end)).
    { unfold compile_attachment_value in EV. pose proof (r_var _ _ _ R (nm x)) as VR.
      destruct (mget (nm x) (c_values V W c)) as [v|].
      - injection EV as ->. cbn in VR. destruct (s_var V W s (nm x)); [exact VR|contradiction].
      - cbn in VR. destruct (s_var V W s (nm x)); [contradiction|].
        pose proof (r_param _ _ _ R (nm x)) as PR. destruct (mget (nm x) (c_params V W c)) as [p|]; [|discriminate].
        cbn in PR. destruct (p_input p); [|discriminate]. injection EV as <-. apply read_ceq, PR. }
    pose proof R as R0. destruct R; split; cbn; auto.
    + intros k. rewrite mget_mset. unfold bound. destruct (bytes_eqb k (nm a)); auto. cbn. split; auto.
      apply Forall2_app; auto. constructor; auto. split; auto.
    + destruct r_pure0 as [?|P]; auto. right. pose proof P as P0. destruct P; split; cbn; auto.
      intros k' m' atts' B. apply bound_some in B. destruct B as [[-> B]|B]; eauto.
      injection B as -> ->. destruct (ps_app0 _ _ _ SA) as [PM PA]. split; auto.
      apply Forall_app. split; auto. constructor; auto. cbn [snd].
      destruct (s_var V W s (nm x)) as [d|] eqn:DD; [eauto | apply read_pure].
  - (* execution *)
    intros a c s vals c' R E. cbn [compile_instr SpecInterp.run_instr] in *. unfold compile_execution in E.
    destruct (mget (nm a) (c_apps V W c)) as [pa|] eqn:G; [|discriminate]. injection E as <-.
    exists [IExec V W pa]. split; [reflexivity|]. intros w.
    rewrite exec_instrs_exec.
    unfold seq. rewrite (call_ceq c s vals (nm a) pa R G). destruct (call V W s (nm a) w) as [[v| | |] w']; try (split; reflexivity).
    split; [reflexivity|]. destruct R; split; cbn; auto.
    + rewrite !app_length, r_len0. reflexivity.
    + apply select_app. assumption.
  - (* variable *)
    intros y c s vals pv R E. cbn [compile_value] in E. pose proof (r_param _ _ _ R (nm y)) as PR.
    destruct (mget (nm y) (c_params V W c)) as [p|]; [|discriminate]. cbn in PR.
    destruct (p_input p); [|discriminate]. injection E as <-. apply read_ceq, PR.
  - (* constant *)
    intros b c s vals pv R E. injection E as <-. intro. reflexivity.
  - (* sub-program *)
    intros l F c s vals pv R E. rewrite compile_value_instrs in E.
    apply bind_Ok_inv in E. destruct E as (c' & E & E'). apply bind_Ok_inv in E'. destruct E' as (p & E2 & E3).
    injection E3 as <-. destruct (list_sim l F _ _ _ _ rel_empty E) as (new & N & S). cbn in N.
    unfold finish in E2. rewrite N in E2. destruct new as [|i0 new0] eqn:NN; [discriminate|]. rewrite <- NN in *.
    injection E2 as <-. rewrite exec_value_prog, run_value_instrs, exec_prog_eq. intros w.
    rewrite seq_assoc. specialize (S w). destruct S as [SW S]. unfold seq.
    destruct (exec_instrs new [] w) as [[vals'| | |] w1]; destruct (run_list l (no_scope V W) w) as [[s'| | |] w2];
      cbn in SW, S; try contradiction; try (subst; reflexivity).
    subst w2. rename S into R'. rewrite (r_select _ _ _ R'). reflexivity.
  - (* execution as a value *)
    intros a c s vals pv R E. cbn [compile_value] in E.
    destruct (mget (nm a) (c_apps V W c)) as [pa|] eqn:G; [|discriminate]. injection E as <-.
    apply (call_ceq c s vals (nm a) pa R G).
Qed.

Theorem execute_interpret : forall l p, compile V W nm mods l = Ok p ->
  forall w, execute V vbytes vlist W input p w = interpret V vbytes vlist W nm again mods input l w.
Proof.
  intros l p E w. unfold compile in E. apply bind_Ok_inv in E. destruct E as (c' & E & E2).
  assert (F : Forall instr_sim l) by (apply Forall_forall; intros; apply instr_value_sim).
  destruct (list_sim l F _ _ _ _ rel_empty E) as (new & N & S). cbn in N.
  unfold finish in E2. rewrite N in E2. destruct new as [|i0 new0] eqn:NN; [discriminate|]. rewrite <- NN in *.
  injection E2 as <-. unfold execute, interpret. rewrite exec_prog_eq. specialize (S w). destruct S as [SW S]. unfold seq.
  destruct (exec_instrs new [] w) as [[vals'| | |] w1]; destruct (run_list l (no_scope V W) w) as [[s'| | |] w2];
    cbn in SW, S; try contradiction; try (subst; reflexivity).
  subst w2. rename S into R'. rewrite (r_select _ _ _ R'). reflexivity.
Qed.

End Simulation.
End Interp.
