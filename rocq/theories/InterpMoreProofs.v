(** Scoping, outputs, inputs, extension and run time failures of compiled programs. *)
From Coq Require Import List Arith Bool Lia.
From Verif Require Import Base BaseLemmas InterpModel SpecInterp InterpProofs.
Import ListNotations.

Section Interp.
Variable V : Type.
Variable vbytes : bytes -> V.
Variable vlist : list V -> V.
Variable W : Type.
Variable nm : bytes -> bytes.

Notation comp := (comp W).
Notation module := (module V W).
Notation cstate := (cstate V W).
Notation value := (value V W).
Notation instr := (instr V W).
Notation compile_instr := (compile_instr V W nm).
Notation compile_list := (compile_list V W nm).
Notation compile_value := (compile_value V W nm).

Lemma compile_list_app : forall mods l1 l2 c,
  compile_list mods (l1 ++ l2) c = (do c' <- compile_list mods l1 c; compile_list mods l2 c').
Proof.
  intros mods l1 l2. induction l1 as [|i l1 IH]; intros c; cbn [InterpModel.compile_list app]; [reflexivity|].
  destruct (compile_instr mods i c); cbn [bind]; auto.
Qed.

Lemma compile_instr_assign : forall mods x v c,
  compile_instr mods (SAssign x v) c = (do pv <- compile_value mods v c; Ok (compile_assign V W nm x pv c)).
Proof. reflexivity. Qed.

(** ** What each instruction does to the compile state *)
Lemma compile_instr_inv : forall mods i c c', compile_instr mods i c = Ok c' ->
  match i with
  | SModule n k => exists m, fetch_module V W mods k = Some m /\ mget (nm n) (c_modules V W c) = None /\
      c' = mk_cstate V W (mset (nm n) m (c_modules V W c)) (c_apps V W c) (c_params V W c) (c_outputs V W c) (c_values V W c) (c_instrs V W c)
  | SApp n mn => exists m, mget (nm n) (c_apps V W c) = None /\ mget (nm mn) (c_modules V W c) = Some m /\
      c' = mk_cstate V W (c_modules V W c) (mset (nm n) (PApp V W (length (c_apps V W c)) m []) (c_apps V W c)) (c_params V W c) (c_outputs V W c) (c_values V W c) (c_instrs V W c)
  | SParam n b => mget (nm n) (c_params V W c) = None /\
      c' = mk_cstate V W (c_modules V W c) (c_apps V W c)
             (mset (nm n) (mk_param (length (c_params V W c)) (length (filter (fun kp => p_input (snd kp)) (c_params V W c))) b) (c_params V W c))
             (c_outputs V W c) (c_values V W c) (c_instrs V W c)
  | SAssign x v => exists pv, compile_value mods v c = Ok pv /\ c' = compile_assign V W nm x pv c
  | SAttach x t a => exists pv i m atts, compile_attachment_value V W nm x c = Ok pv /\
      mget (nm a) (c_apps V W c) = Some (PApp V W i m atts) /\
      c' = mk_cstate V W (c_modules V W c) (mset (nm a) (PApp V W i m (atts ++ [(pv, t)])) (c_apps V W c)) (c_params V W c) (c_outputs V W c) (c_values V W c) (c_instrs V W c)
  | SExec a => exists pa, mget (nm a) (c_apps V W c) = Some pa /\
      c' = mk_cstate V W (c_modules V W c) (c_apps V W c) (c_params V W c) (c_outputs V W c) (c_values V W c) (c_instrs V W c ++ [IExec V W pa])
  end.
Proof.
  intros mods i c c' E. destruct i as [n k|n m|n b|x v|x t a|a]; cbn [InterpModel.compile_instr] in E.
  - unfold compile_module in E. destruct (fetch_module V W mods k) as [m|]; [|discriminate].
    destruct (mget (nm n) (c_modules V W c)); [discriminate|]. injection E as <-. eauto.
  - unfold compile_application in E. destruct (mget (nm n) (c_apps V W c)); [discriminate|].
    destruct (mget (nm m) (c_modules V W c)) as [md|]; [|discriminate]. injection E as <-. eauto.
  - unfold compile_parameter in E. destruct (mget (nm n) (c_params V W c)); [discriminate|]. injection E as <-. auto.
  - apply bind_Ok_inv in E. destruct E as (pv & E1 & E2). injection E2 as <-. eauto.
  - unfold compile_attachment in E. apply bind_Ok_inv in E. destruct E as (pv & E1 & E2).
    destruct (mget (nm a) (c_apps V W c)) as [[i m atts]|]; [|discriminate]. injection E2 as <-. eauto 8.
  - unfold compile_execution in E. destruct (mget (nm a) (c_apps V W c)) as [pa|]; [|discriminate].
    injection E as <-. eauto.
Qed.

(** ** Scoping *)
Record srel (pre : list sinstr) (c : cstate) : Prop := {
  sr_mod : forall k, mget k (c_modules V W c) <> None <-> exists n j, In (SModule n j) pre /\ nm n = k;
  sr_app : forall k, mget k (c_apps V W c) <> None <-> exists n m, In (SApp n m) pre /\ nm n = k;
  sr_param : forall k b, (exists p, mget k (c_params V W c) = Some p /\ p_input p = b) <->
                         exists n, In (SParam n b) pre /\ nm n = k;
  sr_value : forall k, mget k (c_values V W c) <> None <-> exists n v, In (SAssign n v) pre /\ nm n = k;
  sr_runs : c_instrs V W c <> [] <-> Exists runs pre
}.

Lemma srel_empty : srel [] (c_empty V W).
Proof.
  split; cbn.
  - intros k. split; [congruence|]. intros (? & ? & [] & _).
  - intros k. split; [congruence|]. intros (? & ? & [] & _).
  - intros k b. split; [intros (? & ? & _); congruence|]. intros (? & [] & _).
  - intros k. split; [congruence|]. intros (? & ? & [] & _).
  - split; [congruence|]. intros E. inversion E.
Qed.

Lemma in_snoc : forall A (x y : A) l, In x (l ++ [y]) <-> In x l \/ x = y.
Proof.
  intros. rewrite in_app_iff. cbn. split; intros [?|?]; auto. destruct H as [->|[]]. auto.
Qed.

Lemma mset_some : forall A k (a : A) m k',
  mget k' (mset k a m) <> None <-> k' = k \/ mget k' m <> None.
Proof.
  intros A k a m k'. rewrite mget_mset. destruct (bytes_eqb k' k) eqn:E.
  - apply bytes_eqb_true in E. split; [auto|congruence].
  - split; [auto|]. intros [->|H]; auto. rewrite bytes_eqb_refl in E. discriminate.
Qed.

Lemma exists_snoc : forall (P : sinstr -> Prop) l x, Exists P (l ++ [x]) <-> Exists P l \/ P x.
Proof.
  intros. rewrite Exists_app. split; intros [?|?]; auto. right. inversion H; subst; auto. inversion H1.
Qed.

Lemma srel_step : forall mods pre i c c', srel pre c -> compile_instr mods i c = Ok c' -> srel (pre ++ [i]) c'.
Proof.
  clear vbytes vlist.
  intros mods pre i c c' S E. apply compile_instr_inv in E. destruct S as [SM SA SP SV SR].
  destruct i as [n k|n m|n b|x v|x t a|a].
  - destruct E as (m & F & N & ->). split; cbn.
    + intros k'. rewrite mset_some, SM. split.
      * intros [->|(n' & j & I & E)]; [exists n, k | exists n', j]; rewrite in_snoc; auto.
      * intros (n' & j & I & E). apply in_snoc in I. destruct I as [I|I]; eauto. injection I as -> ->. auto.
    + intros k'. rewrite SA. split; intros (n' & m' & I & E); exists n', m'; rewrite in_snoc in *; intuition congruence.
    + intros k' b. rewrite SP. split; intros (n' & I & E); exists n'; rewrite in_snoc in *; intuition congruence.
    + intros k'. rewrite SV. split; intros (n' & m' & I & E); exists n', m'; rewrite in_snoc in *; intuition congruence.
    + rewrite exists_snoc, SR. cbn. tauto.
  - destruct E as (md & N & F & ->). split; cbn.
    + intros k'. rewrite SM. split; intros (n' & m' & I & E); exists n', m'; rewrite in_snoc in *; intuition congruence.
    + intros k'. rewrite mset_some, SA. split.
      * intros [->|(n' & j & I & E)]; [exists n, m | exists n', j]; rewrite in_snoc; auto.
      * intros (n' & j & I & E). apply in_snoc in I. destruct I as [I|I]; eauto. injection I as -> ->. auto.
    + intros k' b. rewrite SP. split; intros (n' & I & E); exists n'; rewrite in_snoc in *; intuition congruence.
    + intros k'. rewrite SV. split; intros (n' & m' & I & E); exists n', m'; rewrite in_snoc in *; intuition congruence.
    + rewrite exists_snoc, SR. cbn. tauto.
  - destruct E as (N & ->). split; cbn.
    + intros k'. rewrite SM. split; intros (n' & m' & I & E); exists n', m'; rewrite in_snoc in *; intuition congruence.
    + intros k'. rewrite SA. split; intros (n' & m' & I & E); exists n', m'; rewrite in_snoc in *; intuition congruence.
    + intros k' b'. split.
      * intros (p & G & P). rewrite mget_mset in G. destruct (bytes_eqb k' (nm n)) eqn:K.
        -- apply bytes_eqb_true in K. subst k'. injection G as <-. cbn in P. subst b'. exists n. rewrite in_snoc. auto.
        -- destruct (proj1 (SP k' b') (ex_intro _ p (conj G P))) as (n' & I & E). exists n'. rewrite in_snoc. auto.
      * intros (n' & I & E). apply in_snoc in I. rewrite mget_mset. destruct I as [I|I].
        -- destruct (proj2 (SP k' b') (ex_intro _ n' (conj I E))) as (p & G & P).
           destruct (bytes_eqb k' (nm n)) eqn:K; eauto. apply bytes_eqb_true in K. subst k'. congruence.
        -- injection I as -> ->. subst k'. rewrite bytes_eqb_refl. eauto.
    + intros k'. rewrite SV. split; intros (n' & m' & I & E); exists n', m'; rewrite in_snoc in *; intuition congruence.
    + rewrite exists_snoc, SR. cbn. tauto.
  - destruct E as (pv & F & ->). unfold compile_assign. split; cbn.
    + intros k'. rewrite SM. split; intros (n' & m' & I & E); exists n', m'; rewrite in_snoc in *; intuition congruence.
    + intros k'. rewrite SA. split; intros (n' & m' & I & E); exists n', m'; rewrite in_snoc in *; intuition congruence.
    + intros k' b. rewrite SP. split; intros (n' & I & E); exists n'; rewrite in_snoc in *; intuition congruence.
    + intros k'. rewrite mset_some, SV. split.
      * intros [->|(n' & j & I & E)]; [exists x, v | exists n', j]; rewrite in_snoc; auto.
      * intros (n' & j & I & E). apply in_snoc in I. destruct I as [I|I]; eauto. injection I as -> ->. auto.
    + rewrite exists_snoc. split; [cbn; auto|]. intros _ E. apply app_eq_nil in E. destruct E; discriminate.
  - destruct E as (pv & i & m & atts & F & G & ->). split; cbn.
    + intros k'. rewrite SM. split; intros (n' & m' & I & E); exists n', m'; rewrite in_snoc in *; intuition congruence.
    + intros k'. rewrite mset_some, SA. split.
      * intros [->|(n' & j & I & E)].
        -- assert (X : mget (nm a) (c_apps V W c) <> None) by congruence. apply SA in X.
           destruct X as (n' & j & I & E). exists n', j. rewrite in_snoc. auto.
        -- exists n', j; rewrite in_snoc; auto.
      * intros (n' & j & I & E). apply in_snoc in I. destruct I as [I|I]; eauto. discriminate.
    + intros k' b. rewrite SP. split; intros (n' & I & E); exists n'; rewrite in_snoc in *; intuition congruence.
    + intros k'. rewrite SV. split; intros (n' & m' & I & E); exists n', m'; rewrite in_snoc in *; intuition congruence.
    + rewrite exists_snoc, SR. cbn. tauto.
  - destruct E as (pa & G & ->). split; cbn.
    + intros k'. rewrite SM. split; intros (n' & m' & I & E); exists n', m'; rewrite in_snoc in *; intuition congruence.
    + intros k'. rewrite SA. split; intros (n' & m' & I & E); exists n', m'; rewrite in_snoc in *; intuition congruence.
    + intros k' b. rewrite SP. split; intros (n' & I & E); exists n'; rewrite in_snoc in *; intuition congruence.
    + intros k'. rewrite SV. split; intros (n' & m' & I & E); exists n', m'; rewrite in_snoc in *; intuition congruence.
    + rewrite exists_snoc. split; [cbn; auto|]. intros _ E. apply app_eq_nil in E. destruct E; discriminate.
Qed.

Lemma srel_steps : forall mods l pre c c', srel pre c -> compile_list mods l c = Ok c' -> srel (pre ++ l) c'.
Proof.
  intros mods. induction l as [|i l IH]; intros pre c c' S E; cbn [InterpModel.compile_list] in E.
  - injection E as <-. rewrite app_nil_r. exact S.
  - apply bind_Ok_inv in E. destruct E as (c1 & E1 & E2).
    change (pre ++ i :: l) with (pre ++ [i] ++ l). rewrite app_assoc.
    eapply IH; [|exact E2]. eapply srel_step; eauto.
Qed.

Definition instr_scoped (mods : list module) (i : sinstr) : Prop :=
  forall pre c, srel pre c -> ((exists c', compile_instr mods i c = Ok c') <-> allowed V W nm mods pre i).

Lemma list_scoped : forall mods l, Forall (instr_scoped mods) l ->
  forall pre0 c, srel pre0 c ->
  ((exists c', compile_list mods l c = Ok c') <->
   (forall pre i post, l = pre ++ i :: post -> allowed V W nm mods (pre0 ++ pre) i)).
Proof.
  intros mods. induction 1 as [|i l I F IH]; intros pre0 c S; cbn [InterpModel.compile_list].
  - split; [|eauto]. intros _ pre i post E. destruct pre; discriminate.
  - split.
    + intros (c' & E) pre j post L. apply bind_Ok_inv in E. destruct E as (c1 & E1 & E2).
      destruct pre as [|i' pre]; cbn in L; injection L as <- L.
      * rewrite app_nil_r. apply (I pre0 c S). eauto.
      * change (pre0 ++ i :: pre) with (pre0 ++ [i] ++ pre). rewrite app_assoc.
        assert (S1 : srel (pre0 ++ [i]) c1) by (eapply srel_step; eauto).
        apply (proj1 (IH _ _ S1) (ex_intro _ c' E2) pre j post L).
    + intros A.
      assert (A0 : allowed V W nm mods pre0 i).
      { specialize (A [] i l eq_refl). rewrite app_nil_r in A. exact A. }
      apply (I pre0 c S) in A0. destruct A0 as (c1 & E1). rewrite E1. cbn [bind].
      apply (IH (pre0 ++ [i]) c1); [eapply srel_step; eauto|].
      intros pre j post L. rewrite <- app_assoc. apply (A (i :: pre) j post). cbn. congruence.
Qed.

Lemma finish_scoped : forall mods l, Forall (instr_scoped mods) l ->
  ((exists p, compile V W nm mods l = Ok p) <-> scoped V W nm mods l).
Proof.
  intros mods l F. pose proof (list_scoped mods l F [] _ srel_empty) as L. unfold compile. split.
  - intros (p & E). apply bind_Ok_inv in E. destruct E as (c & E1 & E2).
    constructor; [apply L; eauto|].
    pose proof (srel_steps _ _ _ _ _ srel_empty E1) as S. apply (sr_runs _ _ S).
    unfold finish in E2. destruct (c_instrs V W c); [discriminate|congruence].
  - intros S. inversion S as [l' A R]. subst. apply L in A. destruct A as (c & E). rewrite E. cbn [bind].
    pose proof (srel_steps _ _ _ _ _ srel_empty E) as SR. apply (sr_runs _ _ SR) in R.
    unfold finish. destruct (c_instrs V W c); [congruence|eauto].
Qed.

Lemma some_neq : forall A (o : option A), o <> None <-> exists a, o = Some a.
Proof. intros A [a|]; split; [eauto|congruence|congruence|intros (a & E); discriminate]. Qed.

Lemma instr_scoped_all : forall mods i, instr_scoped mods i.
Proof.
  intros mods. apply (sinstr_all (instr_scoped mods)
    (fun v => forall pre c x, srel pre c ->
       ((exists pv, compile_value mods v c = Ok pv) <-> allowed V W nm mods pre (SAssign x v)))).
  - intros n k pre c S. split.
    + intros (c' & E). apply compile_instr_inv in E. destruct E as (m & F & N & _). constructor.
      * apply fetch_module_some. eauto.
      * intros B. apply (sr_mod _ _ S (nm n)) in B. congruence.
    + intros A. inversion A as [? ? ? M N| | | | | | | |]. subst. apply fetch_module_some in M. destruct M as (m & M).
      cbn [InterpModel.compile_instr]. unfold compile_module. rewrite M.
      destruct (mget (nm n) (c_modules V W c)) eqn:G; [|eauto]. exfalso. apply N. apply (sr_mod _ _ S). congruence.
  - intros n m pre c S. split.
    + intros (c' & E). apply compile_instr_inv in E. destruct E as (md & N & F & _). constructor.
      * apply (sr_mod _ _ S). congruence.
      * intros B. apply (sr_app _ _ S (nm n)) in B. congruence.
    + intros A. inversion A as [|? ? ? M N| | | | | | |]. subst.
      cbn [InterpModel.compile_instr]. unfold compile_application.
      destruct (mget (nm n) (c_apps V W c)) eqn:G.
      { exfalso. apply N. apply (sr_app _ _ S). congruence. }
      apply (sr_mod _ _ S (nm m)) in M. destruct (mget (nm m) (c_modules V W c)); [eauto|congruence].
  - intros n b pre c S. split.
    + intros (c' & E). apply compile_instr_inv in E. destruct E as (N & _).
      constructor; intros B; apply (sr_param _ _ S (nm n)) in B; destruct B as (p & B & _); congruence.
    + intros A. inversion A as [| |? ? ? N1 N2| | | | | |]. subst.
      cbn [InterpModel.compile_instr]. unfold compile_parameter.
      destruct (mget (nm n) (c_params V W c)) as [p|] eqn:G; [|eauto]. exfalso.
      destruct (p_input p) eqn:P; [apply N1 | apply N2]; apply (sr_param _ _ S); eauto.
  - intros x v IH pre c S. rewrite <- (IH pre c x S). rewrite compile_instr_assign. split.
    + intros (c' & E). apply bind_Ok_inv in E. destruct E as (pv & E & _). eauto.
    + intros (pv & E). rewrite E. cbn. eauto.
  - intros x t a pre c S. split.
    + intros (c' & E). apply compile_instr_inv in E. destruct E as (pv & i & m & atts & F & G & _). constructor.
      * unfold compile_attachment_value in F. destruct (mget (nm x) (c_values V W c)) eqn:GV.
        -- left. apply (sr_value _ _ S). congruence.
        -- right. apply (sr_param _ _ S). destruct (mget (nm x) (c_params V W c)) as [p|]; [|discriminate].
           destruct (p_input p) eqn:P; [eauto|discriminate].
      * apply (sr_app _ _ S). congruence.
    + intros A. inversion A as [| | | | | | |? ? ? ? D B|]. subst.
      cbn [InterpModel.compile_instr]. unfold compile_attachment.
      apply (sr_app _ _ S (nm a)) in B. destruct (mget (nm a) (c_apps V W c)) as [[i m atts]|]; [|congruence].
      assert (X : exists pv, compile_attachment_value V W nm x c = Ok pv).
      { unfold compile_attachment_value. destruct (mget (nm x) (c_values V W c)) eqn:GV; [eauto|].
        destruct D as [D|D]; [apply (sr_value _ _ S (nm x)) in D; congruence|].
        apply (sr_param _ _ S (nm x)) in D. destruct D as (p & -> & ->). eauto. }
      destruct X as (pv & ->). cbn. eauto.
  - intros a pre c S. split.
    + intros (c' & E). apply compile_instr_inv in E. destruct E as (pa & G & _). constructor.
      apply (sr_app _ _ S). congruence.
    + intros A. inversion A as [| | | | | | | |? ? B]. subst. apply (sr_app _ _ S (nm a)) in B.
      cbn [InterpModel.compile_instr]. unfold compile_execution.
      destruct (mget (nm a) (c_apps V W c)); [eauto|congruence].
  - intros y pre c x S. cbn [InterpModel.compile_value]. split.
    + intros (pv & E). constructor. apply (sr_param _ _ S).
      destruct (mget (nm y) (c_params V W c)) as [p|]; [|discriminate]. destruct (p_input p) eqn:P; [eauto|discriminate].
    + intros A. inversion A as [| | |? ? ? B| | | | |]. subst. apply (sr_param _ _ S (nm y)) in B.
      destruct B as (p & -> & ->). eauto.
  - intros b pre c x S. split; [constructor|]. intros _. cbn. eauto.
  - intros l F pre c x S. rewrite compile_value_instrs'. pose proof (finish_scoped mods l F) as FS. split.
    + intros (pv & E). apply bind_Ok_inv in E. destruct E as (p & E & _). constructor. apply FS. eauto.
    + intros A. inversion A as [| | | | |? ? ? B| | |]. subst. apply FS in B. destruct B as (p & ->). cbn. eauto.
  - intros a pre c x S. cbn [InterpModel.compile_value]. split.
    + intros (pv & E). constructor. apply (sr_app _ _ S). destruct (mget (nm a) (c_apps V W c)); [congruence|discriminate].
    + intros A. inversion A as [| | | | | |? ? ? B| |]. subst. apply (sr_app _ _ S (nm a)) in B.
      destruct (mget (nm a) (c_apps V W c)); [eauto|congruence].
Qed.

Theorem compile_scoped : forall mods l,
  (exists p, compile V W nm mods l = Ok p) <-> scoped V W nm mods l.
Proof. intros. apply finish_scoped. apply Forall_forall. intros. apply instr_scoped_all. Qed.

(** Compile returns a program or an error. *)
Definition ok_or_err {A} (o : outcome A) : Prop := o <> Panic /\ o <> Fuel.

Lemma ok_or_err_bind : forall A B (o : outcome A) (f : A -> outcome B),
  ok_or_err o -> (forall a, ok_or_err (f a)) -> ok_or_err (do x <- o; f x).
Proof. intros A B o f [P Q] F. destruct o; cbn; auto; split; congruence. Qed.

Lemma compile_list_ok_or_err : forall mods l,
  Forall (fun i => forall c, ok_or_err (compile_instr mods i c)) l ->
  forall c, ok_or_err (compile_list mods l c).
Proof.
  intros mods. induction 1 as [|i l P F IH]; intros c; cbn [InterpModel.compile_list].
  - split; discriminate.
  - apply ok_or_err_bind; auto.
Qed.

Lemma finish_ok_or_err : forall c : cstate, ok_or_err (finish V W c).
Proof. intros c. unfold finish. destruct (c_instrs V W c); split; discriminate. Qed.

Lemma compile_instr_ok_or_err : forall mods i c, ok_or_err (compile_instr mods i c).
Proof.
  intros mods. apply (sinstr_all (fun i => forall c, ok_or_err (compile_instr mods i c))
                                 (fun v => forall c, ok_or_err (compile_value mods v c))).
  - intros n k c. cbn [InterpModel.compile_instr]. unfold compile_module.
    destruct (fetch_module V W mods k); [|split; discriminate].
    destruct (mget (nm n) (c_modules V W c)); split; discriminate.
  - intros n m c. cbn [InterpModel.compile_instr]. unfold compile_application.
    destruct (mget (nm n) (c_apps V W c)); [split; discriminate|].
    destruct (mget (nm m) (c_modules V W c)); split; discriminate.
  - intros n b c. cbn [InterpModel.compile_instr]. unfold compile_parameter.
    destruct (mget (nm n) (c_params V W c)); split; discriminate.
  - intros x v IH c. rewrite compile_instr_assign. apply ok_or_err_bind; auto. intros; split; discriminate.
  - intros x t a c. cbn [InterpModel.compile_instr]. unfold compile_attachment. apply ok_or_err_bind.
    + unfold compile_attachment_value. destruct (mget (nm x) (c_values V W c)); [split; discriminate|].
      destruct (mget (nm x) (c_params V W c)) as [p|]; [destruct (p_input p)|]; split; discriminate.
    + intros pv. destruct (mget (nm a) (c_apps V W c)) as [[i m atts]|]; split; discriminate.
  - intros a c. cbn [InterpModel.compile_instr]. unfold compile_execution.
    destruct (mget (nm a) (c_apps V W c)); split; discriminate.
  - intros y c. cbn [InterpModel.compile_value].
    destruct (mget (nm y) (c_params V W c)) as [p|]; [destruct (p_input p)|]; split; discriminate.
  - intros b c. split; discriminate.
  - intros l F c. rewrite compile_value_instrs. apply ok_or_err_bind; [apply compile_list_ok_or_err; auto|].
    intros c'. apply ok_or_err_bind; [apply finish_ok_or_err|]. intros; split; discriminate.
  - intros a c. cbn [InterpModel.compile_value]. destruct (mget (nm a) (c_apps V W c)); split; discriminate.
Qed.

Theorem compile_ok_or_err : forall mods l, (exists p, compile V W nm mods l = Ok p) \/ compile V W nm mods l = Err.
Proof.
  intros mods l. assert (X : ok_or_err (compile V W nm mods l)).
  { apply ok_or_err_bind; [apply compile_list_ok_or_err|apply finish_ok_or_err].
    apply Forall_forall. intros. apply compile_instr_ok_or_err. }
  destruct X as [P Q]. destruct (compile V W nm mods l); eauto; congruence.
Qed.

(** ** Growth of the compile state *)
Record grows (c c' : cstate) (new : list instr) (outs : list nat) : Prop := {
  g_instrs : c_instrs V W c' = c_instrs V W c ++ new;
  g_outputs : c_outputs V W c' = c_outputs V W c ++ outs;
  g_new : Forall (fun o => length (c_instrs V W c) <= o /\
                           exists v, nth_error new (o - length (c_instrs V W c)) = Some (IValue V W v)) outs;
  g_params : forall k p, mget k (c_params V W c) = Some p -> mget k (c_params V W c') = Some p
}.

Lemma grows_refl_on : forall c c', c_instrs V W c' = c_instrs V W c -> c_outputs V W c' = c_outputs V W c ->
  (forall k p, mget k (c_params V W c) = Some p -> mget k (c_params V W c') = Some p) -> grows c c' [] [].
Proof. intros c c' E1 E2 E3. split; rewrite ?app_nil_r; auto. Qed.

Lemma instr_grows : forall mods i c c', compile_instr mods i c = Ok c' -> exists new outs, grows c c' new outs.
Proof.
  intros mods i c c' E. apply compile_instr_inv in E. destruct i as [n k|n m|n b|x v|x t a|a].
  - destruct E as (m & _ & _ & ->). exists [], []. apply grows_refl_on; auto.
  - destruct E as (md & _ & _ & ->). exists [], []. apply grows_refl_on; auto.
  - destruct E as (N & ->). exists [], []. apply grows_refl_on; auto. cbn. intros k p G. rewrite mget_mset.
    destruct (bytes_eqb k (nm n)) eqn:K; auto. apply bytes_eqb_true in K. congruence.
  - destruct E as (pv & _ & ->). unfold compile_assign.
    destruct (mget (nm x) (c_params V W c)) as [p|]; [destruct (p_input p)|].
    + exists [IValue V W pv], []. split; cbn; auto. rewrite app_nil_r. auto.
    + exists [IValue V W pv], [length (c_instrs V W c)]. split; cbn; auto. constructor; auto.
      split; auto. rewrite Nat.sub_diag. cbn. eauto.
    + exists [IValue V W pv], []. split; cbn; auto. rewrite app_nil_r. auto.
  - destruct E as (pv & i & m & atts & _ & _ & ->). exists [], []. apply grows_refl_on; auto.
  - destruct E as (pa & _ & ->). exists [IExec V W pa], []. split; cbn; auto. rewrite app_nil_r. auto.
Qed.

Lemma grows_trans : forall c1 c2 c3 n1 o1 n2 o2, grows c1 c2 n1 o1 -> grows c2 c3 n2 o2 ->
  grows c1 c3 (n1 ++ n2) (o1 ++ o2).
Proof.
  intros c1 c2 c3 n1 o1 n2 o2 [I1 O1 N1 P1] [I2 O2 N2 P2]. split.
  - rewrite I2, I1, app_assoc. reflexivity.
  - rewrite O2, O1, app_assoc. reflexivity.
  - apply Forall_app. split.
    + eapply Forall_impl; [|exact N1]. cbn. intros o (L & v & E). split; auto. exists v.
      rewrite nth_error_app1; auto. apply nth_error_Some. congruence.
    + eapply Forall_impl; [|exact N2]. cbn. intros o (L & v & E). rewrite I1, app_length in L, E. split; [lia|].
      exists v. rewrite nth_error_app2 by lia. rewrite <- E. f_equal. lia.
  - auto.
Qed.

Lemma list_grows : forall mods l c c', compile_list mods l c = Ok c' -> exists new outs, grows c c' new outs.
Proof.
  intros mods. induction l as [|i l IH]; intros c c' E; cbn [InterpModel.compile_list] in E.
  - injection E as <-. exists [], []. apply grows_refl_on; auto.
  - apply bind_Ok_inv in E. destruct E as (c1 & E1 & E2).
    apply instr_grows in E1. destruct E1 as (n1 & o1 & G1). apply IH in E2. destruct E2 as (n2 & o2 & G2).
    exists (n1 ++ n2), (o1 ++ o2). eapply grows_trans; eauto.
Qed.

(** ** Execution of instruction lists *)
Notation exec_instrs := (exec_instrs V vbytes vlist W).

Lemma exec_instr_value : forall input v,
  exec_instr V vbytes vlist W input (IValue V W v) =
  seq W (exec_value V vbytes vlist W input v) (fun x => ret W (Some x)).
Proof. reflexivity. Qed.

Lemma exec_instr_exec : forall input a,
  exec_instr V vbytes vlist W input (IExec V W a) =
  seq W (exec_app V vbytes vlist W input a) (fun _ => ret W None).
Proof. reflexivity. Qed.

Lemma exec_value_input : forall input n,
  exec_value V vbytes vlist W input (PInput V W n) =
  match nth_error input n with Some x => ret W x | None => fail W end.
Proof. reflexivity. Qed.

Definition shape (i : instr) (x : option V) : Prop :=
  match i with IValue _ _ _ => x <> None | IExec _ _ _ => x = None end.

Lemma exec_instrs_cons : forall input i l vals w,
  exec_instrs input (i :: l) vals w =
  seq W (exec_instr V vbytes vlist W input i) (fun x => exec_instrs input l (vals ++ [x])) w.
Proof. reflexivity. Qed.

Lemma exec_instrs_shape : forall input l vals w vals' w',
  exec_instrs input l vals w = (Ok vals', w') -> exists r, vals' = vals ++ r /\ Forall2 shape l r.
Proof.
  intros input l. induction l as [|i l IH]; intros vals w vals' w' E.
  - injection E as <- <-. exists []. rewrite app_nil_r. auto.
  - rewrite exec_instrs_cons in E. unfold seq in E.
    destruct (exec_instr V vbytes vlist W input i w) as [[a| | |] w1] eqn:EI; try discriminate.
    apply IH in E. destruct E as (r & -> & F). exists (a :: r). rewrite <- app_assoc. split; auto.
    constructor; auto. destruct i as [v|a0]; [rewrite exec_instr_value in EI|rewrite exec_instr_exec in EI]; unfold seq, ret in EI.
    + destruct (exec_value V vbytes vlist W input v w) as [[x| | |] w2]; try discriminate. injection EI as <- <-. discriminate.
    + destruct (exec_app V vbytes vlist W input a0 w) as [[x| | |] w2]; try discriminate. injection EI as <- <-. reflexivity.
Qed.

Lemma exec_instrs_shift : forall input l vals w,
  exec_instrs input l vals w = seq W (exec_instrs input l []) (fun r => ret W (vals ++ r)) w.
Proof.
  intros input. induction l as [|i l IH]; intros vals w.
  - cbn. unfold seq, ret. rewrite app_nil_r. reflexivity.
  - rewrite exec_instrs_cons. unfold seq at 2. rewrite exec_instrs_cons. unfold seq.
    destruct (exec_instr V vbytes vlist W input i w) as [[a| | |] w1]; auto.
    rewrite (IH (vals ++ [a])), (IH ([] ++ [a])). unfold seq.
    destruct (exec_instrs input l [] w1) as [[r| | |] w2]; auto. cbn. rewrite <- app_assoc. reflexivity.
Qed.

Lemma forall2_nth : forall A B (P : A -> B -> Prop) l r n a, Forall2 P l r -> nth_error l n = Some a ->
  exists b, nth_error r n = Some b /\ P a b.
Proof.
  intros A B P l r n a F. revert n. induction F as [|x y l r H F IH]; intros n E; destruct n; try discriminate; cbn in *.
  - injection E as <-. eauto.
  - auto.
Qed.

Lemma forall2_length : forall A B (P : A -> B -> Prop) l r, Forall2 P l r -> length l = length r.
Proof. induction 1; cbn; congruence. Qed.

(** The outputs of a compiled program are found. *)
Lemma select_found : forall outs vals,
  Forall (fun o => exists v, nth_error vals o = Some (Some v)) outs ->
  exists r, select V vals outs = Ok r /\ length r = length outs /\
            forall j o, nth_error outs j = Some o -> exists v, nth_error vals o = Some (Some v) /\ nth_error r j = Some v.
Proof.
  intros outs vals F. induction F as [|o outs (v & E) F IH]; cbn [select].
  - exists []. split; auto. split; auto. intros [|j]; discriminate.
  - destruct IH as (r & S & L & N). rewrite E, S. exists (v :: r). cbn. split; auto. split; [congruence|].
    intros [|j] o' H; cbn in *; [injection H as <-; eauto | auto].
Qed.

Lemma select_app2 : forall vals o1 o2,
  select V vals (o1 ++ o2) = (do r1 <- select V vals o1; do r2 <- select V vals o2; Ok (r1 ++ r2)).
Proof.
  intros vals o1 o2. induction o1 as [|o o1 IH]; cbn [select app].
  - cbn [bind]. destruct (select V vals o2); reflexivity.
  - destruct (nth_error vals o) as [[v|]|]; try reflexivity. rewrite IH.
    destruct (select V vals o1); cbn; auto. destruct (select V vals o2); reflexivity.
Qed.

Lemma select_shift : forall vals1 vals2 outs n, length vals1 = n -> Forall (fun o => n <= o) outs ->
  select V (vals1 ++ vals2) outs = select V vals2 (map (fun o => o - n) outs).
Proof.
  intros vals1 vals2 outs n L F. induction F as [|o outs H F IH]; cbn [select map]; auto.
  rewrite nth_error_app2 by lia. rewrite L, IH. reflexivity.
Qed.

Lemma grows_found : forall c c' new outs input vals w vals' w',
  grows c c' new outs -> length vals = length (c_instrs V W c) ->
  exec_instrs input new vals w = (Ok vals', w') ->
  Forall (fun o => exists v, nth_error vals' o = Some (Some v)) outs.
Proof.
  intros c c' new outs input vals w vals' w' G L E. apply exec_instrs_shape in E. destruct E as (r & -> & F).
  eapply Forall_impl; [|apply (g_new _ _ _ _ G)]. cbn. intros o (Ho & v & N).
  destruct (forall2_nth _ _ _ _ _ _ _ F N) as (x & Nx & Sx). cbn in Sx. destruct x as [x|]; [|congruence].
  exists x. rewrite nth_error_app2 by lia. rewrite L. exact Nx.
Qed.

Definition len_ok (vals : list (option V)) (l : list instr) : Prop := length vals = length l.

Lemma exec_len : forall input l w vals w', exec_instrs input l [] w = (Ok vals, w') -> length vals = length l.
Proof.
  intros input l w vals w' E. apply exec_instrs_shape in E. destruct E as (r & -> & F). cbn. symmetry.
  eapply forall2_length; eauto.
Qed.

Lemma compile_inv : forall mods l p, compile V W nm mods l = Ok p ->
  exists c, compile_list mods l (c_empty V W) = Ok c /\ c_instrs V W c <> [] /\
            p = Prog V W (c_instrs V W c) (c_outputs V W c).
Proof.
  intros mods l p E. unfold compile in E. apply bind_Ok_inv in E. destruct E as (c & E & F). exists c.
  unfold finish in F. destruct (c_instrs V W c) eqn:I; [discriminate|]. injection F as <-. repeat split; auto. discriminate.
Qed.

(** A compiled program never reports a missing output. *)
Theorem outputs_found : forall mods l p is outs, compile V W nm mods l = Ok p -> p = Prog V W is outs ->
  forall input w vals w',
  exec_instrs input is [] w = (Ok vals, w') ->
  exists r, execute V vbytes vlist W input p w = (Ok r, w') /\ select V vals outs = Ok r /\ length r = length outs.
Proof.
  intros mods l p is outs E Ep input w vals w' X. apply compile_inv in E. destruct E as (c & E & _ & ->).
  injection Ep as <- <-. apply list_grows in E. destruct E as (new & o & G). pose proof G as G0. destruct G as [GI GO GN _].
  cbn in GI, GO. rewrite GI, GO in *.
  destruct (select_found o vals) as (r & S & L & _).
  { eapply (grows_found _ _ _ _ input [] w vals w' G0); auto. }
  exists r. unfold execute. rewrite exec_prog_eq. unfold seq. rewrite X, S. auto.
Qed.

(** ** Number of outputs *)
Definition out_keys (c : cstate) (declared : list bytes) : Prop :=
  forall k, existsb (bytes_eqb k) declared = true <-> exists p, mget k (c_params V W c) = Some p /\ p_input p = false.

Lemma returned_list : forall mods l c c' declared, out_keys c declared -> compile_list mods l c = Ok c' ->
  length (c_outputs V W c') = length (c_outputs V W c) + length (returned nm declared l).
Proof.
  intros mods. induction l as [|i l IH]; intros c c' declared K E; cbn [InterpModel.compile_list] in E.
  - injection E as <-. cbn. lia.
  - apply bind_Ok_inv in E. destruct E as (c1 & E1 & E2). apply compile_instr_inv in E1.
    destruct i as [n k|n m|n b|x v|x t a|a]; cbn [returned].
    + destruct E1 as (m & _ & _ & ->). apply (IH _ _ declared) in E2; [exact E2|exact K].
    + destruct E1 as (md & _ & _ & ->). apply (IH _ _ declared) in E2; [exact E2|exact K].
    + destruct E1 as (N & ->). destruct b.
      * apply (IH _ _ declared) in E2; [exact E2|]. intros k. rewrite (K k). cbn. rewrite mget_mset.
        destruct (bytes_eqb k (nm n)) eqn:B; [|reflexivity]. apply bytes_eqb_true in B. subst k. rewrite N.
        split; intros (p & P & Q); [discriminate|]. injection P as <-. discriminate.
      * apply (IH _ _ (nm n :: declared)) in E2; [exact E2|]. intros k. cbn. rewrite mget_mset.
        destruct (bytes_eqb k (nm n)) eqn:B; cbn; [|apply K]. split; [eauto|auto].
    + destruct E1 as (pv & _ & ->). apply (IH _ _ declared) in E2; [|exact K]. rewrite E2. unfold compile_assign.
      cbn [c_outputs]. specialize (K (nm x)). destruct (existsb (bytes_eqb (nm x)) declared) eqn:B.
      * destruct (proj1 K eq_refl) as (p & -> & ->). rewrite app_length. cbn. lia.
      * destruct (mget (nm x) (c_params V W c)) as [p|]; [|reflexivity]. destruct (p_input p) eqn:P; [reflexivity|].
        assert (X : false = true) by (apply K; eauto). discriminate.
    + destruct E1 as (pv & i & m & atts & _ & _ & ->). apply (IH _ _ declared) in E2; [exact E2|exact K].
    + destruct E1 as (pa & _ & ->). apply (IH _ _ declared) in E2; [exact E2|exact K].
Qed.

Lemma out_keys_empty : out_keys (c_empty V W) [].
Proof. intros k. cbn. split; [discriminate|]. intros (p & P & _). discriminate. Qed.

Lemma execute_inv : forall input is outs w r w',
  execute V vbytes vlist W input (Prog V W is outs) w = (Ok r, w') ->
  exists vals, exec_instrs input is [] w = (Ok vals, w') /\ select V vals outs = Ok r.
Proof.
  intros input is outs w r w' E. unfold execute in E. rewrite exec_prog_eq in E. unfold seq in E.
  destruct (exec_instrs input is [] w) as [[vals| | |] w1]; try discriminate. injection E as E <-. eauto.
Qed.

Theorem outputs_count : forall mods l p input w r w',
  compile V W nm mods l = Ok p -> execute V vbytes vlist W input p w = (Ok r, w') ->
  length r = length (returned nm [] l).
Proof.
  intros mods l p input w r w' E X. destruct (compile_inv _ _ _ E) as (c & EL & NE & Ep).
  rewrite Ep in X. apply execute_inv in X. destruct X as (vals & XV & S).
  destruct (outputs_found _ _ _ _ _ E Ep input w vals w' XV) as (r' & _ & S' & L).
  rewrite S in S'. injection S' as <-. rewrite L, (returned_list _ _ _ _ _ out_keys_empty EL). reflexivity.
Qed.

(** ** Extension of a program *)
Theorem execute_app : forall mods l1 l2 p1 p2 input,
  compile V W nm mods l1 = Ok p1 -> compile V W nm mods (l1 ++ l2) = Ok p2 ->
  exists k : comp (list V), forall w,
    execute V vbytes vlist W input p2 w =
    seq W (execute V vbytes vlist W input p1) (fun o1 => seq W k (fun o2 => ret W (o1 ++ o2))) w.
Proof.
  intros mods l1 l2 p1 p2 input E1 E2.
  destruct (compile_inv _ _ _ E1) as (c1 & EL1 & _ & Ep1). destruct (compile_inv _ _ _ E2) as (c2 & EL2 & _ & Ep2).
  rewrite compile_list_app, EL1 in EL2. cbn [bind] in EL2.
  apply list_grows in EL2. destruct EL2 as (new & outs & G). pose proof G as G0. destruct G as [GI GO GN _].
  exists (seq W (exec_instrs input new []) (fun vals w => (select V vals (map (fun o => o - length (c_instrs V W c1)) outs), w))).
  intros w. subst p2. unfold execute at 1. rewrite exec_prog_eq, GI. unfold seq at 1. rewrite exec_instrs_app.
  unfold seq at 1 2.
  destruct (exec_instrs input (c_instrs V W c1) [] w) as [[vals1| | |] w1] eqn:X1.
  - destruct (outputs_found _ _ _ _ _ E1 Ep1 input w vals1 w1 X1) as (r1 & Y1 & S1 & _). rewrite Y1.
    rewrite exec_instrs_shift. unfold seq, ret.
    destruct (exec_instrs input new [] w1) as [[vals2| | |] w2] eqn:X2; auto.
    assert (LV : length vals1 = length (c_instrs V W c1)) by (eapply exec_len; eauto).
    rewrite GO, select_app2, (select_app V _ _ _ _ S1). cbn [bind].
    rewrite (select_shift vals1 vals2 outs _ LV).
    2:{ eapply Forall_impl; [|exact GN]. cbn. intros o [H _]. exact H. }
    destruct (select V vals2 (map (fun o => o - length (c_instrs V W c1)) outs)); reflexivity.
  - subst p1. unfold execute. rewrite exec_prog_eq. unfold seq. rewrite X1. reflexivity.
  - subst p1. unfold execute. rewrite exec_prog_eq. unfold seq. rewrite X1. reflexivity.
  - subst p1. unfold execute. rewrite exec_prog_eq. unfold seq. rewrite X1. reflexivity.
Qed.

(** ** Sub-programs *)
Theorem subprogram : forall mods pre x l p0 q input,
  compile V W nm mods pre = Ok p0 -> compile V W nm mods l = Ok q ->
  exists p, compile V W nm mods (pre ++ [SAssign x (SVInstrs l)]) = Ok p /\
  forall w, execute V vbytes vlist W input p w =
    seq W (execute V vbytes vlist W input p0) (fun o1 =>
      seq W (execute V vbytes vlist W input q) (fun r =>
        ret W (o1 ++ map (fun _ => vlist r) (skipn (length (returned nm [] pre)) (returned nm [] (pre ++ [SAssign x (SVInstrs l)])))))) w.
Proof.
  intros mods pre x l p0 q input E0 Eq.
  destruct (compile_inv _ _ _ E0) as (c & EL & NE & Ep0).
  set (v := PProg V W q).
  assert (EI : compile_instr mods (SAssign x (SVInstrs l)) c = Ok (compile_assign V W nm x v c)).
  { rewrite compile_instr_assign, compile_value_instrs', Eq. reflexivity. }
  assert (EF : compile_list mods (pre ++ [SAssign x (SVInstrs l)]) (c_empty V W) = Ok (compile_assign V W nm x v c)).
  { rewrite compile_list_app, EL. cbn [bind InterpModel.compile_list]. rewrite EI. reflexivity. }
  assert (EP : compile V W nm mods (pre ++ [SAssign x (SVInstrs l)]) =
               Ok (Prog V W (c_instrs V W c ++ [IValue V W v]) (c_outputs V W (compile_assign V W nm x v c)))).
  { unfold compile. rewrite EF. cbn [bind]. unfold finish. cbn [compile_assign c_instrs].
    destruct (c_instrs V W c); reflexivity. }
  eexists. split; [exact EP|]. intros w.
  pose proof (returned_list _ _ _ _ _ out_keys_empty EL) as R1.
  pose proof (returned_list _ _ _ _ _ out_keys_empty EF) as R2. cbn [c_empty c_outputs length plus] in R1, R2.
  unfold execute at 1. rewrite exec_prog_eq. unfold seq at 1. rewrite exec_instrs_app. unfold seq at 1 2.
  destruct (exec_instrs input (c_instrs V W c) [] w) as [[vals1| | |] w1] eqn:X1;
    try (subst p0; unfold execute; rewrite exec_prog_eq; unfold seq; rewrite X1; reflexivity).
  destruct (outputs_found _ _ _ _ _ E0 Ep0 input w vals1 w1 X1) as (r1 & Y1 & S1 & _). rewrite Y1.
  rewrite exec_instrs_value. unfold v at 1. rewrite exec_value_prog. rewrite seq_assoc. unfold execute, seq, ret.
  destruct (exec_prog V vbytes vlist W input q w1) as [[r| | |] w2]; auto.
  assert (LV : length vals1 = length (c_instrs V W c)) by (eapply exec_len; eauto).
  f_equal. revert R2. unfold compile_assign. cbn [c_outputs].
  destruct (mget (nm x) (c_params V W c)) as [p|]; [destruct (p_input p)|]; intros R2.
  - rewrite (select_app V _ _ _ _ S1). rewrite skipn_all2 by lia. cbn. rewrite app_nil_r. reflexivity.
  - rewrite (select_snoc V _ _ _ r1 (vlist r) (select_app V _ _ _ _ S1)).
    + rewrite app_length in R2. cbn in R2.
      assert (L : length (skipn (length (returned nm [] pre)) (returned nm [] (pre ++ [SAssign x (SVInstrs l)]))) = 1)
        by (rewrite skipn_length; lia).
      destruct (skipn (length (returned nm [] pre)) (returned nm [] (pre ++ [SAssign x (SVInstrs l)]))) as [|k [|]];
        try discriminate. reflexivity.
    + rewrite <- LV, nth_error_app2, Nat.sub_diag by lia. reflexivity.
  - rewrite (select_app V _ _ _ _ S1). rewrite skipn_all2 by lia. cbn. rewrite app_nil_r. reflexivity.
Qed.

(** ** Inputs *)
Lemma count_params : forall mods l c c', compile_list mods l c = Ok c' ->
  length (filter (fun kp => p_input (snd kp)) (c_params V W c')) =
  length (filter (fun kp => p_input (snd kp)) (c_params V W c)) + inputs_of l.
Proof.
  intros mods. unfold inputs_of. induction l as [|i l IH]; intros c c' E; cbn [InterpModel.compile_list] in E.
  - injection E as <-. cbn. lia.
  - apply bind_Ok_inv in E. destruct E as (c1 & E1 & E2). rewrite (IH _ _ E2). clear IH E2.
    apply compile_instr_inv in E1. destruct i as [n k|n m|n b|x v|x t a|a]; cbn [filter is_input_param].
    + destruct E1 as (m & _ & _ & ->). reflexivity.
    + destruct E1 as (md & _ & _ & ->). reflexivity.
    + destruct E1 as (N & ->). cbn [c_params]. rewrite mset_new by assumption. rewrite filter_app, app_length.
      destruct b; cbn; lia.
    + destruct E1 as (pv & _ & ->). reflexivity.
    + destruct E1 as (pv & i & m & atts & _ & _ & ->). reflexivity.
    + destruct E1 as (pa & _ & ->). reflexivity.
Qed.

Theorem input_received : forall mods pre x mid o y post p input w r w',
  compile V W nm mods (pre ++ SParam x true :: mid ++ SAssign o (SVVar y) :: post) = Ok p ->
  nm y = nm x ->
  param_before nm (pre ++ SParam x true :: mid) o false ->
  execute V vbytes vlist W input p w = (Ok r, w') ->
  inputs_of pre < length input /\
  nth_error r (length (returned nm [] (pre ++ SParam x true :: mid))) = nth_error input (inputs_of pre).
Proof.
  intros mods pre x mid o y post p input w r w' E Y D X.
  destruct (compile_inv _ _ _ E) as (c & EL & NE & Ep).
  replace (pre ++ SParam x true :: mid ++ SAssign o (SVVar y) :: post)
    with ((pre ++ SParam x true :: mid) ++ SAssign o (SVVar y) :: post) in EL
    by (rewrite <- app_assoc; reflexivity).
  rewrite compile_list_app in EL. apply bind_Ok_inv in EL. destruct EL as (c2 & EL1 & EL2).
  pose proof EL1 as EL1'. rewrite compile_list_app in EL1'. apply bind_Ok_inv in EL1'. destruct EL1' as (c0 & EP & EM).
  cbn [InterpModel.compile_list] in EM, EL2.
  apply bind_Ok_inv in EM. destruct EM as (c1 & E1 & EM). apply bind_Ok_inv in EL2. destruct EL2 as (c3 & E3 & EL3).
  apply compile_instr_inv in E1. destruct E1 as (N & Ec1).
  apply list_grows in EM. destruct EM as (n2 & o2 & G2).
  assert (P2 : exists p, mget (nm x) (c_params V W c2) = Some p /\ p_input p = true /\ p_index p = inputs_of pre).
  { pose proof (count_params _ _ _ _ EP) as CP. cbn in CP.
    eexists. split; [apply (g_params _ _ _ _ G2); subst c1; cbn; rewrite mget_mset, bytes_eqb_refl; reflexivity|].
    split; [reflexivity|]. exact CP. }
  destruct P2 as (px & P2 & Pi & Pn).
  apply compile_instr_inv in E3. destruct E3 as (pv & EV & Ec3).
  cbn [InterpModel.compile_value] in EV. rewrite Y, P2, Pi in EV. injection EV as <-. rewrite Pn in Ec3.
  pose proof (srel_steps _ _ _ _ _ srel_empty EL1) as S. cbn [app] in S.
  apply (sr_param _ _ S (nm o) false) in D. destruct D as (po & Po & Pof).
  pose proof (returned_list _ _ _ _ _ out_keys_empty EL1) as RC. cbn [c_empty c_outputs length plus] in RC.
  apply list_grows in EL3. destruct EL3 as (n4 & o4 & [G4I G4O _ _]).
  subst c3. unfold compile_assign in G4I, G4O. cbn [c_instrs c_outputs] in G4I, G4O. rewrite Po, Pof in G4O.
  pose proof Ep as Ep'. rewrite Ep in X. apply execute_inv in X. destruct X as (vals & XV & SV).
  rewrite G4I in XV. rewrite <- !app_assoc in XV. rewrite exec_instrs_app in XV. unfold seq at 1 in XV.
  destruct (exec_instrs input (c_instrs V W c2) [] w) as [[vals2| | |] w2] eqn:X2; try discriminate.
  cbn [app] in XV. rewrite exec_instrs_cons in XV. unfold seq at 1 in XV. rewrite exec_instr_value, exec_value_input in XV.
  unfold seq at 1 in XV.
  destruct (nth_error input (inputs_of pre)) as [a|] eqn:NI; [|discriminate]. cbn in XV.
  split; [apply nth_error_Some; congruence|].
  assert (LV : length vals2 = length (c_instrs V W c2)) by (eapply exec_len; eauto).
  rewrite exec_instrs_shift in XV. unfold seq in XV.
  destruct (exec_instrs input n4 [] w2) as [[r4| | |] w4]; try discriminate. injection XV as <- _.
  destruct (select_found (c_outputs V W c) ((vals2 ++ [Some a]) ++ r4)) as (r' & S' & L' & F').
  { clear - SV. revert r SV. induction (c_outputs V W c) as [|q outs IH]; intros r SV; constructor; cbn [select] in SV.
    - destruct (nth_error ((vals2 ++ [Some a]) ++ r4) q) as [[v|]|]; try discriminate. eauto.
    - destruct (nth_error ((vals2 ++ [Some a]) ++ r4) q) as [[v|]|]; try discriminate.
      destruct (select V ((vals2 ++ [Some a]) ++ r4) outs) as [r'| | |]; try discriminate. eapply IH. reflexivity. }
  rewrite SV in S'. injection S' as <-.
  destruct (F' (length (returned nm [] (pre ++ SParam x true :: mid))) (length (c_instrs V W c2))) as (v & Nv & Nr).
  { rewrite <- RC. rewrite G4O, <- app_assoc. rewrite nth_error_app2, Nat.sub_diag by lia. reflexivity. }
  rewrite Nr. f_equal. rewrite <- LV, <- app_assoc, nth_error_app2, Nat.sub_diag in Nv by lia. cbn in Nv. congruence.
Qed.

(** ** No run time failure *)
Definition ctotal {A} (m : comp A) : Prop := forall w, exists a w', m w = (Ok a, w').

Lemma ctotal_seq : forall A B (m : comp A) (f : A -> comp B), ctotal m -> (forall a, ctotal (f a)) -> ctotal (seq W m f).
Proof. intros A B m f M F w. unfold seq. destruct (M w) as (a & w' & ->). apply F. Qed.

Lemma ctotal_ret : forall A (a : A), ctotal (ret W a).
Proof. intros A a w. unfold ret. eauto. Qed.

Section Total.
Variable mods : list module.
Variable input : list V.
Hypothesis Hmods : Forall never_fails mods.

Notation exec_value := (exec_value V vbytes vlist W input).

Record tstate (c : cstate) : Prop := {
  t_mod : forall k m, mget k (c_modules V W c) = Some m -> never_fails m;
  t_app : forall k i m atts, mget k (c_apps V W c) = Some (PApp V W i m atts) ->
          never_fails m /\ Forall (fun vt => ctotal (exec_value (fst vt))) atts;
  t_param : forall k p, mget k (c_params V W c) = Some p -> p_input p = true -> p_index p < length input;
  t_value : forall k v, mget k (c_values V W c) = Some v -> ctotal (exec_value v);
  t_instrs : Forall (fun i => ctotal (exec_instr V vbytes vlist W input i)) (c_instrs V W c)
}.

Lemma tstate_empty : tstate (c_empty V W).
Proof. split; cbn; try discriminate. constructor. Qed.

Lemma total_atts : forall atts, Forall (fun vt : value * nat => ctotal (exec_value (fst vt))) atts ->
  forall ps, ctotal (exec_atts V vbytes vlist W input atts ps).
Proof.
  induction 1 as [|[v t] atts P F IH]; intros ps.
  - apply ctotal_ret.
  - cbn [exec_atts]. apply ctotal_seq; auto.
Qed.

Lemma total_app : forall i m atts, never_fails m -> Forall (fun vt : value * nat => ctotal (exec_value (fst vt))) atts ->
  ctotal (exec_app V vbytes vlist W input (PApp V W i m atts)).
Proof.
  intros i m atts NF F. rewrite exec_app_eq. apply ctotal_seq; [apply total_atts; assumption|]. exact NF.
Qed.

Lemma total_input : forall n, n < length input -> ctotal (exec_value (PInput V W n)).
Proof.
  intros n L w. rewrite exec_value_input. destruct (nth_error input n) eqn:E; [apply ctotal_ret|].
  apply nth_error_None in E. lia.
Qed.

Lemma total_instrs : forall l, Forall (fun i => ctotal (exec_instr V vbytes vlist W input i)) l ->
  forall vals, ctotal (exec_instrs input l vals).
Proof.
  induction 1 as [|i l P F IH]; intros vals.
  - apply ctotal_ret.
  - intros w. rewrite exec_instrs_cons. apply ctotal_seq; auto.
Qed.

Definition small_value (v : svalue) : Prop :=
  match v with SVInstrs l => at_most_inputs (length input) l | _ => True end.

Definition small_instr (i : sinstr) : Prop :=
  match i with SAssign _ v => small_value v | _ => True end.

Definition t_instr (i : sinstr) : Prop :=
  small_instr i -> forall c c', tstate c ->
  length (filter (fun kp => p_input (snd kp)) (c_params V W c)) + inputs_of [i] <= length input ->
  compile_instr mods i c = Ok c' -> tstate c'.

Lemma t_list : forall l, Forall t_instr l -> (forall i, In i l -> small_instr i) ->
  forall c c', tstate c ->
  length (filter (fun kp => p_input (snd kp)) (c_params V W c)) + inputs_of l <= length input ->
  compile_list mods l c = Ok c' -> tstate c'.
Proof.
  induction 1 as [|i l P F IH]; intros SM c c' T L E; cbn [InterpModel.compile_list] in E.
  - injection E as <-. exact T.
  - apply bind_Ok_inv in E. destruct E as (c1 & E1 & E2).
    assert (LI : inputs_of (i :: l) = inputs_of [i] + inputs_of l).
    { unfold inputs_of. cbn. destruct (is_input_param i); reflexivity. }
    assert (CE : compile_list mods [i] c = Ok c1) by (cbn [InterpModel.compile_list]; rewrite E1; reflexivity).
    apply count_params in CE.
    apply (IH (fun j I => SM j (or_intror I)) c1 c').
    + apply (P (SM i (or_introl eq_refl)) c c1); auto. lia.
    + lia.
    + exact E2.
Qed.

Lemma total_program : forall l p, Forall t_instr l -> at_most_inputs (length input) l ->
  compile V W nm mods l = Ok p -> ctotal (execute V vbytes vlist W input p).
Proof.
  intros l p F A E. destruct (compile_inv _ _ _ E) as (c & EL & _ & Ep).
  assert (T : tstate c).
  { inversion A as [l' L S]. subst. apply (t_list l F) with (c := c_empty V W); auto using tstate_empty.
    intros i I. destruct i as [n k|n m|n b|x v|x t a|a]; cbn; auto. destruct v; cbn; auto. eauto. }
  intros w. destruct (total_instrs _ (t_instrs _ T) [] w) as (vals & w' & X).
  destruct (outputs_found _ _ _ _ _ E Ep input w vals w' X) as (r & Y & _). eauto.
Qed.

Lemma t_instr_all : forall i, t_instr i.
Proof.
  apply (sinstr_all t_instr (fun v => small_value v -> forall c pv, tstate c -> compile_value mods v c = Ok pv -> ctotal (exec_value pv))).
  - intros n k _ c c' T _ E. apply compile_instr_inv in E. destruct E as (m & F & N & ->).
    destruct T; split; cbn; auto. intros k' m' G. rewrite mget_mset in G. destruct (bytes_eqb k' (nm n)); eauto.
    injection G as <-. apply fetch_module_in in F. rewrite Forall_forall in Hmods. apply Hmods, F.
  - intros n m _ c c' T _ E. apply compile_instr_inv in E. destruct E as (md & N & F & ->).
    destruct T; split; cbn; auto. intros k' i' m' atts G. rewrite mget_mset in G. destruct (bytes_eqb k' (nm n)); eauto.
    injection G as <- <- <-. split; [eauto|constructor].
  - intros n b _ c c' T L E. apply compile_instr_inv in E. destruct E as (N & ->).
    destruct T; split; cbn; auto. intros k p G P. rewrite mget_mset in G. destruct (bytes_eqb k (nm n)); eauto.
    injection G as <-. cbn in P. subst b. cbn in L |- *. lia.
  - intros x v IH S c c' T _ E. apply compile_instr_inv in E. destruct E as (pv & EV & ->).
    pose proof (IH S c pv T EV) as TV. unfold compile_assign. destruct T; split; cbn; auto.
    + intros k v' G. rewrite mget_mset in G. destruct (bytes_eqb k (nm x)); eauto. injection G as <-. exact TV.
    + apply Forall_app. split; auto. constructor; auto. rewrite exec_instr_value. apply ctotal_seq; auto. intros. apply ctotal_ret.
  - intros x t a _ c c' T _ E. apply compile_instr_inv in E. destruct E as (pv & i & m & atts & F & G & ->).
    assert (TV : ctotal (exec_value pv)).
    { unfold compile_attachment_value in F. destruct (mget (nm x) (c_values V W c)) as [v|] eqn:GV.
      - injection F as <-. eapply t_value; eauto.
      - destruct (mget (nm x) (c_params V W c)) as [p|] eqn:GP; [|discriminate]. destruct (p_input p) eqn:P; [|discriminate].
        injection F as <-. apply total_input. eapply t_param; eauto. }
    destruct T; split; cbn; auto. intros k' i' m' atts' G'. rewrite mget_mset in G'. destruct (bytes_eqb k' (nm a)); eauto.
    injection G' as <- <- <-. destruct (t_app0 _ _ _ _ G) as [NF FA]. split; auto. apply Forall_app. auto.
  - intros a _ c c' T _ E. apply compile_instr_inv in E. destruct E as ([i m atts] & G & ->).
    pose proof (t_app _ T _ _ _ _ G) as [NF FA].
    destruct T; split; cbn; auto. apply Forall_app. split; auto. constructor; auto. rewrite exec_instr_exec.
    apply ctotal_seq; [apply total_app; auto|]. intros. apply ctotal_ret.
  - intros y _ c pv T E. cbn [InterpModel.compile_value] in E. destruct (mget (nm y) (c_params V W c)) as [p|] eqn:G; [|discriminate].
    destruct (p_input p) eqn:P; [|discriminate]. injection E as <-. apply total_input. eapply t_param; eauto.
  - intros b _ c pv T E. injection E as <-. apply ctotal_ret.
  - intros l F S c pv T E. rewrite compile_value_instrs' in E. apply bind_Ok_inv in E. destruct E as (p & E & E').
    injection E' as <-. rewrite exec_value_prog. apply ctotal_seq; [|intros; apply ctotal_ret].
    apply (total_program l p F S E).
  - intros a _ c pv T E. cbn [InterpModel.compile_value] in E. destruct (mget (nm a) (c_apps V W c)) as [[i m atts]|] eqn:G; [|discriminate].
    injection E as <-. destruct (t_app _ T _ _ _ _ G). apply (total_app i m atts); auto.
Qed.

Theorem never_fails_program : forall l p, at_most_inputs (length input) l ->
  compile V W nm mods l = Ok p -> forall w, exists r w', execute V vbytes vlist W input p w = (Ok r, w').
Proof.
  intros l p A E. apply (total_program l p); auto. apply Forall_forall. intros. apply t_instr_all.
Qed.

End Total.

End Interp.
