(** Why the execution of a program fails. *)
From Coq Require Import List Arith Lia.
From Verif Require Import Base BaseLemmas InterpModel SpecInterp InterpProofs SpecBlame.
Import ListNotations.

Section Blame.
Variables (V : Type) (vbytes : bytes -> V) (vlist : list V -> V) (W : Type).
Notation comp := (comp W).
Notation value := (value V W).
Notation application := (application V W).
Notation instr := (instr V W).
Notation program := (program V W).
Notation reason := (reason V W).

(** ** Induction over programs *)
Section All.
Variables (Pv : value -> Prop) (Pa : application -> Prop) (Pi : instr -> Prop) (Pp : program -> Prop).
Hypothesis Hinput : forall n, Pv (PInput V W n).
Hypothesis Hconst : forall c, Pv (PConst V W c).
Hypothesis Hexec : forall a, Pa a -> Pv (PExec V W a).
Hypothesis Hprog : forall p, Pp p -> Pv (PProg V W p).
Hypothesis Happ : forall i m atts, Forall (fun x => Pv (fst x)) atts -> Pa (PApp V W i m atts).
Hypothesis Hvalue : forall v, Pv v -> Pi (IValue V W v).
Hypothesis Hrun : forall a, Pa a -> Pi (IExec V W a).
Hypothesis Hprogram : forall l outs, Forall Pi l -> Pp (Prog V W l outs).

Fixpoint value_all (v : value) : Pv v :=
  match v with
  | PInput _ _ n => Hinput n
  | PConst _ _ c => Hconst c
  | PExec _ _ a => Hexec a (app_all a)
  | PProg _ _ p => Hprog p (program_all p)
  end
with app_all (a : application) : Pa a :=
  match a with
  | PApp _ _ i m atts => Happ i m atts
      ((fix go (l : list (value * nat)) : Forall (fun x => Pv (fst x)) l :=
          match l with
          | [] => Forall_nil _
          | x :: l' => Forall_cons x (match x as y return Pv (fst y) with (v, k) => value_all v end) (go l')
          end) atts)
  end
with instr_all (i : instr) : Pi i :=
  match i with
  | IValue _ _ v => Hvalue v (value_all v)
  | IExec _ _ a => Hrun a (app_all a)
  end
with program_all (p : program) : Pp p :=
  match p with
  | Prog _ _ l outs => Hprogram l outs
      ((fix go (l : list instr) : Forall Pi l :=
          match l with [] => Forall_nil _ | i :: l' => Forall_cons i (instr_all i) (go l') end) l)
  end.
End All.

(** ** Reasons *)
Variable input : list V.

Definition reasoned (has : reason -> Prop) {A} (o : outcome A) : Prop :=
  let did P := exists m ps w, has (RModule V W m) /\ P (fst (m_fn V W m ps w)) in
  match o with
  | Ok _ => True
  | Panic => did (fun x => x = Panic)
  | Fuel => did (fun x => x = Fuel)
  | Err => did (fun x => x = Err) \/ (exists n, has (RInput V W n) /\ length input <= n) \/
           (exists l o, has (ROutput V W l o) /\ forall v, nth_error l o <> Some (IValue V W v))
  end.

Lemma reasoned_more (has has' : reason -> Prop) A (o : outcome A) :
  (forall r, has r -> has' r) -> reasoned has o -> reasoned has' o.
Proof.
  intros S. destruct o; cbn; auto.
  - intros [(m & ps & w & I & E)|[(n & I & L)|(l & k & I & N)]]; [left|right; left|right; right]; eauto 8.
  - intros (m & ps & w & I & E). eauto 8.
  - intros (m & ps & w & I & E). eauto 8.
Qed.

Lemma reasoned_seq (has : reason -> Prop) A B (m : comp A) (f : A -> comp B) w :
  reasoned has (fst (m w)) -> (forall a w', m w = (Ok a, w') -> reasoned has (fst (f a w'))) -> reasoned has (fst (seq W m f w)).
Proof. intros R F. unfold seq. destruct (m w) as [[a| | |] w'] eqn:E; cbn [fst] in *; auto. Qed.

Lemma atts_reasoned has atts : Forall (fun x => forall w, reasoned has (fst (exec_value V vbytes vlist W input (fst x) w))) atts ->
  forall ps w, reasoned has (fst (exec_atts V vbytes vlist W input atts ps w)).
Proof.
  induction 1 as [|[v k] atts R _ IH]; intros ps w; cbn [exec_atts]; [exact I|].
  apply reasoned_seq; [apply R|]. intros a w' _. apply IH.
Qed.

Lemma instrs_reasoned has l : Forall (fun i => forall w, reasoned has (fst (exec_instr V vbytes vlist W input i w))) l ->
  forall vals w, reasoned has (fst (exec_instrs V vbytes vlist W input l vals w)).
Proof.
  induction 1 as [|i l R _ IH]; intros vals w; cbn [exec_instrs]; [exact I|].
  apply reasoned_seq; [apply R|]. intros a w' _. apply IH.
Qed.

(** An instruction with a value leaves one. *)
Lemma instrs_valued l : forall vals w vals' w', exec_instrs V vbytes vlist W input l vals w = (Ok vals', w') ->
  exists r, vals' = vals ++ r /\ forall o v, nth_error l o = Some (IValue V W v) -> exists x, nth_error r o = Some (Some x).
Proof.
  induction l as [|i l IH]; intros vals w vals' w'; cbn [exec_instrs].
  - intros [= <- <-]. exists []. rewrite app_nil_r. split; [reflexivity|]. intros [|o] v; discriminate.
  - unfold seq. destruct (exec_instr V vbytes vlist W input i w) as [[a| | |] w1] eqn:E; try discriminate. intros X.
    destruct (IH _ _ _ _ X) as (r & -> & R). exists (a :: r). rewrite <- app_assoc. split; [reflexivity|].
    intros [|o] v; cbn [nth_error]; [|apply R]. intros [= ->].
    change (seq W (exec_value V vbytes vlist W input v) (fun x => ret W (Some x)) w = (Ok a, w1)) in E. unfold seq in E.
    destruct (exec_value V vbytes vlist W input v w) as [[x| | |] w2]; try discriminate. injection E as <- _. eauto.
Qed.

Lemma select_outcome vals outs : (exists r, select V vals outs = Ok r) \/
  (select V vals outs = Err /\ exists o, In o outs /\ forall x, nth_error vals o <> Some (Some x)).
Proof.
  induction outs as [|o outs IH]; cbn [select]; [eauto|].
  destruct (nth_error vals o) as [[x|]|] eqn:E.
  - destruct IH as [(r & ->)|(-> & o' & I & N)]; cbn [bind]; [eauto|]. right. split; auto. exists o'. split; [now right|auto].
  - right. split; auto. exists o. split; [now left|]. intros x. congruence.
  - right. split; auto. exists o. split; [now left|]. intros x. congruence.
Qed.

Lemma program_reasoned p : forall w, reasoned (in_program V W p) (fst (exec_prog V vbytes vlist W input p w)).
Proof.
  apply (program_all
    (fun v => forall w, reasoned (in_value V W v) (fst (exec_value V vbytes vlist W input v w)))
    (fun a => forall w, reasoned (in_app V W a) (fst (exec_app V vbytes vlist W input a w)))
    (fun i => forall w, reasoned (in_instr V W i) (fst (exec_instr V vbytes vlist W input i w)))
    (fun p => forall w, reasoned (in_program V W p) (fst (exec_prog V vbytes vlist W input p w)))).
  - intros n w. change (exec_value V vbytes vlist W input (PInput V W n)) with (match nth_error input n with Some x => ret W x | None => fail W end).
    destruct (nth_error input n) eqn:E; [exact I|]. right. left. exists n.
    split; [constructor|]. now apply nth_error_None.
  - intros c w. exact I.
  - intros a R w. change (exec_value V vbytes vlist W input (PExec V W a)) with (exec_app V vbytes vlist W input a).
    eapply reasoned_more; [|apply R]. intros r. apply in_exec.
  - intros q R w. rewrite exec_value_prog. apply reasoned_seq; [|intros a w' _; exact I].
    eapply reasoned_more; [|apply R]. intros r. apply in_prog.
  - intros i m atts F w. rewrite exec_app_eq. apply reasoned_seq.
    + apply atts_reasoned. apply Forall_forall. intros [v k] In0 w0. rewrite Forall_forall in F.
      eapply reasoned_more; [|apply (F _ In0)]. intros r. cbn [fst]. intros Hr. exact (in_attachment V W i m atts v k r In0 Hr).
    + intros ps w' _. destruct (fst (m_fn V W m ps w')) eqn:E; cbn; auto; try left; exists m, ps, w'; (split; [constructor|exact E]).
  - intros v R w. change (exec_instr V vbytes vlist W input (IValue V W v)) with (seq W (exec_value V vbytes vlist W input v) (fun x => ret W (Some x))).
    apply reasoned_seq; [|intros a w' _; exact I].
    eapply reasoned_more; [|apply R]. intros r. apply in_assigned.
  - intros a R w. change (exec_instr V vbytes vlist W input (IExec V W a)) with (seq W (exec_app V vbytes vlist W input a) (fun _ => ret W (@None V))).
    apply reasoned_seq; [|intros x w' _; exact I].
    eapply reasoned_more; [|apply R]. intros r. apply in_executed.
  - intros l outs F w. rewrite exec_prog_eq. apply reasoned_seq.
    + apply instrs_reasoned. apply Forall_forall. intros i In0 w0. rewrite Forall_forall in F.
      eapply reasoned_more; [|apply (F _ In0)]. intros r Hr. exact (in_instruction V W l outs i r In0 Hr).
    + intros vals w' X. destruct (instrs_valued _ _ _ _ _ X) as (r & -> & R). cbn [app fst].
      destruct (select_outcome r outs) as [(q & ->)|(-> & o & Io & N)]; [exact I|]. right. right. exists l, o.
      split; [exact (in_output V W l outs o Io)|]. intros v E. destruct (R _ _ E) as (x & Ex). exact (N x Ex).
Qed.

(** Only an instruction with a value leaves one. *)
Lemma instrs_unvalued l : forall vals w vals' w', exec_instrs V vbytes vlist W input l vals w = (Ok vals', w') ->
  exists r, vals' = vals ++ r /\ forall o x, nth_error r o = Some (Some x) -> exists v, nth_error l o = Some (IValue V W v).
Proof.
  induction l as [|i l IH]; intros vals w vals' w'; cbn [exec_instrs].
  - intros [= <- <-]. exists []. rewrite app_nil_r. split; [reflexivity|]. intros [|o] v; discriminate.
  - unfold seq. destruct (exec_instr V vbytes vlist W input i w) as [[a| | |] w1] eqn:E; try discriminate. intros X.
    destruct (IH _ _ _ _ X) as (r & -> & R). exists (a :: r). rewrite <- app_assoc. split; [reflexivity|].
    intros [|o] x; cbn [nth_error]; [|apply R]. intros [= ->]. destruct i as [v|b]; [eauto|].
    change (seq W (exec_app V vbytes vlist W input b) (fun _ => ret W (@None V)) w = (Ok (Some x), w1)) in E. unfold seq in E.
    destruct (exec_app V vbytes vlist W input b w) as [[y| | |] w2]; discriminate.
Qed.

Lemma program_outputs l outs w r w' : exec_prog V vbytes vlist W input (Prog V W l outs) w = (Ok r, w') ->
  forall o, In o outs -> exists v, nth_error l o = Some (IValue V W v).
Proof.
  rewrite exec_prog_eq. unfold seq. destruct (exec_instrs V vbytes vlist W input l [] w) as [[vals| | |] w1] eqn:E; try discriminate.
  destruct (instrs_unvalued _ _ _ _ _ E) as (vs & -> & R). cbn [app]. intros X. injection X as X _. revert r X.
  induction outs as [|o outs IH]; intros r X o' I; [destruct I|]. cbn [select] in X.
  destruct (nth_error vs o) as [[x|]|] eqn:Eo; try discriminate.
  destruct (select V vs outs) as [q| | |]; try discriminate. destruct I as [<-|I]; eauto.
Qed.
End Blame.
