(** Property theorems for why the execution of a program fails (C180). *)
From Coq Require Import List Arith Lia.
From Coq Require Import Init.Byte.
From Verif Require Import Base BaseLemmas InterpModel SpecInterp SpecBlame InterpProofs InterpBlameProofs PropInterp.
Import ListNotations.

(** *** C180 *)
(** Any program, compiled or built by hand. [Fuel] is the outcome of a module that does not return. *)
Theorem C180_execute_fails_for_a_reason : forall V vbytes vlist W input (p : program V W) w,
  let o := fst (execute V vbytes vlist W input p w) in
  (o = Panic -> module_did V W p (eq Panic)) /\
  (o = Fuel -> module_did V W p (eq Fuel)) /\
  (o = Err -> module_did V W p (eq Err) \/ input_missing V W p input \/ output_missing V W p).
Proof.
  intros V vbytes vlist W input p w o. pose proof (program_reasoned V vbytes vlist W input p w) as R.
  unfold o, execute. refine (conj _ (conj _ _)); intros E; rewrite E in R; cbn in R.
  - destruct R as (m & ps & w' & I & X). exists m, ps, w'. auto.
  - destruct R as (m & ps & w' & I & X). exists m, ps, w'. auto.
  - destruct R as [(m & ps & w' & I & X)|[(n & I & L)|(l & k & I & N)]].
    + left. exists m, ps, w'. auto.
    + right. left. exists n. auto.
    + right. right. exists l, k. auto.
Qed.
Print Assumptions C180_execute_fails_for_a_reason.

(** A program succeeds only if an instruction with a value stands for each of its outputs. *)
Theorem C180_outputs_need_values : forall V vbytes vlist W input l outs w r w',
  execute V vbytes vlist W input (Prog V W l outs) w = (Ok r, w') ->
  forall o, In o outs -> exists v, nth_error l o = Some (IValue V W v).
Proof. intros V vbytes vlist W input l outs w r w'. exact (program_outputs V vbytes vlist W input l outs w r w'). Qed.
Print Assumptions C180_outputs_need_values.

(** A module that panics, in a program inside a program; an output that is an execution; a missing input. *)
Definition m_panic : module dyn nat := mk_module dyn nat 3 (fun _ w => (Panic, w)).
Definition ex_call (m : module dyn nat) : instr dyn nat := IExec dyn nat (PApp dyn nat 3 m []).
Definition ex_deep : program dyn nat :=
  Prog dyn nat [IValue dyn nat (PProg dyn nat (Prog dyn nat [ex_call m_panic] []))] [0].
Example C180_ex :
  fst (iexecute [] ex_deep 0) = Panic /\ in_program dyn nat ex_deep (RModule dyn nat m_panic) /\
  fst (iexecute [] (Prog dyn nat [ex_call m_tick] [0]) 0) = Err /\
  fst (iexecute [DNat 1] (Prog dyn nat [IValue dyn nat (PInput dyn nat 1)] []) 0) = Err /\
  fst (iexecute [DNat 1] (Prog dyn nat [IValue dyn nat (PInput dyn nat 0)] [0; 0]) 0) = Ok [DNat 1; DNat 1].
Proof.
  split; [reflexivity|]. split; [|repeat split].
  eapply in_instruction; [now left|]. apply in_assigned, in_prog. eapply in_instruction; [now left|]. apply in_executed. constructor.
Qed.
