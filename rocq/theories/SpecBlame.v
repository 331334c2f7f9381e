(** What in a program can make its execution fail. *)
From Coq Require Import List.
From Verif Require Import Base InterpModel.
Import ListNotations.

Section Blame.
Variables V W : Type.

(** Something a program refers to: a module, an input, or an output of some instructions. *)
Inductive reason : Type :=
| RModule (m : module V W)
| RInput (n : nat)
| ROutput (l : list (instr V W)) (o : nat).

(** The things that a program, at any depth, refers to. *)
Inductive in_value : value V W -> reason -> Prop :=
| in_input n : in_value (PInput V W n) (RInput n)
| in_exec a r : in_app a r -> in_value (PExec V W a) r
| in_prog p r : in_program p r -> in_value (PProg V W p) r
with in_app : application V W -> reason -> Prop :=
| in_module i m atts : in_app (PApp V W i m atts) (RModule m)
| in_attachment i m atts v k r : In (v, k) atts -> in_value v r -> in_app (PApp V W i m atts) r
with in_instr : instr V W -> reason -> Prop :=
| in_assigned v r : in_value v r -> in_instr (IValue V W v) r
| in_executed a r : in_app a r -> in_instr (IExec V W a) r
with in_program : program V W -> reason -> Prop :=
| in_instruction l outs i r : In i l -> in_instr i r -> in_program (Prog V W l outs) r
| in_output l outs o : In o outs -> in_program (Prog V W l outs) (ROutput l o).

(** A module of the program, called in some state of the world, that had the outcome [P]. *)
Definition module_did (p : program V W) (P : outcome V -> Prop) : Prop :=
  exists m ps w, in_program p (RModule m) /\ P (fst (m_fn V W m ps w)).

(** An input that is not given. *)
Definition input_missing (p : program V W) (input : list V) : Prop :=
  exists n, in_program p (RInput n) /\ length input <= n.

(** An output that no instruction with a value stands for. *)
Definition output_missing (p : program V W) : Prop :=
  exists l o, in_program p (ROutput l o) /\ forall v, nth_error l o <> Some (IValue V W v).
End Blame.
