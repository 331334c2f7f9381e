(** Model of libs/interpreters: instructions, programs, Compile and Execute. *)
From Coq Require Import List Arith Bool.
From Verif Require Import Base.
Import ListNotations.

(** ** Source instructions
    libs/interpreters/domain/instructions/{instruction,value,instructions}.go.
    The builders (instruction_builder.go:76-102, value_builder.go:53-71) keep exactly one of the
    alternatives, so an instruction is a sum.  The remaining bytes of an instruction list
    (instructions.go:3-6) are not read by the interpreter and are left out.
    Go [uint] fields are natural numbers: the wrap-around at 2^64 is not modelled. *)
Inductive sinstr : Type :=
| SModule (name : bytes) (index : nat)       (* instructions/modules/module.go *)
| SApp (name module : bytes)                 (* instructions/applications/application.go *)
| SParam (name : bytes) (is_input : bool)    (* instructions/parameters/parameter.go:3-6 *)
| SAssign (variable : bytes) (v : svalue)    (* instructions/assignment.go *)
| SAttach (current : bytes) (target : nat) (application : bytes) (* instructions/attachments *)
| SExec (application : bytes)
with svalue : Type :=
| SVVar (variable : bytes)
| SVConst (constant : bytes)
| SVInstrs (l : list sinstr)
| SVExec (application : bytes).

(** ** Go maps
    A map is an association list with distinct keys.  [mset] writes in place or adds the key. *)
Section Maps.
Context {A : Type}.

Fixpoint mget (k : bytes) (m : list (bytes * A)) : option A :=
  match m with
  | [] => None
  | (k', a) :: m' => if bytes_eqb k k' then Some a else mget k m'
  end.

Fixpoint mset (k : bytes) (a : A) (m : list (bytes * A)) : list (bytes * A) :=
  match m with
  | [] => [(k, a)]
  | (k', b) :: m' => if bytes_eqb k k' then (k', a) :: m' else (k', b) :: mset k a m'
  end.

(** [map[uint]interface{}], kept sorted by key so that equal maps are equal lists. *)
Fixpoint pset (k : nat) (a : A) (m : list (nat * A)) : list (nat * A) :=
  match m with
  | [] => [(k, a)]
  | (k', b) :: m' =>
      if k =? k' then (k, a) :: m'
      else if k <? k' then (k, a) :: (k', b) :: m'
      else (k', b) :: pset k a m'
  end.

End Maps.

Section Interp.
(** [V]: the Go values stored in [interface{}]; [vbytes] and [vlist] inject the [[]byte] constants and
    the [[]interface{}] results of sub-programs.  [W]: the state of the outside world, which the
    module functions may read and change.  [nm]: the [NameBytesToString] function given to
    [NewApplication] (applications/sdk.go:9-15). *)
Variable V : Type.
Variable vbytes : bytes -> V.
Variable vlist : list V -> V.
Variable W : Type.
Variable nm : bytes -> bytes.

(** A computation: a Go call that may change the world. *)
Definition comp (A : Type) : Type := W -> outcome A * W.

Definition ret {A} (a : A) : comp A := fun w => (Ok a, w).
Definition fail {A} : comp A := fun w => (Err, w).

Definition seq {A B} (m : comp A) (f : A -> comp B) : comp B := fun w =>
  match m w with
  | (Ok a, w') => f a w'
  | (Err, w') => (Err, w')
  | (Panic, w') => (Panic, w')
  | (Fuel, w') => (Fuel, w')
  end.

(** programs/modules/module.go:3-6 and sdk.go:4 ([ExecuteFn]). *)
Record module := mk_module {
  m_index : nat;
  m_fn : list (nat * V) -> comp V
}.

(** programs/modules/builder.go:31-47 and modules.go:31-38: the map built by the builder keeps the last
    module of an index. *)
Fixpoint fetch_module (mods : list module) (index : nat) : option module :=
  match mods with
  | [] => None
  | m :: mods' =>
      match fetch_module mods' index with
      | Some m' => Some m'
      | None => if m_index m =? index then Some m else None
      end
  end.

(** ** Programs
    programs/{value,application,attachment,instruction,program}.go.
    An application without attachments is one with the empty list. *)
Inductive value : Type :=
| PInput (n : nat)
| PConst (c : bytes)
| PExec (a : application)
| PProg (p : program)
with application : Type :=
| PApp (index : nat) (m : module) (attachments : list (value * nat))
with instr : Type :=
| IValue (v : value)
| IExec (a : application)
with program : Type :=
| Prog (l : list instr) (outputs : list nat).

(** ** Compile *)

(** applications/parameter.go:5-9, with the parameter reduced to [is_input]. *)
Record param := mk_param {
  p_all : nat;
  p_index : nat;
  p_input : bool
}.

(** The maps and lists threaded through [Compile] (application.go:52-58). *)
Record cstate := mk_cstate {
  c_modules : list (bytes * module);
  c_apps : list (bytes * application);
  c_params : list (bytes * param);
  c_outputs : list nat;
  c_values : list (bytes * value);
  c_instrs : list instr
}.

Definition c_empty : cstate := mk_cstate [] [] [] [] [] [].

(** application.go:392-412 *)
Definition compile_module (mods : list module) (name : bytes) (index : nat) (c : cstate) : outcome cstate :=
  match fetch_module mods index with
  | None => Err
  | Some m =>
      match mget (nm name) (c_modules c) with
      | Some _ => Err
      | None => Ok (mk_cstate (mset (nm name) m (c_modules c)) (c_apps c) (c_params c)
                              (c_outputs c) (c_values c) (c_instrs c))
      end
  end.

(** application.go:363-390 *)
Definition compile_application (name modname : bytes) (c : cstate) : outcome cstate :=
  match mget (nm name) (c_apps c) with
  | Some _ => Err
  | None =>
      match mget (nm modname) (c_modules c) with
      | None => Err
      | Some m => Ok (mk_cstate (c_modules c) (mset (nm name) (PApp (length (c_apps c)) m []) (c_apps c))
                                (c_params c) (c_outputs c) (c_values c) (c_instrs c))
      end
  end.

(** application.go:334-361.  The loop over the map counts the input parameters. *)
Definition compile_parameter (name : bytes) (is_input : bool) (c : cstate) : outcome cstate :=
  match mget (nm name) (c_params c) with
  | Some _ => Err
  | None =>
      let n := length (filter (fun kp => p_input (snd kp)) (c_params c)) in
      let p := mk_param (length (c_params c)) n is_input in
      Ok (mk_cstate (c_modules c) (c_apps c) (mset (nm name) p (c_params c))
                    (c_outputs c) (c_values c) (c_instrs c))
  end.

(** application.go:253-276 *)
Definition compile_attachment_value (current : bytes) (c : cstate) : outcome value :=
  match mget (nm current) (c_values c) with
  | Some v => Ok v
  | None =>
      match mget (nm current) (c_params c) with
      | Some p => if p_input p then Ok (PInput (p_index p)) else Err
      | None => Err
      end
  end.

(** application.go:205-251.  [append] on the list of the replaced application: each application value
    is appended to at most once, because the map then holds the new one, so no older value
    sees the element written (the lists never share a written cell). *)
Definition compile_attachment (current : bytes) (target : nat) (appname : bytes) (c : cstate)
  : outcome cstate :=
  do v <- compile_attachment_value current c;
  match mget (nm appname) (c_apps c) with
  | None => Err
  | Some (PApp i m atts) =>
      Ok (mk_cstate (c_modules c) (mset (nm appname) (PApp i m (atts ++ [(v, target)])) (c_apps c))
                    (c_params c) (c_outputs c) (c_values c) (c_instrs c))
  end.

(** application.go:185-203 *)
Definition compile_execution (appname : bytes) (c : cstate) : outcome cstate :=
  match mget (nm appname) (c_apps c) with
  | None => Err
  | Some a => Ok (mk_cstate (c_modules c) (c_apps c) (c_params c) (c_outputs c) (c_values c)
                            (c_instrs c ++ [IExec a]))
  end.

(** application.go:144-163, once the value is compiled. *)
Definition compile_assign (variable : bytes) (v : value) (c : cstate) : cstate :=
  let outs :=
    match mget (nm variable) (c_params c) with
    | Some p => if p_input p then c_outputs c else c_outputs c ++ [length (c_instrs c)]
    | None => c_outputs c
    end in
  mk_cstate (c_modules c) (c_apps c) (c_params c) outs
            (mset (nm variable) v (c_values c)) (c_instrs c ++ [IValue v]).

(** application.go:84-94: the instructions builder rejects an empty list
    (programs/instructions_builder.go:31-41). *)
Definition finish (c : cstate) : outcome program :=
  match c_instrs c with
  | [] => Err
  | l => Ok (Prog l (c_outputs c))
  end.

(** application.go:97-183 ([compile_instr]), 278-332 ([compile_value]) and, for sub-programs, 51-95. *)
Fixpoint compile_instr (mods : list module) (i : sinstr) (c : cstate) {struct i} : outcome cstate :=
  match i with
  | SModule name index => compile_module mods name index c
  | SApp name modname => compile_application name modname c
  | SParam name is_input => compile_parameter name is_input c
  | SAssign x v => do pv <- compile_value mods v c; Ok (compile_assign x pv c)
  | SAttach current target appname => compile_attachment current target appname c
  | SExec appname => compile_execution appname c
  end
with compile_value (mods : list module) (v : svalue) (c : cstate) {struct v} : outcome value :=
  match v with
  | SVVar y =>
      match mget (nm y) (c_params c) with
      | Some p => if p_input p then Ok (PInput (p_index p)) else Err
      | None => Err
      end
  | SVConst b => Ok (PConst b)
  | SVInstrs l =>
      do c' <- (fix go (l : list sinstr) (c : cstate) : outcome cstate :=
                  match l with
                  | [] => Ok c
                  | i :: l' => do c' <- compile_instr mods i c; go l' c'
                  end) l c_empty;
      do p <- finish c';
      Ok (PProg p)
  | SVExec a =>
      match mget (nm a) (c_apps c) with
      | Some pa => Ok (PExec pa)
      | None => Err
      end
  end.

Fixpoint compile_list (mods : list module) (l : list sinstr) (c : cstate) : outcome cstate :=
  match l with
  | [] => Ok c
  | i :: l' => do c' <- compile_instr mods i c; compile_list mods l' c'
  end.

(** [Compile], application.go:51-95. *)
Definition compile (mods : list module) (l : list sinstr) : outcome program :=
  do c <- compile_list mods l c_empty; finish c.

(** ** Execute *)

(** application.go:442-456: the values of the output instructions.  [vals] is the Go map
    [valueIndexes], as a list with an entry per instruction ([None]: no value). *)
Fixpoint select (vals : list (option V)) (outs : list nat) : outcome (list V) :=
  match outs with
  | [] => Ok []
  | o :: outs' =>
      match nth_error vals o with
      | Some (Some v) => do r <- select vals outs'; Ok (v :: r)
      | _ => Err
      end
  end.

(** application.go:459-486 ([exec_value]), 488-507 ([exec_app]), 415-457 ([exec_prog]).
    The map [values] (valueHashes) is always empty in the code and is left out. *)
Fixpoint exec_value (input : list V) (v : value) {struct v} : comp V :=
  match v with
  | PInput n => match nth_error input n with Some x => ret x | None => fail end
  | PConst b => ret (vbytes b)
  | PProg p => seq (exec_prog input p) (fun l => ret (vlist l))
  | PExec a => exec_app input a
  end
with exec_app (input : list V) (a : application) {struct a} : comp V :=
  match a with
  | PApp _ m atts =>
      seq ((fix go (atts : list (value * nat)) (ps : list (nat * V)) : comp (list (nat * V)) :=
              match atts with
              | [] => ret ps
              | (v, local) :: atts' => seq (exec_value input v) (fun x => go atts' (pset local x ps))
              end) atts [])
          (m_fn m)
  end
with exec_instr (input : list V) (i : instr) {struct i} : comp (option V) :=
  match i with
  | IValue v => seq (exec_value input v) (fun x => ret (Some x))
  | IExec a => seq (exec_app input a) (fun _ => ret None)
  end
with exec_prog (input : list V) (p : program) {struct p} : comp (list V) :=
  match p with
  | Prog l outs =>
      seq ((fix go (l : list instr) (vals : list (option V)) : comp (list (option V)) :=
              match l with
              | [] => ret vals
              | i :: l' => seq (exec_instr input i) (fun x => go l' (vals ++ [x]))
              end) l [])
          (fun vals w => (select vals outs, w))
  end.

(** [Execute], application.go:415-457. *)
Definition execute (input : list V) (p : program) : comp (list V) := exec_prog input p.

End Interp.
