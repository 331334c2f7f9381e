(** Specification of the interpreter: a direct reading of the instructions, and scoping rules.
    Only the source syntax, the module type and the sequencing of computations come from the model. *)
From Coq Require Import List Arith Bool.
From Verif Require Import Base InterpModel.
Import ListNotations.

(** The last value given for [t] in a list of pairs, and the pairs of the last values, by increasing
    key: what a Go map holds after the pairs are written one after the other. *)
Definition last_at {A} (t : nat) (l : list (nat * A)) : option A :=
  option_map snd (find (fun kv => fst kv =? t) (rev l)).
Definition passed {A} (l : list (nat * A)) : list (nat * A) :=
  flat_map (fun t => match last_at t l with Some v => [(t, v)] | None => [] end)
           (List.seq 0 (S (list_max (map fst l)))).

Section SpecInterp.
Variable V : Type.
Variable vbytes : bytes -> V.
Variable vlist : list V -> V.
Variable W : Type.
Variable nm : bytes -> bytes.

Notation comp := (comp W).
Notation module := (module V W).

(** ** Scoping rules
    What must have been written before an instruction.  Two names are the same when [nm]
    maps them to the same string. *)
Definition same (a b : bytes) : Prop := nm a = nm b.

Definition module_before (pre : list sinstr) (n : bytes) : Prop :=
  exists n' k, In (SModule n' k) pre /\ same n' n.
Definition app_before (pre : list sinstr) (n : bytes) : Prop :=
  exists n' m, In (SApp n' m) pre /\ same n' n.
Definition param_before (pre : list sinstr) (n : bytes) (is_input : bool) : Prop :=
  exists n', In (SParam n' is_input) pre /\ same n' n.
Definition assigned_before (pre : list sinstr) (n : bytes) : Prop :=
  exists n' v, In (SAssign n' v) pre /\ same n' n.

(** An instruction that does something at run time. *)
Definition runs (i : sinstr) : Prop :=
  match i with SAssign _ _ | SExec _ => True | _ => False end.

(** [scoped mods l]: every instruction of [l] is allowed after those before it
    ([allowed mods pre i]), and [l] does something. *)
Inductive scoped (mods : list module) : list sinstr -> Prop :=
| Scoped l :
    (forall pre i post, l = pre ++ i :: post -> allowed mods pre i) ->
    Exists runs l ->
    scoped mods l
with allowed (mods : list module) : list sinstr -> sinstr -> Prop :=
| AllowModule pre n k :
    (exists m, In m mods /\ m_index V W m = k) -> ~ module_before pre n ->
    allowed mods pre (SModule n k)
| AllowApp pre n m :
    module_before pre m -> ~ app_before pre n -> allowed mods pre (SApp n m)
| AllowParam pre n b :
    ~ param_before pre n true -> ~ param_before pre n false -> allowed mods pre (SParam n b)
| AllowAssignVar pre x y : param_before pre y true -> allowed mods pre (SAssign x (SVVar y))
| AllowAssignConst pre x c : allowed mods pre (SAssign x (SVConst c))
| AllowAssignProgram pre x l : scoped mods l -> allowed mods pre (SAssign x (SVInstrs l))
| AllowAssignExec pre x a : app_before pre a -> allowed mods pre (SAssign x (SVExec a))
| AllowAttach pre x t a :
    assigned_before pre x \/ param_before pre x true -> app_before pre a ->
    allowed mods pre (SAttach x t a)
| AllowExec pre a : app_before pre a -> allowed mods pre (SExec a).

(** ** Direct interpretation *)

(** The names in scope.  [s_app]: the module of an application and what was attached to it, in order.
    [s_in], [s_out]: the declared parameters.  [s_var]: what a variable stands for.
    [s_results]: the outputs so far. *)
Record scope := mk_scope {
  s_mod : bytes -> option module;
  s_app : bytes -> option (module * list (nat * comp V));
  s_in : list bytes;
  s_out : list bytes;
  s_var : bytes -> option (comp V);
  s_results : list V
}.

Definition no_scope : scope := mk_scope (fun _ => None) (fun _ => None) [] [] (fun _ => None) [].

Definition bound {A} (k : bytes) (a : A) (f : bytes -> option A) : bytes -> option A :=
  fun k' => if bytes_eqb k' k then Some a else f k'.

Definition among (k : bytes) (l : list bytes) : bool := existsb (bytes_eqb k) l.

(** The position of a name in a list of names. *)
Fixpoint position (k : bytes) (l : list bytes) : option nat :=
  match l with
  | [] => None
  | k' :: l' => if bytes_eqb k k' then Some 0 else option_map S (position k l')
  end.

(** The last module given with that index. *)
Definition module_at (mods : list module) (k : nat) : option module :=
  find (fun m => m_index V W m =? k) (rev mods).

(** Calling an application: what is attached is evaluated in order, the value attached last to each
    local is passed. *)
Fixpoint arguments (atts : list (nat * comp V)) : comp (list (nat * V)) :=
  match atts with
  | [] => ret W []
  | (t, d) :: atts' => seq W d (fun x => seq W (arguments atts') (fun l => ret W ((t, x) :: l)))
  end.

Definition call (s : scope) (a : bytes) : comp V :=
  match s_app s a with
  | Some (m, atts) => seq W (arguments atts) (fun l => m_fn V W m (passed l))
  | None => fail W
  end.

(** Reading a declared input. *)
Definition read (input : list V) (s : scope) (y : bytes) : comp V :=
  match position y (s_in s) with
  | Some n => match nth_error input n with Some x => ret W x | None => fail W end
  | None => fail W
  end.

(** [again = false]: a variable holds the value it was given.
    [again = true]: a variable stands for its expression, which is evaluated at each use. *)
Variable again : bool.
Variable mods : list module.
Variable input : list V.

Fixpoint run_instr (i : sinstr) (s : scope) {struct i} : comp scope :=
  match i with
  | SModule n k =>
      match module_at mods k with
      | Some m => ret W (mk_scope (bound (nm n) m (s_mod s)) (s_app s) (s_in s) (s_out s) (s_var s) (s_results s))
      | None => fail W
      end
  | SApp n m =>
      match s_mod s (nm m) with
      | Some md => ret W (mk_scope (s_mod s) (bound (nm n) (md, []) (s_app s)) (s_in s) (s_out s) (s_var s) (s_results s))
      | None => fail W
      end
  | SParam n true => ret W (mk_scope (s_mod s) (s_app s) (s_in s ++ [nm n]) (s_out s) (s_var s) (s_results s))
  | SParam n false => ret W (mk_scope (s_mod s) (s_app s) (s_in s) (s_out s ++ [nm n]) (s_var s) (s_results s))
  | SAssign x v =>
      seq W (run_value v s) (fun a =>
        ret W (mk_scope (s_mod s) (s_app s) (s_in s) (s_out s)
                        (bound (nm x) (if again then run_value v s else ret W a) (s_var s))
                        (if among (nm x) (s_out s) then s_results s ++ [a] else s_results s)))
  | SAttach x t a =>
      match s_app s (nm a) with
      | Some (m, atts) =>
          let d := match s_var s (nm x) with Some d => d | None => read input s (nm x) end in
          ret W (mk_scope (s_mod s) (bound (nm a) (m, atts ++ [(t, d)]) (s_app s)) (s_in s) (s_out s) (s_var s) (s_results s))
      | None => fail W
      end
  | SExec a => seq W (call s (nm a)) (fun _ => ret W s)
  end
with run_value (v : svalue) (s : scope) {struct v} : comp V :=
  match v with
  | SVVar y => read input s (nm y)
  | SVConst c => ret W (vbytes c)
  | SVInstrs l =>
      seq W ((fix go (l : list sinstr) (s : scope) : comp scope :=
                match l with
                | [] => ret W s
                | i :: l' => seq W (run_instr i s) (go l')
                end) l no_scope)
            (fun s' => ret W (vlist (s_results s')))
  | SVExec a => call s (nm a)
  end.

Fixpoint run_list (l : list sinstr) (s : scope) : comp scope :=
  match l with
  | [] => ret W s
  | i :: l' => seq W (run_instr i s) (run_list l')
  end.

(** The outputs of the instructions, run one after the other. *)
Definition interpret (l : list sinstr) : comp (list V) :=
  seq W (run_list l no_scope) (fun s => ret W (s_results s)).

End SpecInterp.

(** ** Module functions *)

(** A function of its arguments only. *)
Definition pure {V W} (m : module V W) : Prop :=
  exists f, forall ps w, m_fn V W m ps w = (f ps, w).

(** A function that never fails. *)
Definition never_fails {V W} (m : module V W) : Prop :=
  forall ps w, exists v w', m_fn V W m ps w = (Ok v, w').

(** ** Counting *)

(** The number of input parameters an instruction list declares. *)
Definition is_input_param (i : sinstr) : bool :=
  match i with SParam _ b => b | _ => false end.
Definition inputs_of (l : list sinstr) : nat := length (filter is_input_param l).

(** Every program written inside, and the list itself, declares at most [n] inputs. *)
Inductive at_most_inputs (n : nat) : list sinstr -> Prop :=
| AtMostInputs l :
    inputs_of l <= n ->
    (forall x l', In (SAssign x (SVInstrs l')) l -> at_most_inputs n l') ->
    at_most_inputs n l.

(** The output parameters assigned, in order of assignment: [declared] are those declared before. *)
Fixpoint returned (nm : bytes -> bytes) (declared : list bytes) (l : list sinstr) : list bytes :=
  match l with
  | [] => []
  | SParam n false :: l' => returned nm (nm n :: declared) l'
  | SAssign x _ :: l' =>
      if existsb (bytes_eqb (nm x)) declared then nm x :: returned nm declared l'
      else returned nm declared l'
  | _ :: l' => returned nm declared l'
  end.
