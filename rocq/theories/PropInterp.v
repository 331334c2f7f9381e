(** Properties of the interpreter (libs/interpreters). *)
From Coq Require Import List Arith Bool Lia Sorted.
From Coq Require Import Init.Byte.
From Verif Require Import Base BaseLemmas InterpModel SpecInterp InterpProofs InterpMoreProofs InterpExtraProofs.
Import ListNotations.

(** ** A concrete setting for the examples *)
Inductive dyn : Type := DBytes (b : bytes) | DList (l : list dyn) | DNat (n : nat).

Definition arg (k : nat) (ps : list (nat * dyn)) : nat :=
  match find (fun kv => fst kv =? k) ps with Some (_, DNat n) => n | _ => 0 end.

(** Module 0 adds its arguments 0 and 1, module 1 returns the number of its calls so far,
    module 2 returns its argument 0. *)
Definition m_add : module dyn nat := mk_module dyn nat 0 (fun ps w => (Ok (DNat (arg 0 ps + arg 1 ps)), w)).
Definition m_tick : module dyn nat := mk_module dyn nat 1 (fun _ w => (Ok (DNat w), S w)).
Definition m_echo : module dyn nat := mk_module dyn nat 2 (fun ps w => (Ok (DNat (arg 0 ps)), w)).

Definition n_m : bytes := [x6d].
Definition n_a : bytes := [x61].
Definition n_b : bytes := [x62].
Definition n_x : bytes := [x78].
Definition n_y : bytes := [x79].
Definition n_o : bytes := [x6f].
Definition n_p : bytes := [x70].

Definition id_name (b : bytes) : bytes := b.

Definition ix_sub : list sinstr := [SParam n_x true; SParam n_o false; SAssign n_o (SVVar n_x)].

Definition ix_pre : list sinstr :=
  [SModule n_m 0; SApp n_a n_m; SParam n_x true; SParam n_o false; SParam n_y true;
   SAttach n_x 0 n_a; SAttach n_y 1 n_a; SAssign n_o (SVExec n_a)].

Definition ix_l : list sinstr :=
  ix_pre ++ [SAssign n_p (SVConst n_b); SAttach n_p 0 n_a; SAssign n_o (SVVar n_y); SAssign n_o (SVInstrs ix_sub)].

Notation icompile := (compile dyn nat id_name [m_add]).
Notation iexecute := (execute dyn DBytes DList nat).

Example ix_compiles : match icompile ix_l with
  | Ok p => iexecute [DNat 3; DNat 4] p 0 = (Ok [DNat 7; DNat 4; DList [DNat 3]], 0)
  | _ => False end.
Proof. vm_compute. reflexivity. Qed.

Example ix_pure : Forall pure [m_add].
Proof.
  constructor; [|constructor]. exists (fun ps => Ok (DNat (arg 0 ps + arg 1 ps))). reflexivity.
Qed.

Example ix_never_fails : Forall never_fails [m_add].
Proof. constructor; [|constructor]. intros ps w. cbn. eauto. Qed.

(** ** C60: Execute after Compile is the direct interpretation *)
Theorem C60_execute_is_direct_interpretation :
  forall V vbytes vlist W nm mods input l p w,
  Forall pure mods ->
  compile V W nm mods l = Ok p ->
  execute V vbytes vlist W input p w = interpret V vbytes vlist W nm false mods input l w.
Proof. intros. apply execute_interpret; auto. Qed.
Print Assumptions C60_execute_is_direct_interpretation.

Example C60_case : interpret dyn DBytes DList nat id_name false [m_add] [DNat 3; DNat 4] ix_l 0 =
  (Ok [DNat 7; DNat 4; DList [DNat 3]], 0).
Proof. vm_compute. reflexivity. Qed.

(** ** C102: in general a variable stands for its expression *)
Theorem C102_execute_evaluates_variables_at_each_use :
  forall V vbytes vlist W nm mods input l p w,
  compile V W nm mods l = Ok p ->
  execute V vbytes vlist W input p w = interpret V vbytes vlist W nm true mods input l w.
Proof. intros. apply execute_interpret; auto. Qed.
Print Assumptions C102_execute_evaluates_variables_at_each_use.

(** The outputs are the first reading of the counter and its echo. *)
Definition ix_twice : list sinstr :=
  [SModule n_m 1; SModule n_x 2; SApp n_a n_m; SApp n_b n_x; SParam n_o false;
   SAssign n_o (SVExec n_a); SAttach n_o 0 n_b; SAssign n_o (SVExec n_b)].

Example C102_case : interpret dyn DBytes DList nat id_name true [m_tick; m_echo] [] ix_twice 5 =
  (Ok [DNat 5; DNat 6], 7).
Proof. vm_compute. reflexivity. Qed.

(** ** C103: a variable does not keep the value it was given *)
Theorem C103_variable_keeps_its_value_refuted :
  exists (mods : list (module dyn nat)) l p w r r' w1 w2,
  compile dyn nat id_name mods l = Ok p /\
  interpret dyn DBytes DList nat id_name false mods [] l w = (Ok r, w1) /\
  execute dyn DBytes DList nat [] p w = (Ok r', w2) /\
  r = [DNat 5; DNat 5] /\ r' = [DNat 5; DNat 6].
Proof.
  exists [m_tick; m_echo], ix_twice. eexists. exists 5, [DNat 5; DNat 5], [DNat 5; DNat 6], 6, 7.
  split; [reflexivity|]. split; [reflexivity|]. split; [reflexivity|]. auto.
Qed.
Print Assumptions C103_variable_keeps_its_value_refuted.

(** ** C104: the number of module calls is not bounded by the number of instructions *)
Theorem C104_calls_grow_exponentially :
  forall n, exists l p calls,
  length l = 4 * n + 3 /\
  compile unit nat (fun b => b) [counter] l = Ok p /\
  execute unit (fun _ => tt) (fun _ => tt) nat [] p 0 = (Ok [], calls) /\
  2 ^ n <= calls.
Proof.
  intros n. destruct (doubling_calls n) as (p & E & calls & X & L).
  exists (doubling n), p, calls. split; [apply doubling_length|]. auto.
Qed.
Print Assumptions C104_calls_grow_exponentially.

Example C104_case : match compile unit nat (fun b => b) [counter] (doubling 5) with
  | Ok p => snd (execute unit (fun _ => tt) (fun _ => tt) nat [] p 0) = 120
  | _ => False end /\
  snd (interpret unit (fun _ => tt) (fun _ => tt) nat (fun b => b) false [counter] [] (doubling 5) 0) = 6.
Proof. vm_compute. auto. Qed.

(** ** C61: inputs are numbered in order of declaration *)
Theorem C61_nth_input_parameter_receives_nth_input :
  forall V vbytes vlist W nm mods pre x mid o y post p input w r w',
  compile V W nm mods (pre ++ SParam x true :: mid ++ SAssign o (SVVar y) :: post) = Ok p ->
  nm y = nm x ->
  param_before nm (pre ++ SParam x true :: mid) o false ->
  execute V vbytes vlist W input p w = (Ok r, w') ->
  inputs_of pre < length input /\
  nth_error r (length (returned nm [] (pre ++ SParam x true :: mid))) = nth_error input (inputs_of pre).
Proof. intros. eapply input_received; eauto. Qed.
Print Assumptions C61_nth_input_parameter_receives_nth_input.

Theorem C61_declaring_a_parameter_twice_is_an_error :
  forall V W nm mods pre x b mid y b' post,
  nm x = nm y ->
  compile V W nm mods (pre ++ SParam x b :: mid ++ SParam y b' :: post) = Err.
Proof.
  intros V W nm mods pre x b mid y b' post E.
  destruct (compile_ok_or_err V W nm mods (pre ++ SParam x b :: mid ++ SParam y b' :: post)) as [X|X]; auto.
  apply compile_scoped in X. inversion X as [l A _ EL]. subst.
  specialize (A (pre ++ SParam x b :: mid) (SParam y b') post).
  rewrite <- app_assoc in A. specialize (A eq_refl). inversion A as [| |? ? ? N1 N2| | | | | |]. subst.
  assert (I : In (SParam x b) (pre ++ SParam x b :: mid)) by (apply in_or_app; right; left; reflexivity).
  destruct b; [elim N1 | elim N2]; exists x; auto.
Qed.
Print Assumptions C61_declaring_a_parameter_twice_is_an_error.

(** Here the second input parameter is read by the second assignment to the output. *)
Example C61_case : exists pre mid post, ix_l = pre ++ SParam n_y true :: mid ++ SAssign n_o (SVVar n_y) :: post /\
  param_before id_name (pre ++ SParam n_y true :: mid) n_o false /\ inputs_of pre = 1 /\
  length (returned id_name [] (pre ++ SParam n_y true :: mid)) = 1.
Proof.
  exists [SModule n_m 0; SApp n_a n_m; SParam n_x true; SParam n_o false],
    [SAttach n_x 0 n_a; SAttach n_y 1 n_a; SAssign n_o (SVExec n_a); SAssign n_p (SVConst n_b); SAttach n_p 0 n_a],
    [SAssign n_o (SVInstrs ix_sub)].
  split; [reflexivity|]. split; [|split; reflexivity]. exists n_o. split; [cbn; auto 6|reflexivity].
Qed.

(** ** C62: one output per assignment to a declared output *)
Theorem C62_one_output_per_assignment :
  forall V vbytes vlist W nm mods l p input w r w',
  compile V W nm mods l = Ok p ->
  execute V vbytes vlist W input p w = (Ok r, w') ->
  length r = length (returned nm [] l).
Proof. intros. eapply outputs_count; eauto. Qed.
Print Assumptions C62_one_output_per_assignment.

(** If the instructions run to the end, the outputs are found. *)
Theorem C62_no_missing_output :
  forall V vbytes vlist W nm mods l is outs input w w' r0,
  compile V W nm mods l = Ok (Prog V W is outs) ->
  execute V vbytes vlist W input (Prog V W is []) w = (Ok r0, w') ->
  exists r, execute V vbytes vlist W input (Prog V W is outs) w = (Ok r, w').
Proof.
  intros V vbytes vlist W nm mods l is outs input w w' r0 E X. apply execute_inv in X. destruct X as (vals & X & _).
  destruct (outputs_found V vbytes vlist W nm mods l _ is outs E eq_refl input w vals w' X) as (r & Y & _). eauto.
Qed.
Print Assumptions C62_no_missing_output.

Example C62_case : length (returned id_name [] ix_l) = 3.
Proof. reflexivity. Qed.

(** ** C63: what comes after does not change what came before *)
Theorem C63_later_instructions_do_not_change_earlier_ones :
  forall V vbytes vlist W nm mods l1 l2 p1 p2 input,
  compile V W nm mods l1 = Ok p1 ->
  compile V W nm mods (l1 ++ l2) = Ok p2 ->
  exists rest : comp W (list V), forall w,
    execute V vbytes vlist W input p2 w =
    match execute V vbytes vlist W input p1 w with
    | (Ok outs1, w1) =>
        match rest w1 with
        | (Ok outs2, w2) => (Ok (outs1 ++ outs2), w2)
        | (Err, w2) => (Err, w2)
        | (Panic, w2) => (Panic, w2)
        | (Fuel, w2) => (Fuel, w2)
        end
    | failed => failed
    end.
Proof.
  intros V vbytes vlist W nm mods l1 l2 p1 p2 input E1 E2.
  destruct (execute_app V vbytes vlist W nm mods l1 l2 p1 p2 input E1 E2) as (k & K). exists k. intros w. rewrite K.
  unfold seq, ret. destruct (execute V vbytes vlist W input p1 w) as [[o1| | |] w1]; auto.
Qed.
Print Assumptions C63_later_instructions_do_not_change_earlier_ones.

(** [ix_l] attaches another value to the application executed in [ix_pre]. *)
Example C63_case : match icompile ix_pre with
  | Ok p => iexecute [DNat 3; DNat 4] p 0 = (Ok [DNat 7], 0)
  | _ => False end.
Proof. vm_compute. reflexivity. Qed.

(** ** C64: run time failures *)
Theorem C64_no_failure_without_missing_input_or_module_failure :
  forall V vbytes vlist W nm mods input l p w,
  Forall never_fails mods ->
  at_most_inputs (length input) l ->
  compile V W nm mods l = Ok p ->
  exists r w', execute V vbytes vlist W input p w = (Ok r, w').
Proof.
  intros V vbytes vlist W nm mods input l p w NF A E.
  apply (never_fails_program V vbytes vlist W nm mods input NF l p A E).
Qed.
Print Assumptions C64_no_failure_without_missing_input_or_module_failure.

Example C64_case : at_most_inputs 2 ix_l.
Proof.
  constructor; [cbn; lia|]. intros x l' I. cbn in I.
  assert (l' = ix_sub) as ->. { repeat (destruct I as [I|I]; [try discriminate; congruence|]). destruct I. }
  constructor; [cbn; lia|]. intros y l'' J. cbn in J. repeat (destruct J as [J|J]; [discriminate|]). destruct J.
Qed.

(** ** C65: Compile accepts exactly the well-scoped instruction lists *)
Theorem C65_compile_accepts_exactly_scoped_lists :
  forall V W nm mods l,
  ((exists p, compile V W nm mods l = Ok p) <-> scoped V W nm mods l) /\
  ((exists p, compile V W nm mods l = Ok p) \/ compile V W nm mods l = Err).
Proof. intros. split; [apply compile_scoped | apply compile_ok_or_err]. Qed.
Print Assumptions C65_compile_accepts_exactly_scoped_lists.

(** Executing, attaching to or reading a name that was not declared before. *)
Example C65_case_scoped : scoped dyn nat id_name [m_add] ix_l.
Proof.
  apply compile_scoped. pose proof ix_compiles as H. destruct (icompile ix_l) as [p| | |]; [eauto|contradiction..].
Qed.

Example C65_case_unscoped : icompile [SModule n_m 0; SExec n_a; SApp n_a n_m] = Err /\
  icompile [SModule n_m 0; SApp n_a n_m] = Err /\ icompile [SParam n_o false; SAssign n_x (SVVar n_o)] = Err.
Proof. vm_compute. auto. Qed.

(** ** C105: sub-programs *)
Theorem C105_subprogram_runs_alone_on_the_same_inputs :
  forall V vbytes vlist W nm mods pre x l p0 q input,
  compile V W nm mods pre = Ok p0 ->
  compile V W nm mods l = Ok q ->
  exists p, compile V W nm mods (pre ++ [SAssign x (SVInstrs l)]) = Ok p /\
  forall w outs w0 r w1,
    execute V vbytes vlist W input p0 w = (Ok outs, w0) ->
    execute V vbytes vlist W input q w0 = (Ok r, w1) ->
    exists new, execute V vbytes vlist W input p w = (Ok (outs ++ new), w1) /\
    (new = [vlist r] /\ length (returned nm [] (pre ++ [SAssign x (SVInstrs l)])) = S (length (returned nm [] pre)) \/
     new = [] /\ length (returned nm [] (pre ++ [SAssign x (SVInstrs l)])) = length (returned nm [] pre)).
Proof.
  intros V vbytes vlist W nm mods pre x l p0 q input E0 Eq.
  destruct (subprogram V vbytes vlist W nm mods pre x l p0 q input E0 Eq) as (p & Ep & X).
  exists p. split; auto. intros w outs w0 r w1 X0 X1. specialize (X w).
  unfold seq, ret in X. rewrite X0, X1 in X. eexists. split; [exact X|].
  pose proof (outputs_count V vbytes vlist W nm mods _ p input w _ _ Ep X) as L.
  pose proof (outputs_count V vbytes vlist W nm mods _ p0 input w _ _ E0 X0) as L0.
  assert (A : forall pre declared, let a := returned nm declared pre in
            let b := returned nm declared (pre ++ [SAssign x (SVInstrs l)]) in
            length b = length a \/ length b = S (length a)).
  { clear. induction pre as [|i pre IH]; intros declared; cbn.
    - destruct (existsb (bytes_eqb (nm x)) declared); cbn; auto.
    - destruct i as [n k|n m|n [|]|y v|y t a|a]; try apply IH.
      destruct (existsb (bytes_eqb (nm y)) declared); [cbn|apply IH].
      specialize (IH declared). cbn in IH. lia. }
  specialize (A pre []). cbn in A. rewrite app_length, map_length, skipn_length in L.
  destruct (skipn (length (returned nm [] pre)) (returned nm [] (pre ++ [SAssign x (SVInstrs l)]))) as [|k [|k' s]] eqn:S.
  - right. split; [reflexivity|]. assert (Z := f_equal (@length _) S). rewrite skipn_length in Z. cbn in Z. lia.
  - left. split; [reflexivity|]. assert (Z := f_equal (@length _) S). rewrite skipn_length in Z. cbn in Z. lia.
  - assert (Z := f_equal (@length _) S). rewrite skipn_length in Z. cbn in Z. lia.
Qed.
Print Assumptions C105_subprogram_runs_alone_on_the_same_inputs.

(** The sub-program's first input parameter, called as the second one outside, gets the first input. *)
Example C105_case : match icompile ix_sub with
  | Ok q => iexecute [DNat 3; DNat 4] q 0 = (Ok [DNat 3], 0)
  | _ => False end.
Proof. vm_compute. reflexivity. Qed.

(** ** C106: only the equality of names matters *)
Theorem C106_renaming_does_not_change_the_program :
  forall V W nm ren mods l,
  (forall a b, ren a = ren b -> a = b) ->
  compile V W (fun n => ren (nm n)) mods l = compile V W nm mods l.
Proof. intros. apply rename_compile. assumption. Qed.
Print Assumptions C106_renaming_does_not_change_the_program.

Example C106_case : forall a b : bytes, x00 :: a = x00 :: b -> a = b.
Proof. intros a b E. congruence. Qed.

(** ** C107: the arguments a module function receives *)
Theorem C107_last_attached_value_is_passed :
  forall V vbytes vlist W input i (m : module V W) atts xs,
  Forall2 (fun vt x => forall w, exec_value V vbytes vlist W input (fst vt) w = (Ok x, w)) atts xs ->
  exists ps, StronglySorted lt (map fst ps) /\
    (forall t v, In (t, v) ps <->
       exists l1 l2, combine (map snd atts) xs = l1 ++ (t, v) :: l2 /\ ~ In t (map fst l2)) /\
    forall w, exec_app V vbytes vlist W input (PApp V W i m atts) w = m_fn V W m ps w.
Proof. intros. apply exec_app_map. assumption. Qed.
Print Assumptions C107_last_attached_value_is_passed.

Example C107_case : exists ps,
  ps = [(0, DBytes n_b); (1, DNat 4)] /\
  forall w, exec_app dyn DBytes DList nat [DNat 3; DNat 4]
    (PApp dyn nat 0 m_add [(PInput dyn nat 0, 0); (PInput dyn nat 1, 1); (PConst dyn nat n_b, 0)]) w = m_fn dyn nat m_add ps w.
Proof. eexists. split; reflexivity. Qed.

(** An application to which some of the declared inputs are attached: input [fst jt] to the local [snd jt]. *)
Definition caller {V W} (m : module V W) (modname a out : bytes) (ys : list bytes) (atts : list (nat * nat)) : list sinstr :=
  [SModule modname (m_index V W m); SApp a modname] ++ map (fun y => SParam y true) ys ++
  map (fun jt => SAttach (nth (fst jt) ys []) (snd jt) a) atts ++ [SParam out false; SAssign out (SVExec a)].

Theorem C107_last_attached_input_is_passed :
  forall V vbytes vlist W nm mods1 (m : module V W) mods2 modname a out ys atts input p,
  (forall m', In m' mods2 -> m_index V W m' <> m_index V W m) ->
  NoDup (map nm ys) -> length ys <= length input -> Forall (fun jt => fst jt < length ys) atts ->
  compile V W nm (mods1 ++ m :: mods2) (caller m modname a out ys atts) = Ok p ->
  exists ps, StronglySorted lt (map fst ps) /\
    (forall t v, In (t, v) ps <->
       exists l1 j l2, atts = l1 ++ (j, t) :: l2 /\ ~ In t (map snd l2) /\ nth_error input j = Some v) /\
    forall w, execute V vbytes vlist W input p w =
      match m_fn V W m ps w with
      | (Ok v, w') => (Ok [v], w')
      | (Err, w') => (Err, w')
      | (Panic, w') => (Panic, w')
      | (Fuel, w') => (Fuel, w')
      end.
Proof.
  intros V vbytes vlist W nm mods1 m mods2 modname a out ys atts input p Hm D L F E.
  destruct (call_inputs V vbytes vlist W nm true (mods1 ++ m :: mods2) input m mods1 mods2 modname a out ys atts
              eq_refl Hm D L F) as (ps & S & I & X).
  exists ps. split; auto. split; auto. intros w.
  rewrite (execute_interpret V vbytes vlist W nm true (mods1 ++ m :: mods2) input (or_introl eq_refl) _ p E).
  exact (X w).
Qed.
Print Assumptions C107_last_attached_input_is_passed.

(** The sum of the second input, attached last to 0, and the first one. *)
Example C107_input_case :
  match icompile (caller m_add n_m n_a n_o [n_x; n_y] [(0, 0); (0, 1); (1, 0)]) with
  | Ok p => iexecute [DNat 3; DNat 5; DNat 9] p 0 = (Ok [DNat 8], 0)
  | _ => False end.
Proof. vm_compute. reflexivity. Qed.
