(** Property theorems for the parser: grammars whose tokens refer to themselves (C143 - C145). *)
From Coq Require Import List ZArith Lia Bool.
From Coq Require Import Init.Byte Strings.Byte.
From Verif Require Import Base BaseLemmas AstModel SpecAst SpecPeg SpecRec AstProofs AstTraceProofs AstFuelProofs AstListProofs AstPegProofs AstRecProofs AstLateProofs PropAst.
Import ListNotations.

(** *** C143 *)
(** [rec_of plainly]: what the grammar matches, read as a parsing expression whose tokens may refer to themselves
    (SpecRec.v). When each line refers at most once to its token, the parser recognises exactly that. *)
Theorem C143_recursive_parsing_expression : forall g data,
  rec_grammar g -> linear g ->
  exists n, forall fuel, n <= fuel ->
    match rec_of plainly g data with
    | Some (a, rest) => exists t, execute fuel g data = Ok t /\ has_successful t = true /\ tree_ast t = a /\ tr_remaining t = rest
    | None => execute fuel g data = Err \/ exists t, execute fuel g data = Ok t /\ has_successful t = false
    end.
Proof.
  intros g data P L. exists (enough (gram_size g) (length data)). intros f Lf.
  pose proof (execute_rec plainly f g data (conj P (or_intror (conj eq_refl L))) (guarded_terminates _ _ (rec_guarded _ P) f Lf)) as A. unfold agrees in A.
  destruct (execute f g data) as [t| | |]; try contradiction.
  - rewrite A. destruct (has_successful t) eqn:Hs; [exists t; auto|right; exists t; auto].
  - rewrite A. now left.
Qed.
Print Assumptions C143_recursive_parsing_expression.

(** e := '(' @e ')' | 'a', spaces skipped. *)
Example C143_ex : rec_grammar ex_g /\ linear ex_g /\
  rec_of plainly ex_g [x28; x20; x28; x61; x29; x20; x29; x62] =                          (* "( (a) )b" *)
    Some (Node [x65] 0 [([x28], [Leaf x28]);
      ([x65], [Node [x65] 0 [([x28], [Leaf x28]); ([x65], [Node [x65] 1 [([x61], [Leaf x61])]]); ([x29], [Leaf x29])]]);
      ([x29], [Leaf x29])], [x62]) /\
  rec_of plainly ex_g [x28; x28; x61; x29] = None.                                        (* "((a)" *)
Proof. refine (conj (check_rec_ok _ _) (conj (check_linear_ok _ _) _)); vm_compute; auto. Qed.

(** At all depths: n brackets around one a are recognised, whatever comes after them. *)
Lemma ex_byte b c d : peg_times (fun d => peg_byte b (peg_skip [] d)) 1 (Some 1%Z) (c :: d) = if Byte.eqb b c then Some ([Leaf b], d) else None.
Proof.
  unfold peg_times. cbn [length peg_greedy]. change (1 <=? 0)%Z with false. rewrite peg_skip_nil. cbn [peg_byte].
  destruct (Byte.eqb b c); [|reflexivity]. destruct d; reflexivity.
Qed.
Example C143_ex_deep : forall n rest, exists k, forall fuel, k <= fuel -> exists t,
  execute fuel (Grammar ex_expr []) (repeat x28 n ++ x61 :: repeat x29 n ++ rest) = Ok t /\ has_successful t = true /\ tr_remaining t = rest.
Proof.
  assert (R : rec_grammar (Grammar ex_expr []) /\ linear (Grammar ex_expr [])).
  { split; [apply check_rec_ok|apply check_linear_ok]; vm_compute; reflexivity. }
  assert (K : forall n k rest, n <= k -> exists a, rec_knot plainly (peg_skip []) [x65]
    [[([x28], Fixed (peg_times (fun d => peg_byte x28 (peg_skip [] d)) 1 (Some 1%Z))); ([x65], Again 1 (Some 1%Z));
      ([x29], Fixed (peg_times (fun d => peg_byte x29 (peg_skip [] d)) 1 (Some 1%Z)))];
     [([x61], Fixed (peg_times (fun d => peg_byte x61 (peg_skip [] d)) 1 (Some 1%Z)))]] k (repeat x28 n ++ x61 :: repeat x29 n ++ rest) = Some (a, rest)).
  { induction n as [|n IH]; intros k rest L.
    - exists (Node [x65] 1 [([x61], [Leaf x61])]). cbn [repeat app]. destruct k; cbn [rec_knot map rec_seq peg_first]; rewrite !ex_byte; cbn [Byte.eqb];
        change (Byte.eqb x28 x61) with false; change (Byte.eqb x61 x61) with true; cbn iota; cbn [length];
        replace (length rest <? S (length rest)) with true by (symmetry; apply Nat.ltb_lt; lia); now rewrite peg_skip_nil.
    - destruct k as [|k]; [lia|]. destruct (IH k (x29 :: rest)) as (a & Ea); [lia|].
      replace (repeat x28 (S n) ++ x61 :: repeat x29 (S n) ++ rest) with (x28 :: (repeat x28 n ++ x61 :: repeat x29 n ++ x29 :: rest)).
      2:{ cbn [repeat app]. do 3 f_equal. change (x29 :: rest) with ([x29] ++ rest). rewrite app_assoc. change [x29] with (repeat x29 1).
          rewrite <- repeat_app, Nat.add_comm. reflexivity. }
      exists (Node [x65] 0 [([x28], [Leaf x28]); ([x65], [a]); ([x29], [Leaf x29])]).
      set (d := repeat x28 n ++ x61 :: repeat x29 n ++ x29 :: rest) in *.
      assert (Ld : length rest < length d) by (unfold d; rewrite app_length; cbn [length]; rewrite app_length; cbn [length]; lia).
      assert (Ed : exists y d0, d = y :: d0) by (unfold d; destruct n; cbn; eauto). destruct Ed as (y & d0 & Ed).
      cbn [rec_knot map rec_seq peg_first]. rewrite ex_byte. change (Byte.eqb x28 x28) with true. cbn iota. unfold plainly.
      replace (peg_greedy _ (Some 1%Z) (length d) 0 d) with ([a], x29 :: rest).
      2:{ rewrite Ed at 1. cbn [length peg_greedy]. change (1 <=? 0)%Z with false. cbn iota. unfold plainly in Ea. cbn [rec_knot map rec_seq] in Ea |- *.
          rewrite Ea. destruct (length d0); reflexivity. }
      change (zlen [a] <? 1)%Z with false. cbn iota. rewrite ex_byte. change (Byte.eqb x29 x29) with true. cbn iota.
      replace (length rest <? length (x28 :: d)) with true by (symmetry; apply Nat.ltb_lt; cbn [length]; lia). now rewrite peg_skip_nil. }
  intros n rest. destruct R as (R & L). destruct (C143_recursive_parsing_expression _ (repeat x28 n ++ x61 :: repeat x29 n ++ rest) R L) as (k & Hk).
  exists k. intros f Lf. specialize (Hk f Lf).
  destruct (K n (length (repeat x28 n ++ x61 :: repeat x29 n ++ rest)) rest) as (a & Ea).
  { rewrite app_length, repeat_length. lia. }
  change (rec_of plainly (Grammar ex_expr []) (repeat x28 n ++ x61 :: repeat x29 n ++ rest)) with
    (rec_knot plainly (peg_skip []) [x65]
    [[([x28], Fixed (peg_times (fun d => peg_byte x28 (peg_skip [] d)) 1 (Some 1%Z))); ([x65], Again 1 (Some 1%Z));
      ([x29], Fixed (peg_times (fun d => peg_byte x29 (peg_skip [] d)) 1 (Some 1%Z)))];
     [([x61], Fixed (peg_times (fun d => peg_byte x61 (peg_skip [] d)) 1 (Some 1%Z)))]] (length (repeat x28 n ++ x61 :: repeat x29 n ++ rest))
     (repeat x28 n ++ x61 :: repeat x29 n ++ rest)) in Hk.
  rewrite Ea in Hk. destruct Hk as (t & A & B & _ & D). exists t. auto.
Qed.

(** *** C144 *)
(** [rec_of at_most_once]: as before, but in each line only the first reference that is tried can match, and only once. *)
Theorem C144_recursion_as_implemented : forall g data,
  rec_grammar g ->
  exists n, forall fuel, n <= fuel ->
    match rec_of at_most_once g data with
    | Some (a, rest) => exists t, execute fuel g data = Ok t /\ has_successful t = true /\ tree_ast t = a /\ tr_remaining t = rest
    | None => execute fuel g data = Err \/ exists t, execute fuel g data = Ok t /\ has_successful t = false
    end.
Proof.
  intros g data P. exists (enough (gram_size g) (length data)). intros f Lf.
  pose proof (execute_rec at_most_once f g data (conj P (or_introl eq_refl)) (guarded_terminates _ _ (rec_guarded _ P) f Lf)) as A. unfold agrees in A.
  destruct (execute f g data) as [t| | |]; try contradiction.
  - rewrite A. destruct (has_successful t) eqn:Hs; [exists t; auto|right; exists t; auto].
  - rewrite A. now left.
Qed.
Print Assumptions C144_recursion_as_implemented.

(** The two readings differ: s := '(' @s ')' @s | 'a' on "(a)a", which ends in an error, although both references match, and
    e := '(' @e{1,2} ')' | 'a' on "(aa)". If the second reference may be absent, the line is matched without it. *)
Definition ex_seq (min : Z) : grammar :=
  Grammar (Token [x65] [[ex_one [x28] x28; CElement (ERecursive [x65]) 1 (Some 1%Z); ex_one [x29] x29; CElement (ERecursive [x65]) min (Some 1%Z)];
                        [ex_one [x61] x61]] []) [].
Example C144_ex : rec_grammar (ex_seq 1) /\ rec_grammar (ex_seq 0) /\ rec_grammar ex_pair /\ rec_grammar ex_g /\
  rec_of at_most_once (ex_seq 1) [x28; x61; x29; x61] = None /\
  rec_of plainly (ex_seq 1) [x28; x61; x29; x61] <> None /\
  rec_of at_most_once (ex_seq 0) [x28; x61; x29; x61] =
    Some (Node [x65] 0 [([x28], [Leaf x28]); ([x65], [Node [x65] 1 [([x61], [Leaf x61])]]); ([x29], [Leaf x29])], [x61]) /\
  rec_of at_most_once ex_pair [x28; x61; x61; x29] = None /\
  rec_of plainly ex_pair [x28; x61; x61; x29] <> None /\
  rec_of at_most_once ex_g ex_data = rec_of plainly ex_g ex_data /\ rec_of at_most_once ex_g ex_data <> None.
Proof.
  refine (conj (check_rec_ok _ _) (conj (check_rec_ok _ _) (conj (check_rec_ok _ _) (conj (check_rec_ok _ _) _)))); [vm_compute; reflexivity..|].
  vm_compute. repeat split; discriminate.
Qed.

(** *** C145 *)
(** [too_late] (SpecRec.v): the line refers to an enclosing token after the values after which an earlier line refers
    to it. It is never the line that matched, whatever the input. *)
Theorem C145_later_reference_to_an_enclosing_token_refuted : forall fuel g data t,
  guarded g -> distinct_names g -> no_external g ->
  execute fuel g data = Ok t ->
  forall u l, nested t u -> successful (tr_block u) = Some l -> ~ too_late (tr_grammar u) (l_index l).
Proof. intros f g data t Hg Hd Hx E u l N Es. exact (execute_fine f g data t Hg Hd Hx E u N l Es). Qed.
Print Assumptions C145_later_reference_to_an_enclosing_token_refuted.

(** n := 'x' | '(' u ')' with u := 'a' @n 'b' | 'a' @n 'c': "(axb)" is matched, and "(axc)" is an error, although it is
    in the language of the grammar; as it is with the lines of u in the other order. *)
Definition ex_b : list container := [ex_one [x31] x61; CElement (ERecursive [x6e]) 1 (Some 1%Z); ex_one [x32] x62].
Definition ex_c : list container := [ex_one [x31] x61; CElement (ERecursive [x6e]) 1 (Some 1%Z); ex_one [x33] x63].
Definition ex_outer (ls : list (list container)) : grammar :=
  Grammar (Token [x6e] [[ex_one [x35] x78]; [ex_one [x36] x28; CElement (EToken (Token [x75] ls [])) 1 (Some 1%Z); ex_one [x37] x29]] []) [].
Example C145_ex : let g := ex_outer [ex_b; ex_c] in
  guarded g /\ distinct_names g /\ no_external g /\ too_late (Token [x75] [ex_b; ex_c] []) 1 /\
  match execute 20 g [x28; x61; x78; x62; x29] with Ok t => has_successful t = true /\ tr_remaining t = [] | _ => False end /\
  execute 20 g [x28; x61; x78; x63; x29] = Err /\
  language g [x28; x61; x78; x63; x29] /\
  match execute 20 (ex_outer [ex_c; ex_b]) [x28; x61; x78; x63; x29] with Ok t => has_successful t = true /\ tr_remaining t = [] | _ => False end.
Proof.
  cbn zeta. split; [apply check_guarded_ok; vm_compute; reflexivity|]. split; [apply check_distinct; vm_compute; reflexivity|].
  split; [apply check_external; vm_compute; reflexivity|]. refine (conj _ (conj _ (conj _ (conj _ _)))).
  - exists 0, ex_b, ex_c, [ex_one [x31] x61], [x6e], 1%Z, (Some 1%Z), 1%Z, (Some 1%Z). split; [lia|]. split; [reflexivity|]. split; [reflexivity|].
    split; [discriminate|]. assert (V : Forall value_container [ex_one [x31] x61]) by (constructor; [exact Logic.I|constructor]).
    split; [split; [exact V|eexists; reflexivity]|]. split; [intros m [= <-]; lia|]. split; [split; [exact V|eexists; reflexivity]|].
    rewrite two63_val. lia.
  - vm_compute. auto.
  - vm_compute. reflexivity.
  - assert (One : forall r chs e w rest v, lang_content r chs e w -> lang_line r chs rest v -> lang_line r chs (CElement e 1 (Some 1%Z) :: rest) (w ++ v)).
    { intros r chs e w rest v A B. apply (lang_cons _ _ _ 1 (Some 1%Z) _ 1); [lia|intros m [= <-]; lia| |exact B].
      rewrite <- (app_nil_r w). apply lang_succ; [exact A|constructor]. }
    assert (Val : forall r chs n b rest v, lang_line r chs rest v -> lang_line r chs (ex_one n b :: rest) (b :: v)).
    { intros r chs n b rest v B. apply (One r chs (EValue n b) [b] rest v); [apply (lang_value r chs n b []); constructor|exact B]. }
    exists [x28; x61; x78; x63; x29], []. split; [reflexivity|]. split; [|constructor].
    econstructor; [right; left; reflexivity|]. apply Val. apply (One _ _ _ [x61; x78; x63] _ [x29]); [|apply Val; constructor].
    apply (lang_sub _ _ _ [x61; x78; x63] []); [|constructor]. econstructor; [right; left; reflexivity|]. apply Val.
    apply (One _ _ _ [x78] _ [x63]); [|apply Val; constructor].
    eapply (lang_recursive _ _ _ _ [x78] []); [apply within_refl|reflexivity| |constructor].
    econstructor; [left; reflexivity|]. apply Val. constructor.
  - vm_compute. auto.
Qed.
