(** Property theorems for the parser: bounds, cardinalities out of order, and what names, bytes and suites mean to it
    (C42, C132-C135). *)
From Coq Require Import List ZArith Lia Bool.
From Coq Require Import Init.Byte Strings.Byte.
From Verif Require Import Base BaseLemmas AstModel SpecAst AstProofs AstTraceProofs AstFuelProofs SpecRename AstRenameProofs PropAst.
Import ListNotations.

(** *** C42 *)
(** The bound of the model on calls and loops is only a bound: any larger one gives the same answer. *)
Theorem C42_the_answer_does_not_depend_on_the_bound : forall f1 f2 g data,
  execute f1 g data <> Fuel -> execute f2 g data <> Fuel -> execute f1 g data = execute f2 g data.
Proof.
  intros f1 f2 g data N1 N2. destruct (Nat.le_ge_cases f1 f2) as [L|L].
  - symmetry. now apply execute_mono.
  - now apply execute_mono.
Qed.
Print Assumptions C42_the_answer_does_not_depend_on_the_bound.

(** *** C132 *)
(** A line with an element whose maximum is below its minimum is never matched. *)
Theorem C132_maximum_below_minimum_never_matches : forall fuel g data t,
  cards_ok g -> execute fuel g data = Ok t -> has_successful t = true ->
  forall u l c min max, nested t u -> successful (tr_block u) = Some l -> l_reverse l = false ->
  In (CElement c min (Some max)) (l_grammar l) -> (min <= Z.max 0 max)%Z.
Proof.
  intros f g data t C E Hs u l c mi ma N Es R I.
  destruct (C45_cardinalities_hold _ _ _ _ C E Hs u N) as (l' & Es' & _ & [(_ & F & _)|(R' & _)]); [|congruence].
  rewrite Es in Es'. injection Es' as <-. revert I. clear - F. induction F as [|c' mi' ma' l1 es M F IH|c' mi' ma' l1 cs es N M X F IH];
    intros I; [destruct I| |]; (destruct I as [[= -> -> ->]|I]; [|auto]); [lia|].
  specialize (X ma eq_refl). lia.
Qed.
Print Assumptions C132_maximum_below_minimum_never_matches.

(** The byte a at least twice and at most once: "aa" and "a" are both errors; a second line is taken instead. *)
Example C132_ex : let bad := CElement (EValue [x31] x61) 2 (Some 1%Z) in
  execute 20 (Grammar (Token [x6e] [[bad]] []) []) [x61; x61] = Err /\
  execute 20 (Grammar (Token [x6e] [[bad]] []) []) [x61] = Err /\
  match execute 20 (Grammar (Token [x6e] [[bad]; [ex_one [x32] x61]] []) []) [x61; x61] with
  | Ok t => has_successful t = true /\ tr_remaining t = [x61]
  | _ => False
  end.
Proof. vm_compute. auto. Qed.

(** *** C133 *)
Lemma map_same : forall (d : bytes), map (fun b => b) d = d.
Proof. induction d as [|x d IH]; cbn; [reflexivity|now rewrite IH]. Qed.

(** Renaming all tokens, values, composes, externals and recursive references, different names to different names,
    renames them in the tree, and changes nothing else. *)
Theorem C133_only_the_equality_of_names_matters : forall ren, (forall a b, ren a = ren b -> a = b) ->
  forall fuel g data,
  execute fuel (map_grammar ren (fun b => b) (fun l => l) g) data =
    map_outcome (map_tree ren (fun b => b) (fun l => l)) (execute fuel g data) /\
  forall inc t, tree_bytes inc (map_tree ren (fun b => b) (fun l => l) t) = tree_bytes inc t.
Proof.
  intros ren I fuel g data. split.
  - rewrite <- (map_same data) at 1. apply execute_map; auto.
  - intros inc t. rewrite (tree_bytes_map ren (fun b => b) (fun l => l) I inc t). apply map_same.
Qed.
Print Assumptions C133_only_the_equality_of_names_matters.

Definition ren_ex (n : bytes) : bytes := x21 :: n.
Example C133_ex : (forall a b, ren_ex a = ren_ex b -> a = b) /\
  match execute 20 (map_grammar ren_ex (fun b => b) (fun l => l) ex_g) ex_data with
  | Ok t => has_successful t = true /\ tree_bytes true t ++ tr_remaining t = ex_data /\ hd x00 (t_name (tr_grammar t)) = x21
  | _ => False
  end.
Proof. split; [intros a b [= E]; exact E|]. vm_compute. auto. Qed.

(** *** C134 *)
(** Changing bytes throughout the grammar and the input, different bytes to different bytes, changes them in the tree. *)
Theorem C134_bytes_have_no_meaning : forall fb, (forall a b, fb a = fb b -> a = b) ->
  forall fuel g data,
  execute fuel (map_grammar (fun n => n) fb (fun l => l) g) (map fb data) =
    map_outcome (map_tree (fun n => n) fb (fun l => l)) (execute fuel g data) /\
  forall inc t, tree_bytes inc (map_tree (fun n => n) fb (fun l => l) t) = map fb (tree_bytes inc t).
Proof.
  intros fb I fuel g data. split; [apply execute_map; auto|].
  intros inc t. now apply (tree_bytes_map (fun n => n) fb (fun l => l)).
Qed.
Print Assumptions C134_bytes_have_no_meaning.

(** Upper and lower case exchanged. *)
Definition flip_ex (b : byte) : byte :=
  match Byte.of_N (N.lxor (Byte.to_N b) 32) with Some c => c | None => b end.
Lemma flip_inj : forall a b, flip_ex a = flip_ex b -> a = b.
Proof. assert (X : forall a, flip_ex (flip_ex a) = a) by (intros []; reflexivity). intros a b E. now rewrite <- (X a), E. Qed.
Example C134_ex : match execute 20 (map_grammar (fun n => n) flip_ex (fun l => l) ex_g) (map flip_ex ex_data) with
  | Ok t => has_successful t = true /\ tree_bytes true t ++ tr_remaining t = map flip_ex ex_data /\ map flip_ex ex_data <> ex_data
  | _ => False
  end.
Proof. vm_compute. repeat split. discriminate. Qed.

(** *** C135 *)
(** Grammars and trees without their suites. *)
Definition bare (g : grammar) : grammar := map_grammar (fun n => n) (fun b => b) (fun _ => []) g.
Definition bare_tree (t : tree) : tree := map_tree (fun n => n) (fun b => b) (fun _ => []) t.
(** Two grammars that only differ in test suites give trees that only differ in test suites. *)
Theorem C135_suites_do_not_change_parsing : forall g g', bare g = bare g' ->
  forall fuel data, map_outcome bare_tree (execute fuel g data) = map_outcome bare_tree (execute fuel g' data).
Proof.
  intros g g' E fuel data. unfold bare_tree.
  rewrite <- !(execute_map (fun n => n) (fun b => b) (fun _ => [])); auto. fold (bare g) (bare g'). now rewrite E.
Qed.
Print Assumptions C135_suites_do_not_change_parsing.

(** And what a tree is used for does not depend on the suites. *)
Theorem C135_same_bytes : forall t t', bare_tree t = bare_tree t' ->
  has_successful t = has_successful t' /\ tr_remaining t = tr_remaining t' /\ forall inc, tree_bytes inc t = tree_bytes inc t'.
Proof.
  intros t t' E.
  assert (I : forall a b : bytes, a = b -> a = b) by auto.
  rewrite <- (has_successful_map (fun n => n) (fun b => b) (fun _ => []) I t), <- (has_successful_map (fun n => n) (fun b => b) (fun _ => []) I t').
  unfold bare_tree in E. rewrite E. split; [reflexivity|]. split.
  - rewrite <- (map_same (tr_remaining t)), <- (map_same (tr_remaining t')).
    rewrite <- (tr_remaining_map (fun n => n) (fun b => b) (fun _ => [])), <- (tr_remaining_map (fun n => n) (fun b => b) (fun _ => [])). now rewrite E.
  - intros inc. rewrite <- (map_same (tree_bytes inc t)), <- (map_same (tree_bytes inc t')).
    rewrite <- (tree_bytes_map (fun n => n) (fun b => b) (fun _ => []) I inc t), <- (tree_bytes_map (fun n => n) (fun b => b) (fun _ => []) I inc t'). now rewrite E.
Qed.
Print Assumptions C135_same_bytes.

Example C135_ex : let g su := Grammar (Token [x6e] [[ex_one [x32] x61]] su) [] in
  bare (g []) = bare (g [Suite true [(x61, 1%Z)]]) /\
  match execute 20 (g [Suite true [(x61, 1%Z)]]) [x61] with Ok t => has_successful t = true | _ => False end.
Proof. vm_compute. auto. Qed.
