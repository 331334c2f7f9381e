(** Property theorems for compositions, coverages and fetches (C52, C53, C96 - C101). *)
From Coq Require Import List ZArith Lia Bool.
From Coq Require Import Init.Byte Strings.Byte.
From Verif Require Import Base BaseLemmas AstModel SpecAst AstProofs AstTraceProofs AstFuelProofs AstPanicProofs AstListProofs
  CoverModel SpecCover CoverProofs CoverTreeProofs CoverFetchProofs CoverBlameProofs.
Import ListNotations.

(** ** A grammar for the examples *)
(** e := '(' @e ')' | d; d := 'a'; spaces skipped. Suites: e accepts "( a)" and rejects "b", d accepts "a". *)
Definition cx_one (n : bytes) (b : byte) : container := CElement (EValue n b) 1 (Some 1%Z).
Definition cx_d : token := Token [x64] [[cx_one [x61] x61]] [Suite true [(x61, 1%Z)]].
Definition cx_e : token :=
  Token [x65] [[cx_one [x28] x28; CElement (ERecursive [x65]) 1 (Some 1%Z); cx_one [x29] x29]; [CElement (EToken cx_d) 1 (Some 1%Z)]]
    [Suite true [(x28, 1%Z); (x20, 1%Z); (x61, 1%Z); (x29, 1%Z)]; Suite false [(x62, 1%Z)]].
Definition cx_space : token := Token [x73] [[cx_one [x20] x20]] [].
Definition cx_g : grammar := Grammar cx_e [Channel cx_space None].

Definition presentb (c : container) : bool := match c with CElement _ min _ => (1 <=? min)%Z | CCompose _ _ => true end.
Definition externalb (c : container) : bool := match c with CElement (EExternal _ _) _ _ => false | _ => true end.
Lemma cx_cards : cards_ok cx_g.
Proof. apply check_cards. vm_compute. reflexivity. Qed.
Lemma cx_escape : no_escape cx_g.
Proof. apply check_escape. vm_compute. reflexivity. Qed.
Lemma cx_guarded : guarded cx_g.
Proof. apply check_guarded_ok. vm_compute. reflexivity. Qed.
Lemma cx_present : no_optional cx_g.
Proof.
  intros root chs. apply (check_containers_ok presentb); [|vm_compute; reflexivity].
  intros [e mi ma|n vs]; cbn [presentb]; auto. intros H. now apply Z.leb_le.
Qed.
Lemma cx_external : no_external cx_g.
Proof.
  intros root chs. apply (check_containers_ok externalb); [|vm_compute; reflexivity].
  intros [[| | | |] mi ma|n vs]; cbn [externalb]; auto; discriminate.
Qed.
Lemma cx_names : names_tell cx_e.
Proof.
  intros t u Wt Wu E. apply within_tokens in Wt, Wu. vm_compute in Wt, Wu.
  destruct Wt as [<-|[<-|[]]], Wu as [<-|[<-|[]]]; auto; discriminate.
Qed.
Definition smallb (l : list (byte * Z)) : bool := forallb (fun x => (0 <=? snd x)%Z && (snd x <? two63)%Z) l.
Lemma smallb_ok l : smallb l = true -> small l.
Proof.
  intros H b n I. unfold smallb in H. rewrite forallb_forall in H. specialize (H _ I). cbn [snd] in H.
  apply andb_true_iff in H as [A B]. apply Z.leb_le in A. apply Z.ltb_lt in B. refine (conj A B).
Qed.
Lemma cx_small : small_suites cx_g.
Proof.
  intros t chs s (root & U & W) I. assert (It := all_tokens_in _ _ _ _ U W).
  assert (C : forallb (fun t => forallb (fun s => smallb (suite_values s)) (t_suites t)) (all_tokens cx_g) = true) by (vm_compute; reflexivity).
  rewrite forallb_forall in C. specialize (C t It). rewrite forallb_forall in C. apply smallb_ok. auto.
Qed.

(** ** C52 *)
Theorem C52_compose : forall t, t_lines t <> [] -> (forall l n vs, In l (t_lines t) -> In (CCompose n vs) l -> small vs) ->
  (forall w, compose t = Ok w <-> exists l, t_lines t = [l] /\ line_spells l w) /\
  (compose t = Err <-> 1 < length (t_lines t) \/ exists l e min max, In l (t_lines t) /\ In (CElement e min max) l) /\
  compose t <> Panic.
Proof.
  intros t N Sm. unfold compose. destruct (t_lines t) as [|l [|l2 ls]] eqn:E; [congruence| |].
  - assert (Sl : forall n vs, In (CCompose n vs) l -> small vs) by (intros n vs; apply (Sm l); now left).
    refine (conj _ (conj _ _)).
    + intros w. rewrite compose_line_spells by auto. split; [intros H; exists l; auto|]. intros (l' & [= <-] & H). exact H.
    + rewrite <- compose_line_err. cbn [length]. split.
      * intros (e & mi & ma & I). right. exists l, e, mi, ma. split; auto. now left.
      * intros [H|(l' & e & mi & ma & [<-|[]] & I)]; [lia|]. exists e, mi, ma. exact I.
    + clear. induction l as [|[e mi ma|n vs] l IH]; cbn [compose_line]; try discriminate. destruct (compose_line l); cbn [bind]; congruence.
  - refine (conj _ (conj _ _)); [| |discriminate].
    + intros w. split; [discriminate|]. intros (l' & Q & _). discriminate.
    + split; auto. intros _. left. cbn [length]. lia.
Qed.
Print Assumptions C52_compose.

(** Occurrences of 2^63 or more give no byte at all. *)
Theorem C52_huge_occurrences_refuted : forall n m b k su, (two63 <= k < two64)%Z ->
  compose (Token n [[CCompose m [(b, k)]]] su) = Ok [].
Proof.
  intros n m b k su Hk. unfold compose. cbn [t_lines compose_line bind]. rewrite app_nil_r. f_equal.
  unfold compose_bytes. cbn [flat_map fst snd]. rewrite app_nil_r.
  assert (i64 k < 0)%Z as Q.
  { unfold i64. rewrite two63_val in *. unfold two64 in *. rewrite (Z.mod_small k) by lia.
    destruct (Z.ltb_spec k 9223372036854775808); lia. }
  destruct (i64 k); cbn in *; auto; lia.
Qed.
Print Assumptions C52_huge_occurrences_refuted.

(** "aab" *)
Example C52_ex : compose (Token [x6e] [[CCompose [x6d] [(x61, 2%Z); (x62, 1%Z)]]] []) = Ok [x61; x61; x62] /\
  line_spells [CCompose [x6d] [(x61, 2%Z); (x62, 1%Z)]] [x61; x61; x62].
Proof.
  split; [reflexivity|]. apply (line_spells_cons _ _ [] [x61; x61; x62] []); [|constructor].
  apply (spells_cons x61 2 _ [x61; x61] [x62]); [lia|reflexivity|intros x [<-|[<-|[]]]; reflexivity|].
  apply (spells_cons x62 1 _ [x62] []); [lia|reflexivity|intros x [<-|[]]; reflexivity|constructor].
Qed.

(** ** C53 *)
Theorem C53_uncovered_panics_without_suites_refuted : forall fuel g, no_suites g ->
  coverages fuel g = Ok [] /\ covered [] = Panic /\ uncovered fuel g = Panic.
Proof.
  intros fuel g N. destruct (no_suites_total fuel g N) as [r E]. pose proof (no_suites_empty fuel g r N E) as ->.
  refine (conj E (conj eq_refl _)). unfold uncovered. now rewrite E.
Qed.
Print Assumptions C53_uncovered_panics_without_suites_refuted.

Theorem C53_uncovered_returns_with_a_suite : forall root chs, no_escape (Grammar root chs) -> guarded (Grammar root chs) -> t_suites root <> [] ->
  exists N, forall fuel, N <= fuel -> exists m, uncovered fuel (Grammar root chs) = Ok m.
Proof. intros root chs. apply uncovered_end. Qed.
Print Assumptions C53_uncovered_returns_with_a_suite.

Lemma cx_space_no_suites : no_suites (Grammar cx_space []).
Proof.
  intros t chs (root & U & W). assert (I := all_tokens_in _ _ _ _ U W). vm_compute in I. destruct I as [<-|[]]. reflexivity.
Qed.
Example C53_ex : uncovered 20 (Grammar cx_space []) = Panic.
Proof. apply C53_uncovered_panics_without_suites_refuted. exact cx_space_no_suites. Qed.
Example C53_ex_suite : exists N, forall fuel, N <= fuel -> exists m, uncovered fuel cx_g = Ok m.
Proof. apply C53_uncovered_returns_with_a_suite; [exact cx_escape|exact cx_guarded|discriminate]. Qed.
Example C53_ex_result : uncovered 30 cx_g = Ok [(([x73], 0, 0), [x20])].
Proof. vm_compute. reflexivity. Qed.

(** ** C96 *)
Theorem C96_coverages_are_the_parser_results : forall fuel g l c, small_suites g -> coverages fuel g = Ok l -> In c l ->
  exists chs, part_of g (cv_token c) chs /\ t_suites (cv_token c) <> [] /\ map fst (cv_executions c) = t_suites (cv_token c) /\
    forall x, In x (cv_executions c) -> execution_of fuel (cv_token c) chs x.
Proof.
  intros fuel g l c Sm E I. apply coverages_entries in E. rewrite Forall_forall in E. destruct (E _ I) as (chs & Po & Ne & M & F).
  exists chs. refine (conj Po (conj _ (conj M _))).
  - rewrite <- M. intros Q. apply map_eq_nil in Q. contradiction.
  - rewrite Forall_forall in F. intros x Ix. apply suite_run_execution; auto. apply (Sm _ _ (fst x) Po). rewrite <- M. now apply in_map.
Qed.
Print Assumptions C96_coverages_are_the_parser_results.

Theorem C96_coverages_end : forall g, no_escape g -> guarded g -> exists N, forall fuel, N <= fuel -> exists l, coverages fuel g = Ok l.
Proof. exact coverages_end. Qed.
Print Assumptions C96_coverages_end.

(** Coverages has no error, and fails only where the parser does on the bytes of a suite of a part of the grammar. *)
Theorem C96_coverages_fail_only_with_the_parser : forall fuel g, small_suites g ->
  coverages fuel g <> Err /\
  (coverages fuel g = Panic -> exists t chs s w, part_of g t chs /\ In s (t_suites t) /\ spells (suite_values s) w /\
     execute fuel (Grammar t chs) w = Panic) /\
  (coverages fuel g = Fuel -> exists t chs s w, part_of g t chs /\ In s (t_suites t) /\ spells (suite_values s) w /\
     execute fuel (Grammar t chs) w = Fuel).
Proof.
  intros fuel g Sm. pose proof (coverages_blamed fuel g) as B. destruct (culprit_parses fuel g Sm) as (P & F).
  refine (conj _ (conj _ _)); intros E; rewrite E in B; cbn [blamed] in B; [exact B| |].
  - destruct (P B) as (t & chs & s & Po & Is & X). exists t, chs, s, (compose_bytes (suite_values s)).
    assert (Sp : spells (suite_values s) (compose_bytes (suite_values s))) by (apply compose_spells; exact (Sm _ _ _ Po Is)). auto.
  - destruct (F B) as (t & chs & s & Po & Is & X). exists t, chs, s, (compose_bytes (suite_values s)).
    assert (Sp : spells (suite_values s) (compose_bytes (suite_values s))) by (apply compose_spells; exact (Sm _ _ _ Po Is)). auto.
Qed.
Print Assumptions C96_coverages_fail_only_with_the_parser.

(** And where the parser fails on a suite of a token of the root, Coverages does not return, if names tell the tokens apart. *)
Theorem C96_failures_are_not_hidden : forall fuel root chs u s w, names_tell root -> within root u -> In s (t_suites u) ->
  small (suite_values s) -> spells (suite_values s) w ->
  execute fuel (Grammar u chs) w = Panic \/ execute fuel (Grammar u chs) w = Fuel ->
  coverages fuel (Grammar root chs) = Panic \/ coverages fuel (Grammar root chs) = Fuel.
Proof.
  intros fuel root chs u s w Nt W I Sm Sp X. pose proof (coverages_blamed fuel (Grammar root chs)) as B.
  destruct (coverages fuel (Grammar root chs)) as [r| | |] eqn:E; auto.
  - destruct (coverages_run _ _ _ _ Nt E u s w W I Sm Sp). tauto.
  - destruct B.
Qed.
Print Assumptions C96_failures_are_not_hidden.

(** A text up to a quote, with an escape: the suite that ends with an escaped quote makes Coverages panic. *)
Definition cx_quoted : grammar :=
  Grammar (Token [x72] [[CElement (EEverything [x6d] (Token [x6b] [[cx_one [x78] x22]] []) (Some (Token [x6a] [[cx_one [x65] x5c]] []))) 1 (Some 1%Z)]]
    [Suite true [(x61, 2%Z); (x5c, 1%Z); (x22, 1%Z)]]) [].
Example C96_ex_parser_panics : let 'Grammar root chs := cx_quoted in
  t_suites root = [Suite true [(x61, 2%Z); (x5c, 1%Z); (x22, 1%Z)]] /\ execute 20 (Grammar root chs) [x61; x61; x5c; x22] = Panic /\ names_tell root.
Proof.
  cbn [cx_quoted]. refine (conj eq_refl (conj _ _)); [vm_compute; reflexivity|]. intros t u Wt Wu.
  assert (At := all_tokens_in _ _ _ _ (uses_refl cx_quoted) Wt). assert (Au := all_tokens_in _ _ _ _ (uses_refl cx_quoted) Wu).
  vm_compute in At, Au. intuition (subst; cbn in *; congruence).
Qed.
Example C96_ex_panic : small_suites cx_quoted /\ coverages 20 cx_quoted = Panic.
Proof.
  split; [|vm_compute; reflexivity]. intros t chs s (root & U & W) I. assert (It := all_tokens_in _ _ _ _ U W).
  assert (C : forallb (fun t => forallb (fun s => smallb (suite_values s)) (t_suites t)) (all_tokens cx_quoted) = true) by (vm_compute; reflexivity).
  rewrite forallb_forall in C. specialize (C t It). rewrite forallb_forall in C. apply smallb_ok. auto.
Qed.

(** The coverages of d, then of e: its first suite has a tree, its second an error. *)
Example C96_ex : small_suites cx_g /\ no_escape cx_g /\ guarded cx_g.
Proof. exact (conj cx_small (conj cx_escape cx_guarded)). Qed.
Example C96_ex_result :
  match coverages 30 cx_g with
  | Ok [Coverage d [(_, Some td)]; Coverage e [(_, Some te); (_, None)]] =>
    d = cx_d /\ e = cx_e /\ tree_bytes true td = [x61] /\ tree_bytes true te = [x28; x20; x61; x29]
  | _ => False
  end.
Proof. vm_compute. auto. Qed.

(** ** C97 *)
Theorem C97_coverages_list_every_token : forall fuel root chs l, names_tell root -> coverages fuel (Grammar root chs) = Ok l ->
  forall u, within root u -> t_suites u <> [] -> exists c, In c l /\ cv_token c = u.
Proof. intros fuel root chs l N E u W S'. destruct (coverages_listed fuel root chs l N E u W S') as [ex I]. eauto. Qed.
Print Assumptions C97_coverages_list_every_token.

Theorem C97_coverages_list_names_once : forall fuel g l, no_external g -> coverages fuel g = Ok l ->
  NoDup (map (fun c => t_name (cv_token c)) l).
Proof. exact coverages_once. Qed.
Print Assumptions C97_coverages_list_names_once.

(** Two tokens of one name: the suites of the second are never run. *)
Definition cx_twins : token :=
  Token [x72] [[CElement (EToken cx_d) 1 (Some 1%Z); CElement (EToken (Token [x64] [[cx_one [x62] x62]] [Suite true [(x78, 1%Z)]])) 1 (Some 1%Z)]] [].
Theorem C97_same_name_is_skipped_refuted : exists fuel g l u, listed_in g u /\ t_suites u <> [] /\ coverages fuel g = Ok l /\
  l <> [] /\ forall c, In c l -> cv_token c <> u.
Proof.
  exists 20, (Grammar cx_twins []). eexists. exists (Token [x64] [[cx_one [x62] x62]] [Suite true [(x78, 1%Z)]]).
  refine (conj _ (conj _ (conj _ (conj _ _)))).
  - left. eapply listed_child; [|apply listed_self]. eapply (child_token cx_twins); [left; reflexivity|right; left; reflexivity].
  - discriminate.
  - vm_compute. reflexivity.
  - discriminate.
  - intros c [<-|[]]. discriminate.
Qed.
Print Assumptions C97_same_name_is_skipped_refuted.

Example C97_ex : names_tell cx_e /\ no_external cx_g /\ within cx_e cx_d /\ t_suites cx_d <> [].
Proof.
  refine (conj cx_names (conj cx_external (conj _ _))).
  - apply tokens_within. right. left. reflexivity.
  - discriminate.
Qed.
Example C97_ex_result : match coverages 30 cx_g with Ok l => map (fun c => t_name (cv_token c)) l = [[x64]; [x65]] | _ => False end.
Proof. vm_compute. reflexivity. Qed.

(** ** C98 *)
(** Covered has a key exactly when a suite has a tree with an element there, and the name of one such element. *)
Theorem C98_covered : forall l m n i j, covered l = Ok m ->
  (forall v, cget m (n, i, j) = Some v -> reached l n i j v) /\
  (forall v, reached l n i j v -> exists v', cget m (n, i, j) = Some v').
Proof. exact covered_entries. Qed.
Print Assumptions C98_covered.

(** Uncovered has a key exactly when a token of the grammar has an element there, and no suite has a tree with one. *)
Theorem C98_uncovered : forall fuel g l m n i j, coverages fuel g = Ok l -> uncovered fuel g = Ok m ->
  (forall v, cget m (n, i, j) = Some v ->
     (exists u, listed_in g u /\ t_name u = n /\ element_at u i j v) /\ forall v', ~ reached l n i j v') /\
  (forall u v, listed_in g u -> t_name u = n -> element_at u i j v -> (forall v', ~ reached l n i j v') ->
     exists v', cget m (n, i, j) = Some v').
Proof. exact uncovered_entries. Qed.
Print Assumptions C98_uncovered.

(** With the suite "( a)", all of e and of d is covered; the channel has no suite. *)
Example C98_ex : match coverages 30 cx_g with
  | Ok l => match covered l with
            | Ok m => cget m ([x65], 0, 1) = Some [x65] /\ cget m ([x65], 1, 0) = Some [x64] /\ cget m ([x64], 0, 0) = Some [x61]
            | _ => False end
  | _ => False end /\
  match uncovered 30 cx_g with Ok m => cget m ([x65], 0, 1) = None /\ cget m ([x73], 0, 0) = Some [x20] | _ => False end.
Proof. vm_compute. auto. Qed.
Example C98_ex_listed : listed_in cx_g cx_space /\ element_at cx_space 0 0 [x20].
Proof.
  refine (conj _ _).
  - right. exists cx_space, None. split; [now left|apply listed_self].
  - exists (EValue [x20] x20), 1%Z, (Some 1%Z). split; reflexivity.
Qed.

(** ** C99 *)
(** Without optional elements and externals, a covered position is that of an element of the grammar. *)
Theorem C99_covered_positions : forall fuel g l m n i j v, cards_ok g -> no_optional g -> no_external g ->
  coverages fuel g = Ok l -> covered l = Ok m -> cget m (n, i, j) = Some v ->
  exists u chs, part_of g u chs /\ t_name u = n /\ element_at u i j v.
Proof. exact covered_aligned. Qed.
Print Assumptions C99_covered_positions.

(** r := 'a'? 'b', with the suite "b". *)
Definition cx_opt : token :=
  Token [x72] [[CElement (EValue [x61] x61) 0 (Some 1%Z); cx_one [x62] x62]] [Suite true [(x62, 1%Z)]].
(** The only tree of the suites has the element b and not the element a: b is reported as uncovered, a is not. *)
Theorem C99_optional_elements_shift_refuted : exists fuel g s t m,
  coverages fuel g = Ok [Coverage cx_opt [(s, Some t)]] /\ g = Grammar cx_opt [] /\
  element_at cx_opt 0 0 [x61] /\ element_at cx_opt 0 1 [x62] /\
  find (has_name [x61]) (items t) = None /\ find (has_name [x62]) (items t) <> None /\
  uncovered fuel g = Ok m /\ cget m ([x72], 0, 0) = None /\ cget m ([x72], 0, 1) = Some [x62].
Proof.
  exists 20, (Grammar cx_opt []), (Suite true [(x62, 1%Z)]). eexists. eexists.
  refine (conj _ (conj eq_refl (conj _ (conj _ (conj _ (conj _ (conj _ (conj _ _)))))))).
  - vm_compute. reflexivity.
  - exists (EValue [x61] x61), 0%Z, (Some 1%Z). split; reflexivity.
  - exists (EValue [x62] x62), 1%Z, (Some 1%Z). split; reflexivity.
  - vm_compute. reflexivity.
  - vm_compute. discriminate.
  - vm_compute. reflexivity.
  - vm_compute. reflexivity.
  - vm_compute. reflexivity.
Qed.
Print Assumptions C99_optional_elements_shift_refuted.

Example C99_ex : cards_ok cx_g /\ no_optional cx_g /\ no_external cx_g.
Proof. exact (conj cx_cards (conj cx_present cx_external)). Qed.
Example C99_ex_result : match coverages 30 cx_g with
  | Ok l => match covered l with Ok m => cget m ([x65], 0, 2) = Some [x29] | _ => False end
  | _ => False end.
Proof. vm_compute. reflexivity. Qed.

(** ** C100 *)
Theorem C100_fetch_returns_a_part_of_that_name : forall name index t x, fetch_tree name index t = Some x ->
  In x (items t) /\ has_name name x = true.
Proof. intros name index t x. apply (fetch_sound name index (tree_size t) t (le_n _)). Qed.
Print Assumptions C100_fetch_returns_a_part_of_that_name.

Theorem C100_fetch_zero_is_the_first : forall name t, fetch_tree name 0 t = find (has_name name) (items t).
Proof. intros name t. apply (fetch_first name (tree_size t) t (le_n _)). Qed.
Print Assumptions C100_fetch_zero_is_the_first.

Theorem C100_fetch_among_values : forall name index t l, t_name (tr_grammar t) <> name -> successful (tr_block t) = Some l ->
  (forall e u, In e (l_elements l) -> ~ In (TTree u) (el_contents e)) ->
  fetch_tree name index t = nth_error (filter (has_name name) (map FElement (l_elements l))) index.
Proof. exact fetch_flat. Qed.
Print Assumptions C100_fetch_among_values.

(** p := d ':' d; d := 'a', on "a:a". *)
Definition cx_pair : token :=
  Token [x70] [[CElement (EToken cx_d) 1 (Some 1%Z); cx_one [x3a] x3a; CElement (EToken cx_d) 1 (Some 1%Z)]] [].
Example C100_ex : match execute 20 (Grammar cx_pair []) [x61; x3a; x61] with
  | Ok t => match fetch_tree [x61] 0 t with Some (FElement e) => element_bytes true e = [x61] | _ => False end /\
            fetch_tree [x7a] 0 t = None /\ length (items t) = 8
  | _ => False end /\
  match execute 20 (Grammar cx_d []) [x61] with
  | Ok t => fetch_tree [x61] 0 t <> None /\ fetch_tree [x61] 1 t = None
  | _ => False end.
Proof. vm_compute. repeat split; discriminate. Qed.

(** ** C101 *)
(** The tree of "a:a" has two elements named a, in two tokens d; Fetch(a, 1) is an error. *)
Theorem C101_fetch_misses_nested_ones_refuted : exists fuel g data t name,
  execute fuel g data = Ok t /\ has_successful t = true /\ length (filter (has_name name) (items t)) = 2 /\ fetch_tree name 1 t = None.
Proof.
  exists 20, (Grammar cx_pair []), [x61; x3a; x61].
  assert (C : match execute 20 (Grammar cx_pair []) [x61; x3a; x61] with
    | Ok t => has_successful t = true /\ length (filter (has_name [x61]) (items t)) = 2 /\ fetch_tree [x61] 1 t = None
    | _ => False end) by (vm_compute; auto).
  destruct (execute 20 (Grammar cx_pair []) [x61; x3a; x61]) as [t| | |]; try contradiction. exists t, [x61]. auto.
Qed.
Print Assumptions C101_fetch_misses_nested_ones_refuted.
