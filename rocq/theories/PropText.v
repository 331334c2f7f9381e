(** Property theorems for texts as tokens (C118). *)
From Coq Require Import List ZArith Lia Bool.
From Coq Require Strings.String.
Import String.StringSyntax.
From Coq Require Import Init.Byte Strings.Byte.
From Verif Require Import Base BaseLemmas AstModel SpecAst AstProofs AstTraceProofs AstFuelProofs AstListProofs SpecPeg AstPegProofs
  AstVisibleProofs GrammarModel SpecGrammar GrammarProofs GrammarVisibleProofs SpecText GrammarTextProofs PropGrammar CoverModel SpecCover CoverProofs.
Import ListNotations.
Local Open Scope list_scope.

(** ** C118 *)
(** Every string, well formed or not, has exactly one list of code points. *)
Theorem C118_every_string_has_code_points : forall s,
  exists zs, code_points s zs /\ forall zs', code_points s zs' -> zs' = zs.
Proof.
  intros s. destruct (points_total (length s) s (Nat.le_refl _)) as (zs & C). exists zs. split; [exact C|]. intros zs' C'.
  rewrite <- (runes_points s zs C (length s)), <- (runes_points s zs' C' (length s)); auto.
Qed.
Print Assumptions C118_every_string_has_code_points.

(** The token of a text recognises the bytes that end the code points; its tree has an element for each,
    named by its number in decimal. *)
Theorem C118_texts_are_truncated_code_points : forall n s zs, code_points s zs ->
  (forall t, all_characters n s = Ok t -> forall d, exists k, forall fuel, k <= fuel ->
     (forall a rest, recognises fuel (Grammar t []) d a rest ->
        exists bs es, Forall2 byte_at zs bs /\ d = bs ++ rest /\ a = Node n 0 es /\ Forall2 named es bs) /\
     (forall bs rest, Forall2 byte_at zs bs -> d = bs ++ rest -> exists a, recognises fuel (Grammar t []) d a rest)) /\
  (forall su t, any_character n s su = Ok t -> forall d, exists k, forall fuel, k <= fuel -> forall rest,
     (exists a, recognises fuel (Grammar t []) d a rest) <-> exists z b, In z zs /\ byte_at z b /\ d = b :: rest).
Proof.
  intros n s zs Cp. pose proof (codes_points s zs Cp) as B.
  assert (U : forall bs, Forall2 byte_at zs bs -> bs = codes s).
  { revert B. generalize (codes s) as cs. clear. induction zs as [|z zs IH]; intros cs B bs B'; inversion B; inversion B'; subst; auto.
    f_equal; [|now apply IH]. apply code_inj. unfold byte_at in *. congruence. }
  destruct (C118_characters_truncated n s) as (_ & _ & A1 & A2). split.
  - intros t E d.
    assert (Et : t = Token n [map from_value (codes s)] [suite_of s true]).
    { revert E. unfold all_characters, from_block. cbn [forallb]. destruct (codes s) as [|b bs]; cbn [map andb]; [discriminate|]. destruct n; [discriminate|].
      now intros [= <-]. }
    subst t.
    assert (K : peg_grammar (Grammar (Token n [map from_value (codes s)] [suite_of s true]) [])).
    { apply values_peg. intros l c [<-|[]] I. apply in_map_iff in I as (b & <- & _). eauto. }
    destruct (peg_recognises _ d K) as (k1 & H1). destruct (A1 _ E d) as (k2 & H2). exists (Nat.max k1 k2). intros f L.
    specialize (H1 f ltac:(lia)). specialize (H2 f ltac:(lia)). rewrite peg_of_eq, skipper_nil in H1. split.
    + intros a rest R. apply H1 in R. apply P_single in R as (es & -> & R & _). exists (codes s), es.
      pose proof (values_inv _ _ _ _ R) as ->. split; [exact B|]. split; [reflexivity|]. split; [reflexivity|].
      clear -R. revert es R. induction (codes s) as [|b bs IH]; intros es R.
      * cbn [map] in R. rewrite line_nil in R. injection R as <-. constructor.
      * cbn [map app] in R. apply line_inv in R as (xs & d1 & es' & E & R & ->). apply value_inv in E as (E & ->). injection E as <-.
        cbn. constructor; [|now apply IH]. split; [apply itoa_decimal|reflexivity].
    + intros bs rest F Ed. apply H2. rewrite <- (U bs F). exact Ed.
  - intros su t E d. destruct (A2 su t E d) as (k & Hk). exists k. intros f L rest. rewrite (Hk f L rest). clear -B. split.
    + intros (b & I & ->). revert I. induction B as [|z c zs cs Z B IH]; intros [].
      * subst c. exists z, b. split; [now left|auto].
      * destruct (IH H) as (z' & b' & I & ?). exists z', b'. split; [now right|auto].
    + intros (z & b & I & Zb & ->). exists b. split; [|reflexivity]. revert I. induction B as [|z' c zs cs Z B IH]; intros [].
      * subst z'. left. apply code_inj. unfold byte_at in *. congruence.
      * right. auto.
Qed.
Print Assumptions C118_texts_are_truncated_code_points.

(** "a€", the bytes 61 e2 82 ac, has the code points 97 and 8364; a lone ff is taken as 65533; 10 is written "10". *)
Example C118_text_ex : code_points [x61; xe2; x82; xac] [97; 8364]%Z /\ code_points [xff] [65533]%Z /\
  byte_at 8364 xac /\ byte_at 65533 xfd /\ decimal_text 10 [x31; x30] /\ encodes 128512 [xf0; x9f; x98; x80].
Proof.
  refine (conj _ (conj _ (conj eq_refl (conj eq_refl (conj _ _))))).
  - apply (points_next 97 [x61]); [split; [left; lia|reflexivity]|]. apply (points_next 8364 [xe2; x82; xac] []); [split; [left; lia|reflexivity]|constructor].
  - apply points_wrong; [|constructor]. intros z w r E Eq. apply (encodes_starts z w r) in E. rewrite <- Eq in E. discriminate.
  - apply (itoa_decimal x0a).
  - split; [right; lia|reflexivity].
Qed.

(** ** C177 *)
(** The suite that AllCharacters gives a token is its text, as valid. *)
Theorem C177_own_suite : forall n s t, all_characters n s = Ok t ->
  exists k, forall fuel, k <= fuel -> exists vs r, coverages fuel (Grammar t []) = Ok [Coverage t [(Suite true vs, r)]] /\ spells vs s /\
  ((exists tr, r = Some tr /\ has_successful tr = true /\ tr_remaining tr = []) <-> Forall own_byte s).
Proof.
  intros n s t E.
  assert (Et : t = Token n [map from_value (codes s)] [suite_of s true]).
  { revert E. unfold all_characters, from_block. cbn [forallb]. destruct (codes s) as [|b bs]; cbn [map andb]; [discriminate|]. destruct n; [discriminate|].
    now intros [= <-]. }
  assert (K : peg_grammar (Grammar t [])).
  { subst t. apply values_peg. intros l c [<-|[]] I. apply in_map_iff in I as (b & <- & _). eauto. }
  destruct (C118_own_text n s t E) as (k1 & H1). pose proof (no_recursion_guarded _ (peg_no_recursion _ K)) as G.
  exists (Nat.max k1 (enough (gram_size (Grammar t [])) (length s))). intros f L. specialize (H1 f ltac:(lia)).
  assert (L2 : enough (gram_size (Grammar t [])) (length s) <= f) by lia.
  pose proof (execute_peg f _ s K (guarded_terminates _ _ G f L2)) as A. unfold agrees in A. clear L L2 G K E.
  set (vs := map (fun b : byte => (b, 1%Z)) s).
  assert (Sp : spells vs s).
  { unfold vs. clear. induction s as [|b s IH]; cbn; [constructor|]. apply (spells_cons b 1 _ [b] s); auto; [lia|]. now intros x [<-|[]]. }
  assert (Cb : compose_bytes vs = s).
  { unfold vs. clear. induction s as [|b s IH]; [reflexivity|]. change (b :: compose_bytes (map (fun b : byte => (b, 1%Z)) s) = b :: s). now rewrite IH. }
  assert (R : exists r, suite_run f t [] (suite_of s true) = Ok (Suite true vs, r) /\
    match r with Some tr => execute f (Grammar t []) s = Ok tr | None => execute f (Grammar t []) s = Err end).
  { unfold suite_run, suite_of. fold vs. rewrite Cb. cbn [execute] in *.
    destruct (snd (token_run f t [] None [] false [] s)) as [tr| | |]; try contradiction; eexists; split; reflexivity. }
  destruct R as (r & R & Ex). exists vs, r. split; [|split; [exact Sp|]].
  - rewrite Et at 1. cbn [coverages cov_token existsb]. rewrite <- Et. cbn [suites_run]. rewrite R. cbn [bind].
    assert (Li : forall cs skip, (fix line (l : list container) (skip : list bytes) : outcome (list coverage * list bytes) :=
            match l with
            | [] => Ok ([], skip)
            | c :: l' =>
              do x <- cov_container f c [] skip;
              do y <- line l' (snd x);
              Ok (fst x ++ fst y, snd y)
            end) (map from_value cs) skip = Ok ([], skip)).
    { induction cs as [|c cs IH]; intros skip; [reflexivity|]. cbn [map]. unfold from_value at 1. cbn [cov_container cov_content bind snd]. now rewrite IH. }
    rewrite Li. reflexivity.
  - rewrite <- H1. split.
    + intros (tr & -> & S & Rm). exists (tree_ast tr). exists tr. auto.
    + intros (a & tr & Et' & S & _ & Rm). destruct r as [tr'|]; rewrite Et' in Ex; [|discriminate]. injection Ex as <-. eauto.
Qed.
Print Assumptions C177_own_suite.

(** It is false that the suite of such a token always passes: that of "é" does not. *)
Example C177_ex : (exists t, all_characters (text "e") [xc3; xa9] = Ok t) /\ ~ Forall own_byte [xc3; xa9] /\ Forall own_byte (text "//").
Proof.
  split; [eexists; reflexivity|]. split.
  - intros F. inversion F as [|? ? [A|A] _]; vm_compute in A; congruence.
  - repeat constructor.
Qed.
