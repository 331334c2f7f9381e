(** Property theorems for the grammars the project ships (C115 - C118). *)
From Coq Require Import List ZArith Lia Bool.
From Coq Require Strings.String.
Import String.StringSyntax.
From Coq Require Import Init.Byte Strings.Byte.
From Verif Require Import Base BaseLemmas AstModel SpecAst AstProofs AstTraceProofs AstFuelProofs AstListProofs SpecPeg AstPegProofs
  AstVisibleProofs GrammarModel SpecGrammar GrammarProofs GrammarVisibleProofs.
Import ListNotations.
Local Open Scope list_scope.

(** ** C115 *)
(** [su]: the suites of the tokens, which Execute ignores. *)
Theorem C115_grammar_of_grammars_ends : forall su d,
  exists n, forall fuel, n <= fuel -> (exists t, execute fuel (the_grammar su) d = Ok t) \/ execute fuel (the_grammar su) d = Err.
Proof.
  intros su d. assert (K : peg_grammar (the_grammar su)) by (apply check_peg_ok; vm_compute; reflexivity).
  pose proof (no_recursion_guarded _ (peg_no_recursion _ K)) as G.
  exists (enough (gram_size (the_grammar su)) (length d)). intros f L.
  pose proof (execute_peg f _ d K (guarded_terminates _ _ G f L)) as A. unfold agrees in A.
  destruct (execute f (the_grammar su) d) as [t| | |]; try contradiction; eauto.
Qed.
Print Assumptions C115_grammar_of_grammars_ends.

(** ** C116 *)
(** The guarantee one would expect, that every kind of instruction can be recognised, fails: every text that is
    recognised is read as one assignment of a value. *)
Theorem C116_only_value_assignments_refuted : forall su d,
  exists n, forall fuel, n <= fuel ->
  (forall a rest, recognises fuel (the_grammar su) d a rest ->
     rest = [] /\ exists v root channels m body, visible d v /\ script v root channels m body /\ script_ast root channels m body a) /\
  (forall v root channels m body, visible d v -> script v root channels m body -> exists a, recognises fuel (the_grammar su) d a []).
Proof.
  intros su d. assert (K : peg_grammar (the_grammar su)) by (apply check_peg_ok; vm_compute; reflexivity).
  assert (V : every_container value_or_token (grammar_token su)) by (apply check_values; vm_compute; reflexivity).
  destruct (reads su (grammar_token su) d K V) as (n & H). exists n. intros f L. destruct (H f L) as (H1 & H2). clear H. split.
  - intros a rest R. destruct (H1 a rest R) as (v & r & Vv & E & Vr). apply script_inv in E as (root & cs & m & body & S & -> & A).
    split; [exact (rest_nil su _ _ _ _ _ K R Vr)|]. exists v, root, cs, m, body. auto.
  - intros v root cs m body Vv S. destruct (script_fwd su v root cs m body S) as (a & E & A). destruct (H2 v a [] Vv E) as (rest & R & Vr).
    exists a. rewrite <- (rest_nil su _ _ _ _ _ K R Vr) at 1. exact R.
Qed.
Print Assumptions C116_only_value_assignments_refuted.

(** A text with two instructions, of which the second is meant to be an everything. *)
Definition ex_script : bytes := text "@root; - chan [a : b]; // comment
my Value : 45; other: #tok --- valid: x;;".
Example C116_ex : exists v root channels m body, visible ex_script v /\ script v root channels m body /\ m = text "myValue" /\ body = text "45;other:#tok---valid:x;;".
Proof.
  exists (text "@root;-chan[a:b];myValue:45;other:#tok---valid:x;;"), (text "root"), [text "-chan[a:b];"], (text "myValue"), (text "45;other:#tok---valid:x;;").
  refine (conj _ (conj _ (conj eq_refl eq_refl))).
  - apply (seen_visible (fun _ => [])). repeat (eapply seen_byte; [vm_compute; reflexivity|]). apply seen_end. vm_compute. reflexivity.
  - assert (N : forall s, match s with c :: cs => forallb (fun x => Z.leb 97 (code x) && Z.leb (code x) 122) [c] &&
      forallb (fun x => (Z.leb 97 (code x) && Z.leb (code x) 122) || (Z.leb 65 (code x) && Z.leb (code x) 90))%bool cs | [] => false end = true -> name s).
    { intros [|c cs] E; [discriminate|]. apply andb_true_iff in E as (E1 & E2). exists c, cs. split; auto. cbn in E1. rewrite andb_true_r in E1.
      apply andb_true_iff in E1 as (E1 & E3). apply Z.leb_le in E1, E3. split; [split; assumption|]. apply Forall_forall. intros x I.
      rewrite forallb_forall in E2. specialize (E2 x I). apply orb_true_iff in E2 as [E|E]; apply andb_true_iff in E as (A & B); apply Z.leb_le in A, B; [right|left]; split; assumption. }
    apply (Script (text "root") [text "-chan[a:b];"] (text "myValue") (text "45;other:#tok---valid:x;;")); try (apply N; reflexivity); [|discriminate].
    constructor; [|constructor]. apply (chan_both (text "chan") (text "a") (text "b")); apply N; reflexivity.
Qed.

(** ** C117 *)
Theorem C117_characters : forall su t K,
  In (t, K) [(lower_letters su, lower); (upper_letters su, upper); (any_letter su, letter); (any_number su, decimal);
             (any_hex su, hexadecimal); (any_byte su, fun _ => True)] ->
  forall d, exists n, forall fuel, n <= fuel ->
  (forall a rest, recognises fuel (Grammar t (the_channels su)) d a rest ->
     exists x r, visible d (x :: r) /\ K x /\ leaves a = [x] /\ visible rest r) /\
  (forall x r, visible d (x :: r) -> K x -> exists a rest, recognises fuel (Grammar t (the_channels su)) d a rest).
Proof.
  intros su t K I d.
  assert (A : peg_grammar (Grammar t (the_channels su)) /\ every_container value_or_token t /\
    (forall d a r, P t d = Some (a, r) -> exists x, d = x :: r /\ K x /\ leaves a = [x]) /\
    (forall x d, K x -> exists a, P t (x :: d) = Some (a, d) /\ leaves a = [x])).
  { repeat destruct I as [I|I]; try (injection I as <- <-); try destruct I;
      (refine (conj (check_peg_ok _ _) (conj (check_values _ _) _)); [vm_compute; reflexivity|vm_compute; reflexivity|]).
    - split; [apply lower_inv|apply lower_fwd].
    - split; [apply upper_inv|apply upper_fwd].
    - split; [apply letter_inv|apply letter_fwd].
    - split; [apply number_inv|apply number_fwd].
    - split; [apply hex_inv|apply hex_fwd].
    - split; [|intros x r _; apply byte_fwd]. intros x a r E. apply byte_inv in E as (y & -> & E). eauto. }
  destruct A as (Kp & V & Hi & Hf). destruct (reads su t d Kp V) as (n & H). exists n. intros f L. destruct (H f L) as (H1 & H2). split.
  - intros a rest R. destruct (H1 a rest R) as (v & r & Vv & E & Vr). apply Hi in E as (x & -> & Kx & La). exists x, r. auto.
  - intros x r Vv Kx. destruct (Hf x r Kx) as (a & E & _). destruct (H2 _ _ _ Vv E) as (rest & R & _). eauto.
Qed.
Print Assumptions C117_characters.

Theorem C117_names : forall su d, exists n, forall fuel, n <= fuel ->
  (forall a rest, recognises fuel (Grammar (variable_name su) (the_channels su)) d a rest ->
     exists m r, visible d (m ++ r) /\ name m /\ stops r /\ leaves a = m /\ visible rest r) /\
  (forall m r, visible d (m ++ r) -> name m -> stops r -> exists a rest, recognises fuel (Grammar (variable_name su) (the_channels su)) d a rest).
Proof.
  intros su d. assert (K : peg_grammar (Grammar (variable_name su) (the_channels su))) by (apply check_peg_ok; vm_compute; reflexivity).
  assert (V : every_container value_or_token (variable_name su)) by (apply check_values; vm_compute; reflexivity).
  destruct (reads su _ d K V) as (n & H). exists n. intros f L. destruct (H f L) as (H1 & H2). split.
  - intros a rest R. destruct (H1 a rest R) as (v & r & Vv & E & Vr). apply name_inv in E as (m & -> & N & S & La). exists m, r. auto.
  - intros m r Vv N S. destruct (name_fwd su m r N S) as (a & E & _). destruct (H2 _ _ _ Vv E) as (rest & R & _). eauto.
Qed.
Print Assumptions C117_names.

Theorem C117_hashes : forall su d, exists n, forall fuel, n <= fuel ->
  (forall a rest, recognises fuel (Grammar (sha512_hex su) (the_channels su)) d a rest ->
     exists h r, visible d (h ++ r) /\ zlen h = 128%Z /\ Forall hexadecimal h /\ leaves a = h /\ visible rest r) /\
  (forall h r, visible d (h ++ r) -> zlen h = 128%Z -> Forall hexadecimal h ->
     exists a rest, recognises fuel (Grammar (sha512_hex su) (the_channels su)) d a rest).
Proof.
  intros su d. assert (K : peg_grammar (Grammar (sha512_hex su) (the_channels su))) by (apply check_peg_ok; vm_compute; reflexivity).
  assert (V : every_container value_or_token (sha512_hex su)) by (apply check_values; vm_compute; reflexivity).
  destruct (reads su _ d K V) as (n & H). exists n. intros f L. destruct (H f L) as (H1 & H2). split.
  - intros a rest R. destruct (H1 a rest R) as (v & r & Vv & E & Vr). apply sha_inv in E as (h & -> & Lh & F & La). exists h, r. auto.
  - intros h r Vv Lh F. destruct (sha_fwd su h r Lh F) as (a & E). destruct (H2 _ _ _ Vv E) as (rest & R & _). eauto.
Qed.
Print Assumptions C117_hashes.

(** "m y" with a comment inside is read as the name "my". *)
Example C117_ex : visible (text " m //c
y;") (text "my" ++ text ";") /\ name (text "my") /\ stops (text ";") /\ hexadecimal x66 /\ ~ hexadecimal x67.
Proof.
  refine (conj _ (conj _ (conj _ (conj _ _)))).
  - apply (seen_visible (fun _ => [])). cbn [app text]. repeat (eapply seen_byte; [vm_compute; reflexivity|]). apply seen_end. vm_compute. reflexivity.
  - exists x6d, [x79]. split; [reflexivity|]. split; [split; vm_compute; discriminate|]. constructor; [|constructor]. right. split; vm_compute; discriminate.
  - apply stops_sign. reflexivity.
  - right. right. split; vm_compute; discriminate.
  - intros [(A & B)|[(A & B)|(A & B)]]; vm_compute in A, B; congruence.
Qed.

(** ** C118 *)
Theorem C118_characters_truncated : forall n s,
  (all_characters n s = Panic <-> n = [] \/ s = []) /\
  (forall su, any_character n s su = Panic <-> n = [] \/ s = []) /\
  (forall t, all_characters n s = Ok t -> forall d, exists k, forall fuel, k <= fuel -> forall rest,
     (exists a, recognises fuel (Grammar t []) d a rest) <-> d = codes s ++ rest) /\
  (forall su t, any_character n s su = Ok t -> forall d, exists k, forall fuel, k <= fuel -> forall rest,
     (exists a, recognises fuel (Grammar t []) d a rest) <-> exists b, In b (codes s) /\ d = b :: rest).
Proof.
  intros n s. refine (conj _ (conj _ (conj _ _))).
  - unfold all_characters, from_block. cbn [forallb]. split.
    + destruct (codes s) as [|b bs] eqn:E; cbn [map andb]; [intros _; right; exact (codes_nil _ E)|]. destruct n; auto. discriminate.
    + intros [->| ->]; [|reflexivity]. now destruct (codes s).
  - intros su. unfold any_character, from_block.
    assert (F : forallb (fun l : list container => match l with [] => false | _ => true end) (map (fun b => [from_value b]) (codes s)) = true).
    { apply forallb_forall. intros l I. apply in_map_iff in I as (b & <- & _). reflexivity. }
    rewrite F. clear F. split.
    + destruct (codes s) as [|b bs] eqn:E; cbn [map]; [intros _; right; exact (codes_nil _ E)|]. destruct n; auto. discriminate.
    + intros [->| ->]; [now destruct (map _ (codes s))|reflexivity].
  - intros t E. assert (Et : t = Token n [map from_value (codes s)] [suite_of s true] /\ codes s <> []).
    { revert E. unfold all_characters, from_block. cbn [forallb]. destruct (codes s) as [|b bs]; cbn [map andb]; [discriminate|]. destruct n; [discriminate|].
      intros [= <-]. split; [reflexivity|discriminate]. }
    destruct Et as (-> & N). intros d.
    assert (K : peg_grammar (Grammar (Token n [map from_value (codes s)] [suite_of s true]) [])).
    { apply values_peg. intros l c [<-|[]] I. apply in_map_iff in I as (b & <- & _). eauto. }
    destruct (peg_recognises _ d K) as (k & Hk). exists k. intros f L rest. specialize (Hk f L). rewrite peg_of_eq, skipper_nil in Hk. split.
    + intros (a & R). apply Hk in R. apply P_single in R as (es & -> & R & _). now apply values_inv in R.
    + intros ->. destruct (values_fwd (codes s) rest) as (es & R). eexists. apply Hk. apply P_here; [exact R|].
      rewrite app_length. destruct (codes s); [congruence|]. cbn. lia.
  - intros su t E.
    assert (Et : t = Token n (singles (codes s)) su).
    { revert E. unfold any_character, from_block. destruct (forallb _ _); [|discriminate]. unfold singles.
      destruct (map (fun b => [from_value b]) (codes s)); [discriminate|]. destruct n; [discriminate|]. now intros [= <-]. }
    subst t. intros d. assert (K : peg_grammar (Grammar (Token n (singles (codes s)) su) [])).
    { apply values_peg. intros l c I Ic. unfold singles in I. apply in_map_iff in I as (b & <- & _). destruct Ic as [<-|[]]. eauto. }
    destruct (peg_recognises _ d K) as (k & Hk). exists k. intros f L rest. specialize (Hk f L). rewrite peg_of_eq, skipper_nil in Hk. split.
    + intros (a & R). apply Hk in R. apply any_inv in R as (x & j & -> & I & _). eauto.
    + intros (b & I & ->). destruct (any_fwd n (codes s) su b rest I) as (j & R). eexists. apply Hk. exact R.
Qed.
Print Assumptions C118_characters_truncated.

(** The token for a text recognises exactly that text only when all its bytes are below 128 (or 253). *)
Theorem C118_own_text : forall n s t, all_characters n s = Ok t ->
  exists k, forall fuel, k <= fuel -> ((exists a, recognises fuel (Grammar t []) s a []) <-> Forall own_byte s).
Proof.
  intros n s t E. destruct (proj1 (proj2 (proj2 (C118_characters_truncated n s))) t E s) as (k & Hk). exists k. intros f L.
  rewrite (Hk f L []), app_nil_r, <- codes_own. split; congruence.
Qed.
Print Assumptions C118_own_text.

(** "é" is the bytes c3 a9 and one character, e9; "a€" is truncated to 61 ac. *)
Example C118_ex : codes [xc3; xa9] = [xe9] /\ codes [x61; xe2; x82; xac] = [x61; xac] /\ codes [xff] = [xfd] /\
  exists t, all_characters (text "e") [xc3; xa9] = Ok t.
Proof. refine (conj eq_refl (conj eq_refl (conj eq_refl (ex_intro _ _ eq_refl)))). Qed.
