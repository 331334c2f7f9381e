(** The grammar of grammars, read as a parsing expression. *)
From Coq Require Import List ZArith Lia Bool.
From Coq Require Strings.String.
Import String.StringSyntax.
From Coq Require Import Init.Byte Strings.Byte.
From Verif Require Import Base BaseLemmas AstModel SpecAst AstProofs AstTraceProofs AstFuelProofs AstListProofs SpecPeg AstPegProofs
  AstVisibleProofs GrammarModel SpecGrammar.
Import ListNotations.
Local Open Scope list_scope.

(** ** Parsing expressions without channels *)
Notation P := (peg_token (peg_skip [])).
Notation C := (peg_container (peg_skip [])).
Definition plain_line (l : list container) : peg (list (bytes * list ast)) := peg_seq (map (fun c => (c_name c, C c)) l).

Lemma P_eq n ls s d : P (Token n ls s) d =
  match peg_first 0 (map plain_line ls) d with Some (i, es, r) => Some (Node n i es, r) | None => None end.
Proof.
  rewrite peg_token_eq. cbn [t_name t_lines]. change (map (AstPegProofs.line_peg (peg_skip [])) ls) with (map plain_line ls). destruct (peg_first _ _ _) as [[[i es] r]|]; auto. now rewrite peg_skip_nil.
Qed.

Lemma first_here {A} i (p : peg A) ps d a r : p d = Some (a, r) -> length r < length d -> peg_first i (p :: ps) d = Some (i, a, r).
Proof. intros E L. cbn [peg_first]. rewrite E. apply Nat.ltb_lt in L. now rewrite L. Qed.
Lemma first_later {A} i (p : peg A) ps d : p d = None -> peg_first i (p :: ps) d = peg_first (S i) ps d.
Proof. intros E. cbn [peg_first]. now rewrite E. Qed.
Lemma first_none {A} (ps : list (peg A)) d : (forall p, In p ps -> p d = None) -> forall i, peg_first i ps d = None.
Proof. induction ps as [|p ps IH]; intros F i; auto. rewrite first_later by (apply F; now left). apply IH. intros q I. apply F. now right. Qed.
Lemma first_inv {A} (ps : list (peg A)) d j a r : forall i, peg_first i ps d = Some (j, a, r) ->
  exists p, In p ps /\ p d = Some (a, r) /\ length r < length d.
Proof.
  induction ps as [|p ps IH]; intros i E; cbn [peg_first] in E; [discriminate|].
  destruct (p d) as [[a' r']|] eqn:Ep.
  - destruct (length r' <? length d) eqn:El.
    + injection E as -> -> ->. exists p. apply Nat.ltb_lt in El. split; [now left|auto].
    + destruct (IH _ E) as (q & I & Q). exists q. split; [now right|auto].
  - destruct (IH _ E) as (q & I & Q). exists q. split; [now right|auto].
Qed.

Lemma P_here n l ls s d es r : plain_line l d = Some (es, r) -> length r < length d -> P (Token n (l :: ls) s) d = Some (Node n 0 es, r).
Proof. intros E L. rewrite P_eq. cbn [map]. now rewrite (first_here 0 _ _ _ _ _ E L). Qed.
Lemma P_none n ls s d : (forall l, In l ls -> plain_line l d = None) -> P (Token n ls s) d = None.
Proof.
  intros F. rewrite P_eq. rewrite first_none; auto. intros p I. apply in_map_iff in I as (l & <- & I). auto.
Qed.
Lemma P_inv n ls s d a r : P (Token n ls s) d = Some (a, r) ->
  exists l i es, In l ls /\ a = Node n i es /\ plain_line l d = Some (es, r) /\ length r < length d.
Proof.
  rewrite P_eq. destruct (peg_first 0 _ d) as [[[i es] r']|] eqn:E; [|discriminate]. intros [= <- <-].
  apply first_inv in E as (p & I & E & L). apply in_map_iff in I as (l & <- & I). exists l, i, es. auto.
Qed.
Lemma P_single n l s d a r : P (Token n [l] s) d = Some (a, r) ->
  exists es, a = Node n 0 es /\ plain_line l d = Some (es, r) /\ length r < length d.
Proof.
  rewrite P_eq. cbn [map peg_first]. destruct (plain_line l d) as [[es r']|]; [|discriminate].
  destruct (length r' <? length d) eqn:L; [|discriminate]. apply Nat.ltb_lt in L. intros [= <- <-]. eauto.
Qed.
Lemma P_nil t : P t [] = None.
Proof. destruct (P t []) as [[a r]|] eqn:E; auto. apply peg_token_shrinks in E; [|apply lessens_id]. cbn in E. lia. Qed.
Lemma P_shrinks t d a r : P t d = Some (a, r) -> length r < length d.
Proof. apply peg_token_shrinks, lessens_id. Qed.

Lemma line_nil d : plain_line [] d = Some ([], d). Proof. reflexivity. Qed.
Lemma line_cons c l d xs d1 es r : C c d = Some (xs, d1) -> plain_line l d1 = Some (es, r) ->
  plain_line (c :: l) d = Some (match xs with [] => es | _ => (c_name c, xs) :: es end, r).
Proof. intros E F. unfold plain_line in *. cbn [map peg_seq]. now rewrite E, F. Qed.
Lemma line_inv c l d es r : plain_line (c :: l) d = Some (es, r) ->
  exists xs d1 es', C c d = Some (xs, d1) /\ plain_line l d1 = Some (es', r) /\ es = match xs with [] => es' | _ => (c_name c, xs) :: es' end.
Proof.
  unfold plain_line. cbn [map peg_seq]. destruct (C c d) as [[xs d1]|]; [|discriminate]. destruct (peg_seq _ d1) as [[es' r']|] eqn:E; [|discriminate].
  intros [= <- <-]. exists xs, d1, es'. auto.
Qed.
Lemma line_none c l d : C c d = None -> plain_line (c :: l) d = None.
Proof. intros E. unfold plain_line. cbn [map peg_seq]. now rewrite E. Qed.
Lemma line_none1 c l d xs d1 : C c d = Some (xs, d1) -> plain_line l d1 = None -> plain_line (c :: l) d = None.
Proof. intros E F. unfold plain_line in *. cbn [map peg_seq]. now rewrite E, F. Qed.

(** ** Repetitions *)
Inductive reps {A} (p : peg A) : list A -> bytes -> bytes -> Prop :=
| reps_nil d : p d = None -> reps p [] d d
| reps_cons x xs d d1 r : p d = Some (x, d1) -> reps p xs d1 r -> reps p (x :: xs) d r.

Lemma greedy_reps {A} (p : peg A) : (forall d a d', p d = Some (a, d') -> length d' < length d) ->
  forall n k d, length d <= n -> reps p (fst (peg_greedy p None n k d)) d (snd (peg_greedy p None n k d)).
Proof.
  intros S. induction n as [|n IH]; intros k d L.
  - destruct d; [|cbn in L; lia]. cbn. constructor. destruct (p []) as [[a r]|] eqn:E; auto. apply S in E. cbn in E. lia.
  - cbn [peg_greedy]. destruct (p d) as [[x d1]|] eqn:E; [|now constructor].
    pose proof (S _ _ _ E). specialize (IH (k + 1)%Z d1 ltac:(lia)). destruct (peg_greedy p None n (k + 1) d1) as [xs r].
    econstructor; eauto.
Qed.
Lemma reps_det {A} (p : peg A) xs d r : reps p xs d r -> forall ys q, reps p ys d q -> xs = ys /\ r = q.
Proof.
  induction 1 as [d E|x xs d d1 r E R IH]; intros ys q Q; inversion Q as [? F|y ys' ? d2 ? F Q']; subst; try congruence; auto.
  rewrite E in F. injection F as <- <-. destruct (IH _ _ Q') as (-> & ->). auto.
Qed.
Lemma many_iff t d xs r : C (many t) d = Some (xs, r) <-> reps (P t) xs d r.
Proof.
  change (C (many t)) with (peg_times (P t) 0 None). unfold peg_times.
  pose proof (greedy_reps (P t) (P_shrinks t) (length d) 0 d (Nat.le_refl _)) as R.
  destruct (peg_greedy (P t) None (length d) 0 d) as [ys q]. cbn [fst snd] in R.
  assert (E : (zlen ys <? 0)%Z = false) by (apply Z.ltb_ge; unfold zlen; lia). rewrite E. split.
  - intros [= <- <-]. exact R.
  - intros R'. destruct (reps_det _ _ _ _ R _ _ R') as (-> & ->). reflexivity.
Qed.
Lemma many_total t d : exists xs r, C (many t) d = Some (xs, r).
Proof.
  exists (fst (peg_greedy (P t) None (length d) 0 d)), (snd (peg_greedy (P t) None (length d) 0 d)).
  apply many_iff. apply greedy_reps; auto. apply P_shrinks.
Qed.
Lemma some_iff t d xs r : C (some t) d = Some (xs, r) <-> reps (P t) xs d r /\ xs <> [].
Proof.
  change (C (some t)) with (peg_times (P t) 1 None). unfold peg_times.
  pose proof (greedy_reps (P t) (P_shrinks t) (length d) 0 d (Nat.le_refl _)) as R.
  destruct (peg_greedy (P t) None (length d) 0 d) as [ys q]. cbn [fst snd] in R. split.
  - destruct ys as [|y ys]; [discriminate|]. assert (E : (zlen (y :: ys) <? 1)%Z = false) by (apply Z.ltb_ge; unfold zlen; cbn [length]; lia).
    rewrite E. intros [= <- <-]. split; [exact R|discriminate].
  - intros (R' & N). destruct (reps_det _ _ _ _ R _ _ R') as (-> & ->). destruct xs as [|y ys]; [congruence|].
    assert (E : (zlen (y :: ys) <? 1)%Z = false) by (apply Z.ltb_ge; unfold zlen; cbn [length]; lia). now rewrite E.
Qed.

(** ** Occurring once or never *)
Lemma times_once {A} (p : peg A) d : p [] = None ->
  peg_times p 1 (Some 1%Z) d = match p d with Some (a, r) => Some ([a], r) | None => None end.
Proof.
  intros N. unfold peg_times. destruct d as [|x d]; [now rewrite N|]. cbn [length peg_greedy].
  change ((1 <=? 0)%Z) with false. cbn iota. destruct (p (x :: d)) as [[a r]|]; [|reflexivity].
  assert (E : peg_greedy p (Some 1%Z) (length d) (0 + 1) r = ([], r)) by (destruct (length d); reflexivity). now rewrite E.
Qed.
Lemma once_eq t d : C (once t) d = match P t d with Some (a, r) => Some ([a], r) | None => None end.
Proof. exact (times_once (P t) d (P_nil t)). Qed.
Lemma once_fwd t d a r : P t d = Some (a, r) -> C (once t) d = Some ([a], r). Proof. intros E. now rewrite once_eq, E. Qed.
Lemma once_inv t d xs r : C (once t) d = Some (xs, r) -> exists a, xs = [a] /\ P t d = Some (a, r).
Proof. rewrite once_eq. destruct (P t d) as [[a r']|]; [|discriminate]. intros [= <- <-]. eauto. Qed.
Lemma once_none t d : P t d = None -> C (once t) d = None. Proof. intros E. now rewrite once_eq, E. Qed.
Lemma value_eq b d : C (from_value b) d = match d with x :: d' => if Byte.eqb b x then Some ([Leaf b], d') else None | [] => None end.
Proof.
  change (C (from_value b)) with (peg_times (fun d => peg_byte b (peg_skip [] d)) 1 (Some 1%Z)). rewrite times_once; [|reflexivity].
  rewrite peg_skip_nil. destruct d as [|x d]; auto. cbn. destruct (Byte.eqb b x); auto.
Qed.
Lemma value_fwd b d : C (from_value b) (b :: d) = Some ([Leaf b], d).
Proof. rewrite value_eq. now rewrite byte_eqb_refl. Qed.
Lemma value_inv b d xs r : C (from_value b) d = Some (xs, r) -> d = b :: r /\ xs = [Leaf b].
Proof.
  rewrite value_eq. destruct d as [|x d]; [discriminate|]. destruct (Byte.eqb b x) eqn:E; [|discriminate]. apply byte_eqb_true in E as <-.
  intros [= <- <-]. auto.
Qed.
Lemma value_none b d : (forall r, d <> b :: r) -> C (from_value b) d = None.
Proof.
  intros N. destruct (C (from_value b) d) as [[xs r]|] eqn:E; auto. apply value_inv in E as (-> & _). now destruct (N r).
Qed.
Lemma optional_eq t d : C (optional t) d = match P t d with Some (a, r) => Some ([a], r) | None => Some ([], d) end.
Proof.
  change (C (optional t)) with (peg_times (P t) 0 (Some 1%Z)). unfold peg_times. destruct d as [|x d]; [now rewrite P_nil|].
  cbn [length peg_greedy]. change ((1 <=? 0)%Z) with false. cbn iota. destruct (P t (x :: d)) as [[a r]|]; [|reflexivity].
  assert (E : peg_greedy (P t) (Some 1%Z) (length d) (0 + 1) r = ([], r)) by (destruct (length d); reflexivity). now rewrite E.
Qed.

(** ** The bytes of what was recognised *)
Lemma times_leaves (p : peg ast) min max : (forall d a r, p d = Some (a, r) -> d = leaves a ++ r) ->
  forall d xs r, peg_times p min max d = Some (xs, r) -> d = flat_map leaves xs ++ r.
Proof.
  intros H d xs r. unfold peg_times.
  assert (G : forall n k d, d = flat_map leaves (fst (peg_greedy p max n k d)) ++ snd (peg_greedy p max n k d)).
  { induction n as [|n IH]; intros k x; cbn [peg_greedy]; auto. destruct (match max with Some _ => _ | None => _ end); auto.
    destruct (p x) as [[a x1]|] eqn:E; auto. apply H in E. specialize (IH (k + 1)%Z x1). destruct (peg_greedy p max n (k + 1) x1) as [ys q].
    cbn [fst snd flat_map] in *. rewrite <- app_assoc, <- IH. exact E. }
  specialize (G (length d) 0%Z d). destruct (peg_greedy p max (length d) 0 d) as [ys q]. destruct (zlen ys <? min)%Z; [discriminate|].
  intros [= <- <-]. exact G.
Qed.
Lemma line_leaves l : (forall c, In c l -> forall d xs r, C c d = Some (xs, r) -> d = flat_map leaves xs ++ r) ->
  forall d es r, plain_line l d = Some (es, r) -> d = flat_map (fun e : bytes * list ast => flat_map leaves (snd e)) es ++ r.
Proof.
  induction l as [|c l IH]; intros H d es r E.
  - rewrite line_nil in E. injection E as <- <-. reflexivity.
  - apply line_inv in E as (xs & d1 & es' & E1 & E & ->). apply H in E1; [|now left]. apply IH in E; [|intros c' I; apply H; now right].
    rewrite E1, E. destruct xs; cbn; now rewrite <- ?app_assoc.
Qed.
Lemma P_leaves t : every_container value_or_token t -> forall d a r, P t d = Some (a, r) -> d = leaves a ++ r.
Proof.
  enough (A : forall n t, tok_size t <= n -> every_container value_or_token t -> forall d a r, P t d = Some (a, r) -> d = leaves a ++ r) by eauto.
  clear t. induction n as [|n IH]; intros [m ls s] L V d a r E; [cbn in L; lia|].
  apply P_inv in E as (l & i & es & I & -> & E & _). cbn [leaves]. revert E. apply line_leaves. intros c Ic x xs q.
  pose proof (V _ _ _ (within_refl _) I Ic) as K. destruct c as [e mi ma|]; [|discriminate].
  change (C (CElement e mi ma)) with (peg_times (peg_content (peg_skip []) e) mi ma). apply times_leaves. clear x xs q. intros x b q E.
  destruct e as [k b'|k g|u|k u e|k]; try contradiction.
  - change (peg_content (peg_skip []) (EValue k b') x) with (peg_byte b' (peg_skip [] x)) in E. rewrite peg_skip_nil in E.
    destruct x as [|y x]; [discriminate|]. cbn in E. destruct (Byte.eqb b' y) eqn:Eb; [|discriminate]. apply byte_eqb_true in Eb as <-.
    injection E as <- <-. reflexivity.
  - assert (Ch : child (Token m ls s) u) by (eapply child_token; eauto). revert E. apply (IH u).
    + apply child_size in Ch. lia.
    + intros t0 l0 c0 W. apply V. clear -W Ch. induction W as [|a b W IHW Cb]; [exact (within_step _ _ _ (within_refl _) Ch)|exact (within_step _ _ _ IHW Cb)].
Qed.

Definition value_or_tokenb (c : container) : bool :=
  match c with CElement (EValue _ _) _ _ => true | CElement (EToken _) _ _ => true | CElement _ _ _ => false | CCompose _ _ => true end.
Lemma check_values r : forallb (fun u => forallb (forallb value_or_tokenb) (t_lines u)) (tok_tokens r) = true -> every_container value_or_token r.
Proof.
  intros F t l c W I Ic. rewrite forallb_forall in F. specialize (F t (within_tokens _ _ W)). rewrite forallb_forall in F. specialize (F l I).
  rewrite forallb_forall in F. specialize (F c Ic). destruct c as [[]|]; cbn in *; auto; discriminate.
Qed.

(** ** Single characters *)
Definition is_in (x : byte) (bs : list byte) : bool := existsb (Byte.eqb x) bs.
Lemma is_in_iff x bs : is_in x bs = true <-> In x bs.
Proof.
  unfold is_in. rewrite existsb_exists. split.
  - intros (y & I & E). apply byte_eqb_true in E as <-. exact I.
  - intros I. exists x. split; auto. apply byte_eqb_refl.
Qed.
Definition singles (bs : list byte) : list (list container) := map (fun b => [from_value b]) bs.
Lemma single_line b x d : plain_line [from_value b] (x :: d) = if Byte.eqb b x then Some ([(itoa b, [Leaf b])], d) else None.
Proof.
  destruct (Byte.eqb b x) eqn:E.
  - apply byte_eqb_true in E as <-. exact (line_cons (from_value b) [] _ _ _ _ _ (value_fwd b d) (line_nil d)).
  - apply line_none. rewrite value_eq. now rewrite E.
Qed.
Lemma singles_some x d : forall bs i, In x bs -> exists j, peg_first i (map plain_line (singles bs)) (x :: d) = Some (j, [(itoa x, [Leaf x])], d).
Proof.
  unfold singles. induction bs as [|b bs IH]; intros i I; [destruct I|]. cbn [map].
  destruct (Byte.eqb b x) eqn:E.
  - apply byte_eqb_true in E as ->. exists i. apply first_here; [|cbn; lia]. rewrite single_line. now rewrite byte_eqb_refl.
  - destruct (IH (S i)) as (j & J); [destruct I as [->|I]; auto; rewrite byte_eqb_refl in E; discriminate|].
    exists j. rewrite first_later; auto. rewrite single_line. now rewrite E.
Qed.
Lemma any_fwd n bs s x d : In x bs -> exists j, P (Token n (singles bs) s) (x :: d) = Some (Node n j [(itoa x, [Leaf x])], d).
Proof. intros I. destruct (singles_some x d bs 0 I) as (j & J). exists j. rewrite P_eq. now rewrite J. Qed.
Lemma any_none n bs s d : (forall x r, d = x :: r -> ~ In x bs) -> P (Token n (singles bs) s) d = None.
Proof.
  intros N. destruct d as [|x d]; [apply P_nil|]. apply P_none. intros l I. unfold singles in I. apply in_map_iff in I as (b & <- & I).
  rewrite single_line. destruct (Byte.eqb b x) eqn:E; auto. apply byte_eqb_true in E as ->. now destruct (N x d eq_refl).
Qed.
Lemma any_inv n bs s d a r : P (Token n (singles bs) s) d = Some (a, r) ->
  exists x j, d = x :: r /\ In x bs /\ a = Node n j [(itoa x, [Leaf x])].
Proof.
  destruct d as [|x d]; [rewrite P_nil; discriminate|]. intros E.
  destruct (is_in x bs) eqn:I.
  - apply is_in_iff in I. destruct (any_fwd n bs s x d I) as (j & J). rewrite J in E. injection E as <- <-. eauto.
  - rewrite any_none in E; [discriminate|]. intros y r' [= <- <-] I'. apply is_in_iff in I'. congruence.
Qed.

(** ** Classes *)
Lemma classes x :
  (In x (str "abcdefghijklmnopqrstuvwxyz") <-> lower x) /\ (In x (str "ABCDEFGHIJKLMNOPQRSTUVWXYZ") <-> upper x) /\
  (In x (str "0123456789") <-> decimal x) /\ (In x (str "abcdef") <-> (97 <= code x <= 102)%Z) /\
  (In x (str "ABCDEF") <-> (65 <= code x <= 70)%Z) /\ In x all_bytes.
Proof.
  assert (K : forall (p q : bool) (A B : Prop), p = q -> (p = true <-> A) -> (q = true <-> B) -> (A <-> B)) by (intros; subst; tauto).
  assert (R : forall lo hi, ((lo <=? code x) && (code x <=? hi) = true <-> lo <= code x <= hi)%Z) by (intros; rewrite andb_true_iff, !Z.leb_le; tauto).
  refine (conj _ (conj _ (conj _ (conj _ (conj _ _))))); try (apply is_in_iff; destruct x; vm_compute; reflexivity).
  all: eapply K; [|apply is_in_iff|apply R]; destruct x; vm_compute; reflexivity.
Qed.

(** ** Names *)
Section Tokens.
Variable su : bytes -> list suite.

Lemma lower_fwd x d : lower x -> exists a, P (lower_letters su) (x :: d) = Some (a, d) /\ leaves a = [x].
Proof.
  intros Lx. apply (proj1 (classes x)) in Lx.
  destruct (any_fwd (str "lowerCaseLetter") _ (su (str "lowerCaseLetter")) x d Lx) as (j & J). eexists. split; [exact J|]. reflexivity.
Qed.
Lemma lower_inv d a r : P (lower_letters su) d = Some (a, r) -> exists x, d = x :: r /\ lower x /\ leaves a = [x].
Proof.
  intros E. destruct (any_inv (str "lowerCaseLetter") (str "abcdefghijklmnopqrstuvwxyz") (su (str "lowerCaseLetter")) d a r E) as (x & j & -> & I & ->).
  exists x. split; auto. split; auto. now apply (proj1 (classes x)).
Qed.
Lemma upper_fwd x d : upper x -> exists a, P (upper_letters su) (x :: d) = Some (a, d) /\ leaves a = [x].
Proof.
  intros Lx. apply (proj1 (proj2 (classes x))) in Lx.
  destruct (any_fwd (str "uppercaseLetter") _ (su (str "uppercaseLetter")) x d Lx) as (j & J). eexists. split; [exact J|]. reflexivity.
Qed.
Lemma upper_inv d a r : P (upper_letters su) d = Some (a, r) -> exists x, d = x :: r /\ upper x /\ leaves a = [x].
Proof.
  intros E. destruct (any_inv (str "uppercaseLetter") (str "ABCDEFGHIJKLMNOPQRSTUVWXYZ") (su (str "uppercaseLetter")) d a r E) as (x & j & -> & I & ->).
  exists x. split; auto. split; auto. now apply (proj1 (proj2 (classes x))).
Qed.
Lemma byte_fwd x d : exists a, P (any_byte su) (x :: d) = Some (a, d) /\ leaves a = [x].
Proof.
  destruct (any_fwd (str "anyByte") all_bytes (su (str "anyByte")) x d (proj2 (proj2 (proj2 (proj2 (proj2 (classes x))))))) as (j & J).
  eexists. split; [exact J|]. reflexivity.
Qed.

Lemma not_letter_none x d : ~ letter x -> P (any_letter su) (x :: d) = None.
Proof.
  intros N. apply P_none. intros l I. destruct I as [<-|[<-|[]]]; apply line_none, once_none.
  - destruct (P (upper_letters su) (x :: d)) as [[a r]|] eqn:E; auto. apply upper_inv in E as (y & [= <- <-] & U & _). destruct N. now left.
  - destruct (P (lower_letters su) (x :: d)) as [[a r]|] eqn:E; auto. apply lower_inv in E as (y & [= <- <-] & U & _). destruct N. now right.
Qed.
Lemma letter_inv d a r : P (any_letter su) d = Some (a, r) -> exists x, d = x :: r /\ letter x /\ leaves a = [x].
Proof.
  intros E. apply P_inv in E as (l & i & es & I & -> & E & L).
  destruct I as [<-|[<-|[]]]; apply line_inv in E as (xs & d1 & es' & E & E' & ->); apply once_inv in E as (a & -> & E);
    rewrite line_nil in E'; injection E' as <- <-.
  - apply upper_inv in E as (x & -> & U & Le). exists x. split; auto. split; [now left|]. cbn. rewrite Le. reflexivity.
  - apply lower_inv in E as (x & -> & U & Le). exists x. split; auto. split; [now right|]. cbn. rewrite Le. reflexivity.
Qed.
Lemma letter_fwd x d : letter x -> exists a, P (any_letter su) (x :: d) = Some (a, d) /\ leaves a = [x].
Proof.
  intros Lx. destruct (P (any_letter su) (x :: d)) as [[a r]|] eqn:E.
  - apply letter_inv in E as E'. destruct E' as (y & [= <- <-] & _ & Le). eauto.
  - exfalso. unfold any_letter, tok in E. rewrite P_eq in E. cbn [map] in E.
    destruct (plain_line [once (upper_letters su)] (x :: d)) as [[es r]|] eqn:E1.
    + apply line_inv in E1 as (xs & d1 & es' & E1 & E' & ->). apply once_inv in E1 as E2. destruct E2 as (a & -> & E2). pose proof (P_shrinks _ _ _ _ E2) as S.
      rewrite line_nil in E'. injection E' as <- <-.
      rewrite (first_here 0 _ _ _ _ _ (line_cons _ _ _ _ _ _ _ E1 (line_nil _)) S) in E. discriminate.
    + rewrite first_later in E by exact E1. destruct Lx as [U|U].
      * destruct (upper_fwd x d U) as (a & F & _). rewrite (line_cons _ _ _ _ _ _ _ (once_fwd _ _ _ _ F) (line_nil _)) in E1. discriminate.
      * destruct (lower_fwd x d U) as (a & F & _).
        rewrite (first_here 1 _ _ _ _ _ (line_cons _ _ _ _ _ _ _ (once_fwd _ _ _ _ F) (line_nil _))) in E by (cbn; lia). discriminate.
Qed.

Lemma letters_fwd cs : Forall letter cs -> forall r, stops r -> exists xs, reps (P (any_letter su)) xs (cs ++ r) r /\ flat_map leaves xs = cs.
Proof.
  induction 1 as [|c cs Lc F IH]; intros r S.
  - exists []. split; auto. constructor. destruct r as [|x r]; [apply P_nil|now apply not_letter_none].
  - destruct (IH r S) as (xs & R & <-). destruct (letter_fwd c (flat_map leaves xs ++ r) Lc) as (a & E & Le).
    exists (a :: xs). cbn [app flat_map]. split; [econstructor; eauto|]. now rewrite Le.
Qed.
Lemma letters_inv xs d r : reps (P (any_letter su)) xs d r -> d = flat_map leaves xs ++ r /\ Forall letter (flat_map leaves xs) /\ stops r.
Proof.
  induction 1 as [d E|x xs d d1 r E R IH].
  - repeat split; auto; cbn; auto. destruct d as [|x d]; cbn; auto. intros Lx. destruct (letter_fwd x d Lx) as (a & E' & _). congruence.
  - apply letter_inv in E as (y & -> & Ly & Le). destruct IH as (-> & F & S). cbn [flat_map]. rewrite Le. cbn. auto.
Qed.
Lemma many_nil_elements c (xs : list ast) : flat_map leaves xs =
  flat_map (fun e : bytes * list ast => flat_map leaves (snd e)) match xs with [] => [] | _ => [(c, xs)] end.
Proof. destruct xs; auto. cbn. now rewrite app_nil_r. Qed.
Lemma name_fwd n r : name n -> stops r -> exists a, P (variable_name su) (n ++ r) = Some (a, r) /\ leaves a = n.
Proof.
  intros (c & cs & -> & Lc & F) S. destruct (letters_fwd cs F r S) as (xs & R & E). destruct (lower_fwd c (cs ++ r) Lc) as (a & Ea & La).
  cbn [app]. eexists. split.
  - apply P_here; [|cbn; rewrite app_length; lia]. eapply line_cons; [apply once_fwd; exact Ea|].
    eapply line_cons; [apply many_iff; exact R|apply line_nil].
  - cbn. rewrite La. cbn. f_equal. rewrite <- E. symmetry. apply (many_nil_elements (str "anyLetter")).
Qed.
Lemma name_inv d a r : P (variable_name su) d = Some (a, r) -> exists n, d = n ++ r /\ name n /\ stops r /\ leaves a = n.
Proof.
  intros E. apply P_single in E as (es & -> & E & _). apply line_inv in E as (xs & d1 & es1 & E1 & E & ->). apply once_inv in E1 as (x & -> & E1).
  apply lower_inv in E1 as (c & -> & Lc & Le). apply line_inv in E as (ys & d2 & es2 & E2 & E & ->). rewrite line_nil in E. injection E as <- <-.
  apply many_iff in E2. apply letters_inv in E2 as (-> & F & S). exists (c :: flat_map leaves ys). split; [reflexivity|]. split; [exists c, (flat_map leaves ys); auto|].
  split; auto. cbn. rewrite Le. cbn. f_equal. symmetry. apply (many_nil_elements (str "anyLetter")).
Qed.
Lemma name_none x d : ~ lower x -> P (variable_name su) (x :: d) = None.
Proof.
  intros N. destruct (P (variable_name su) (x :: d)) as [[a r]|] eqn:E; auto. apply name_inv in E as (n & E & (c & cs & -> & Lc & _) & _).
  injection E as -> _. contradiction.
Qed.

Lemma stops_sign x d : existsb (Byte.eqb x) [x3a; x3b; x5b; x5d] = true -> stops (x :: d).
Proof. cbn [stops]. intros E [(A & B)|(A & B)]; destruct x; try discriminate E; vm_compute in A, B; congruence. Qed.

(** ** Roots and channels *)
Local Ltac len := cbn [app]; repeat first [rewrite app_length | progress cbn [length]]; lia.
Local Ltac fwd := eapply line_cons; [first [apply value_fwd | apply once_fwd; eassumption]|].

Lemma text_of t w d a r : every_container value_or_token t -> d = w ++ r -> P t d = Some (a, r) -> leaves a = w.
Proof. intros V -> E. apply P_leaves in E; auto. now apply app_inv_tail in E. Qed.
Lemma root_fwd n r : name n -> exists a, P (root_token su) (x40 :: n ++ x3b :: r) = Some (a, r) /\ leaves a = x40 :: n ++ [x3b].
Proof.
  intros N. enough (A : exists a, P (root_token su) (x40 :: n ++ x3b :: r) = Some (a, r)).
  { destruct A as (a & E). exists a. split; auto. eapply text_of; [|  |exact E]; [apply check_values; vm_compute; reflexivity|]. cbn. now rewrite <- app_assoc. }
  revert N.
  intros N. destruct (name_fwd n (x3b :: r) N (stops_sign x3b r eq_refl)) as (a & E & _). eexists.
  apply P_here; [|len]. fwd. fwd. fwd. apply line_nil.
Qed.
Lemma root_inv d a r : P (root_token su) d = Some (a, r) -> exists n, name n /\ d = x40 :: n ++ x3b :: r.
Proof.
  intros E. apply P_single in E as (es & -> & E & _).
  apply line_inv in E as (xs & d1 & es1 & E1 & E & _). apply value_inv in E1 as (-> & _).
  apply line_inv in E as (ys & d2 & es2 & E2 & E & _). apply once_inv in E2 as (b & _ & E2). apply name_inv in E2 as (n & -> & N & _).
  apply line_inv in E as (zs & d3 & es3 & E3 & E & _). apply value_inv in E3 as (-> & _). rewrite line_nil in E. injection E as _ ->. eauto.
Qed.

Inductive inside_text : bytes -> Prop :=
| inside_both p q : name p -> name q -> inside_text (p ++ x3a :: q)
| inside_next q : name q -> inside_text (x3a :: q)
| inside_previous p : name p -> inside_text p.
Lemma inside_fwd w r : inside_text w -> exists a, P (previous_next_inside su) (w ++ x5d :: r) = Some (a, x5d :: r).
Proof.
  assert (S1 : forall d, stops (x3a :: d)) by (intros d; now apply stops_sign).
  assert (S2 : forall d, stops (x5d :: d)) by (intros d; now apply stops_sign).
  intros [p q Np Nq|q Nq|p Np].
  - rewrite <- app_assoc. destruct (name_fwd p (x3a :: q ++ x5d :: r) Np (S1 _)) as (a & E & _).
    destruct (name_fwd q (x5d :: r) Nq (S2 _)) as (b & F & _). eexists.
    apply P_here; [|len]. cbn [app]. fwd. fwd. fwd. apply line_nil.
  - cbn [app]. destruct (name_fwd q (x5d :: r) Nq (S2 _)) as (b & F & _). eexists.
    unfold previous_next_inside, tok. rewrite P_eq. cbn [map]. rewrite first_later.
    + erewrite first_here; [reflexivity| |]; [|len]. fwd. fwd. apply line_nil.
    + apply line_none, once_none, name_none. intros (A & B). vm_compute in A. congruence.
  - destruct (name_fwd p (x5d :: r) Np (S2 _)) as (b & F & _). eexists.
    unfold previous_next_inside, tok. rewrite P_eq. cbn [map]. rewrite first_later; [rewrite first_later|].
    + erewrite first_here; [reflexivity| |]; [fwd; apply line_nil|]. destruct Np as (c & cs & -> & _). len.
    + apply line_none, value_none. intros r' E. destruct Np as (c & cs & -> & (A & B) & _). injection E as -> _. vm_compute in A. congruence.
    + eapply line_none1; [apply once_fwd; exact F|]. apply line_none, value_none. discriminate.
Qed.
Lemma inside_inv d a r : P (previous_next_inside su) d = Some (a, r) -> exists w, inside_text w /\ d = w ++ r.
Proof.
  intros E. apply P_inv in E as (l & i & es & I & -> & E & _). destruct I as [<-|[<-|[<-|[]]]].
  - apply line_inv in E as (xs & d1 & es1 & E1 & E & _). apply once_inv in E1 as (b & _ & E1). apply name_inv in E1 as (p & -> & N & _).
    apply line_inv in E as (ys & d2 & es2 & E2 & E & _). apply value_inv in E2 as (-> & _).
    apply line_inv in E as (zs & d3 & es3 & E3 & E & _). apply once_inv in E3 as (c & _ & E3). apply name_inv in E3 as (q & -> & Nq & _).
    rewrite line_nil in E. injection E as _ ->. exists (p ++ x3a :: q). split; [now constructor|]. now rewrite <- app_assoc.
  - apply line_inv in E as (ys & d2 & es2 & E2 & E & _). apply value_inv in E2 as (-> & _).
    apply line_inv in E as (zs & d3 & es3 & E3 & E & _). apply once_inv in E3 as (c & _ & E3). apply name_inv in E3 as (q & -> & Nq & _).
    rewrite line_nil in E. injection E as _ ->. exists (x3a :: q). split; [now constructor|]. reflexivity.
  - apply line_inv in E as (zs & d3 & es3 & E3 & E & _). apply once_inv in E3 as (c & _ & E3). apply name_inv in E3 as (q & -> & Nq & _).
    rewrite line_nil in E. injection E as _ ->. exists q. split; [now constructor|]. reflexivity.
Qed.

Inductive between_text : bytes -> Prop :=
| between_none : between_text []
| between_some w : inside_text w -> between_text (x5b :: w ++ [x5d]).
Local Ltac assoc := repeat first [progress cbn [app] | rewrite <- app_assoc]; try reflexivity.
Lemma channel_text_iff c : channel_text c <-> exists n w, name n /\ between_text w /\ c = x2d :: n ++ w ++ [x3b].
Proof.
  split.
  - intros [n N|n p N Np|n q N Nq|n p q N Np Nq]; exists n.
    + exists []. refine (conj N (conj _ _)); [constructor|reflexivity].
    + exists (x5b :: p ++ [x5d]). refine (conj N (conj _ _)); [constructor; now constructor|]. assoc.
    + exists (x5b :: (x3a :: q) ++ [x5d]). refine (conj N (conj _ _)); [constructor; now constructor|]. assoc.
    + exists (x5b :: (p ++ x3a :: q) ++ [x5d]). refine (conj N (conj _ _)); [constructor; now constructor|]. assoc.
  - intros (n & w & N & B & ->). destruct B as [|w [p q Np Nq|q Nq|p Np]].
    + now apply chan.
    + assoc. now apply chan_both.
    + assoc. now apply chan_next.
    + assoc. now apply chan_previous.
Qed.
Lemma between_fwd w r : between_text w -> exists xs, C (optional (previous_next su)) (w ++ x3b :: r) = Some (xs, x3b :: r).
Proof.
  intros [|w' W].
  - exists []. rewrite optional_eq. cbn [app]. unfold previous_next, tok. rewrite P_none; auto. intros l [<-|[]]. apply line_none, value_none. discriminate.
  - destruct (inside_fwd w' (x3b :: r) W) as (a & E). rewrite optional_eq. cbn [app]. rewrite <- app_assoc. cbn [app].
    eexists. unfold previous_next, tok. erewrite P_here; [reflexivity| |len]. fwd. fwd. fwd. apply line_nil.
Qed.
Lemma between_inv d xs r : C (optional (previous_next su)) d = Some (xs, r) -> exists w, between_text w /\ d = w ++ r.
Proof.
  rewrite optional_eq. destruct (P (previous_next su) d) as [[a r']|] eqn:E.
  - intros [= <- <-]. apply P_single in E as (es & -> & E & _).
    apply line_inv in E as (ys & d2 & es2 & E2 & E & _). apply value_inv in E2 as (-> & _).
    apply line_inv in E as (zs & d3 & es3 & E3 & E & _). apply once_inv in E3 as (c & _ & E3). apply inside_inv in E3 as (w & W & ->).
    apply line_inv in E as (us & d4 & es4 & E4 & E & _). apply value_inv in E4 as (-> & _). rewrite line_nil in E. injection E as _ ->.
    exists (x5b :: w ++ [x5d]). split; [now constructor|]. cbn. now rewrite <- app_assoc.
  - intros [= <- <-]. exists []. split; [constructor|reflexivity].
Qed.
Lemma stops_between w r : between_text w -> stops (w ++ x3b :: r).
Proof. intros [|w' _]; now apply stops_sign. Qed.
Lemma channel_fwd c r : channel_text c -> exists a, P (channel_token su) (c ++ r) = Some (a, r).
Proof.
  intros T. apply channel_text_iff in T as (n & w & N & B & ->). cbn [app]. rewrite <- !app_assoc. cbn [app].
  destruct (name_fwd n (w ++ x3b :: r) N (stops_between w r B)) as (a & E & _). destruct (between_fwd w r B) as (xs & F). eexists.
  apply P_here; [|len]. fwd. fwd. eapply line_cons; [exact F|]. fwd. apply line_nil.
Qed.
Lemma channel_inv d a r : P (channel_token su) d = Some (a, r) -> exists c, channel_text c /\ d = c ++ r.
Proof.
  intros E. apply P_single in E as (es & -> & E & _).
  apply line_inv in E as (xs & d1 & es1 & E1 & E & _). apply value_inv in E1 as (-> & _).
  apply line_inv in E as (ys & d2 & es2 & E2 & E & _). apply once_inv in E2 as (b & _ & E2). apply name_inv in E2 as (n & -> & N & _).
  apply line_inv in E as (us & d4 & es4 & E4 & E & _). apply between_inv in E4 as (w & W & ->).
  apply line_inv in E as (zs & d3 & es3 & E3 & E & _). apply value_inv in E3 as (-> & _). rewrite line_nil in E. injection E as _ ->.
  exists (x2d :: n ++ w ++ [x3b]). split; [apply channel_text_iff; eauto|]. cbn. now rewrite <- !app_assoc.
Qed.
Lemma channels_fwd cs d : Forall channel_text cs -> (forall r, d <> x2d :: r) ->
  exists xs, reps (P (channel_token su)) xs (concat cs ++ d) d /\ map leaves xs = cs.
Proof.
  intros F N. induction F as [|c cs T F (xs & R & Ex)].
  - exists []. split; auto. constructor. apply P_none. intros l [<-|[]]. apply line_none. now apply value_none.
  - cbn [concat]. rewrite <- app_assoc. destruct (channel_fwd c (concat cs ++ d) T) as (a & E). exists (a :: xs).
    split; [econstructor; eauto|]. cbn [map]. rewrite Ex. f_equal. eapply text_of; [|reflexivity|exact E]. apply check_values. vm_compute. reflexivity.
Qed.
Lemma channels_inv xs d r : reps (P (channel_token su)) xs d r -> exists cs, Forall channel_text cs /\ d = concat cs ++ r.
Proof.
  induction 1 as [d E|x xs d d1 r E R (cs & F & ->)].
  - exists []. auto.
  - apply channel_inv in E as (c & T & ->). exists (c :: cs). split; auto. cbn. now rewrite <- app_assoc.
Qed.

(** ** Instructions *)
Lemma body_fwd body : exists xs, reps (P (any_byte su)) xs body [] /\ flat_map leaves xs = body.
Proof.
  induction body as [|x body (xs & R & E)].
  - exists []. split; auto. constructor. apply P_nil.
  - destruct (byte_fwd x body) as (a & F & La). exists (a :: xs). split; [econstructor; eauto|]. cbn. now rewrite La, E.
Qed.
Lemma value_assignment_fwd n body : name n -> body <> [] ->
  exists a, P (value_assignment su) (n ++ x3a :: body) = Some (a, []) /\ assignment n body a.
Proof.
  intros N B. destruct (name_fwd n (x3a :: body) N (stops_sign x3a body eq_refl)) as (a & E & La). destruct (body_fwd body) as (xs & R & L).
  assert (Nx : xs <> []) by (intros ->; cbn in L; congruence). eexists. split.
  - apply P_here; [|len]. fwd. fwd. eapply line_cons; [apply some_iff; split; [exact R|exact Nx]|]. apply line_nil.
  - exists a, xs. split; auto. destruct xs; [congruence|reflexivity].
Qed.
Lemma colon_inv d xs r : C (sign ":") d = Some (xs, r) -> d = x3a :: r.
Proof. intros E. now apply value_inv in E as (-> & _). Qed.
Lemma value_assignment_inv d a r : P (value_assignment su) d = Some (a, r) ->
  exists n body, d = n ++ x3a :: body /\ name n /\ body <> [] /\ r = [] /\ assignment n body a.
Proof.
  intros E. pose proof E as E0. apply P_single in E as (es & -> & E & _).
  apply line_inv in E as (ys & d2 & es2 & E2 & E & _). apply once_inv in E2 as (b & _ & E2). apply name_inv in E2 as (n & -> & N & _).
  apply line_inv in E as (xs & d1 & es1 & E1 & E & _). apply colon_inv in E1 as ->.
  apply line_inv in E as (zs & d3 & es3 & E3 & E & _). apply some_iff in E3 as (R & Nz).
  assert (B : d1 <> []).
  { intros ->. inversion R as [|? ? ? ? ? F]; subst; [congruence|]. rewrite P_nil in F. discriminate. }
  destruct (value_assignment_fwd n d1 N B) as (a & F & A). rewrite E0 in F. injection F as -> ->. exists n, d1. auto.
Qed.
(** Every other instruction needs a name, ':' and something else. *)
Lemma other_none m t l s d : P (value_assignment su) d = None ->
  P (Token m [once (variable_name su) :: sign ":" :: once t :: l] s) d = None.
Proof.
  intros N. destruct (P (Token m _ s) d) as [[a r]|] eqn:E; auto. exfalso. apply P_single in E as (es & -> & E & _).
  apply line_inv in E as (ys & d2 & es2 & E2 & E & _). apply once_inv in E2 as (b & _ & E2). apply name_inv in E2 as (n & -> & Nn & _).
  apply line_inv in E as (xs & d1 & es1 & E1 & E & _). apply colon_inv in E1 as ->.
  apply line_inv in E as (zs & d3 & es3 & E3 & E & _). apply once_inv in E3 as (c & _ & E3).
  destruct (value_assignment_fwd n d1 Nn) as (a & F & _).
  - intros ->. rewrite P_nil in E3. discriminate.
  - congruence.
Qed.
Lemma instruction_eq d : P (instruction_token su) d =
  match P (value_assignment su) d with
  | Some (a, r) => Some (Node (str "instruction") 0 [(str "valueAssignment", [a])], r)
  | None => None
  end.
Proof.
  destruct (P (value_assignment su) d) as [[a r]|] eqn:E.
  - apply P_here; [|now apply P_shrinks in E]. exact (line_cons (once (value_assignment su)) [] _ _ _ _ _ (once_fwd _ _ _ _ E) (line_nil r)).
  - apply P_none. intros l I. destruct I as [<-|[<-|[<-|[<-|[<-|[]]]]]]; apply line_none, once_none; auto; now apply other_none.
Qed.

(** ** Scripts *)
Lemma instructions_fwd n body : name n -> body <> [] ->
  exists x, assignment n body x /\ reps (P (instruction_token su)) [Node (str "instruction") 0 [(str "valueAssignment", [x])]] (n ++ x3a :: body) [].
Proof.
  intros N B. destruct (value_assignment_fwd n body N B) as (x & E & A). exists x. split; auto.
  econstructor; [rewrite instruction_eq, E; reflexivity|]. constructor. apply P_nil.
Qed.
Lemma instructions_inv xs d r : reps (P (instruction_token su)) xs d r -> xs <> [] ->
  exists n body, d = n ++ x3a :: body /\ name n /\ body <> [] /\ r = [].
Proof.
  intros R Nx. inversion R as [|x ys ? d1 ? E R']; subst; [congruence|]. rewrite instruction_eq in E.
  destruct (P (value_assignment su) d) as [[a r1]|] eqn:Ea; [|discriminate]. injection E as <- <-.
  apply value_assignment_inv in Ea as (n & body & -> & N & B & -> & _). exists n, body. repeat split; auto.
  inversion R' as [|? ? ? ? ? E]; subst; auto. rewrite P_nil in E. discriminate.
Qed.
Lemma script_fwd v root cs n body : script v root cs n body -> exists a, P (grammar_token su) v = Some (a, []) /\ script_ast root cs n body a.
Proof.
  intros S. destruct S as [root cs n body Nr F N B]. destruct (root_fwd root (concat cs ++ n ++ x3a :: body) Nr) as (a & E & La).
  destruct (channels_fwd cs (n ++ x3a :: body) F) as (xs & R & Ex).
  { intros r. destruct N as (c & w & -> & (L1 & L2) & _). intros [= -> _]. vm_compute in L1. congruence. }
  destruct (instructions_fwd n body N B) as (x & A & I). eexists. split.
  - apply P_here; [|cbn; lia]. fwd. eapply line_cons; [apply many_iff; exact R|]. eapply line_cons; [apply some_iff; split; [exact I|discriminate]|]. apply line_nil.
  - exists x. split; auto. exists a, xs. split; auto. split; auto. destruct xs; reflexivity.
Qed.
Lemma script_inv v a r : P (grammar_token su) v = Some (a, r) ->
  exists root cs n body, script v root cs n body /\ r = [] /\ script_ast root cs n body a.
Proof.
  intros E. pose proof E as E0. apply P_single in E as (es & -> & E & _).
  apply line_inv in E as (ys & d2 & es2 & E2 & E & _). apply once_inv in E2 as (b & _ & E2). apply root_inv in E2 as (root & Nr & ->).
  apply line_inv in E as (xs & d1 & es1 & E1 & E & _). apply many_iff in E1. apply channels_inv in E1 as (cs & F & ->).
  apply line_inv in E as (zs & d3 & es3 & E3 & E & _). apply some_iff in E3 as (R & Nz). apply instructions_inv in R as (n & body & -> & N & B & ->); auto.
  exists root, cs, n, body. assert (S : script (x40 :: root ++ x3b :: concat cs ++ n ++ x3a :: body) root cs n body) by now constructor. split; auto.
  destruct (script_fwd _ _ _ _ _ S) as (a' & F' & A). rewrite E0 in F'. injection F' as -> ->. auto.
Qed.

(** ** Hexadecimal texts *)
Lemma number_fwd x d : decimal x -> exists a, P (any_number su) (x :: d) = Some (a, d) /\ leaves a = [x].
Proof.
  intros Lx. apply (proj1 (proj2 (proj2 (classes x)))) in Lx.
  destruct (any_fwd (str "anyNumber") _ (su (str "anyNumber")) x d Lx) as (j & J). eexists. split; [exact J|]. reflexivity.
Qed.
Lemma number_inv d a r : P (any_number su) d = Some (a, r) -> exists x, d = x :: r /\ decimal x /\ leaves a = [x].
Proof.
  intros E. destruct (any_inv (str "anyNumber") (str "0123456789") (su (str "anyNumber")) d a r E) as (x & j & -> & I & ->).
  exists x. split; auto. split; auto. now apply (proj1 (proj2 (proj2 (classes x)))).
Qed.
Lemma byte_inv d a r : P (any_byte su) d = Some (a, r) -> exists x, d = x :: r /\ leaves a = [x].
Proof.
  intros E. destruct (any_inv (str "anyByte") all_bytes (su (str "anyByte")) d a r E) as (x & j & -> & I & ->). eauto.
Qed.
Lemma hex_inv d a r : P (any_hex su) d = Some (a, r) -> exists x, d = x :: r /\ hexadecimal x /\ leaves a = [x].
Proof.
  intros E. apply P_inv in E as (l & i & es & I & -> & E & L).
  destruct I as [<-|[<-|[<-|[]]]]; apply line_inv in E as (xs & d1 & es' & E & E' & ->); apply once_inv in E as (a & -> & E);
    rewrite line_nil in E'; injection E' as <- <-.
  - destruct (any_inv (str "aToFLowerCaseLetter") (str "abcdef") (su (str "aToFLowerCaseLetter")) _ _ _ E) as (x & j & -> & J & ->).
    exists x. split; auto. split; auto. right. right. now apply classes.
  - destruct (any_inv (str "aToFUpperCaseLetters") (str "ABCDEF") (su (str "aToFUpperCaseLetters")) _ _ _ E) as (x & j & -> & J & ->).
    exists x. split; auto. split; auto. right. left. now apply classes.
  - apply number_inv in E as (x & -> & U & Le). exists x. split; auto. split; [now left|]. cbn. rewrite Le. reflexivity.
Qed.
Lemma hex_fwd x d : hexadecimal x -> exists a, P (any_hex su) (x :: d) = Some (a, d) /\ leaves a = [x].
Proof.
  intros Hx. destruct (P (any_hex su) (x :: d)) as [[a r]|] eqn:E.
  { apply hex_inv in E as E'. destruct E' as (y & [= <- <-] & _ & Le). eauto. }
  exfalso. assert (A : forall l, In l (t_lines (any_hex su)) -> plain_line l (x :: d) = None).
  { intros l I. destruct (plain_line l (x :: d)) as [[es r]|] eqn:F; auto. exfalso.
    assert (S : length r < length (x :: d)).
    { destruct I as [<-|[<-|[<-|[]]]]; apply line_inv in F as (xs & d1 & es' & F & E' & ->); apply once_inv in F as (b & _ & F);
        rewrite line_nil in E'; injection E' as _ <-; now apply P_shrinks in F. }
    unfold any_hex, tok in *. rewrite P_eq in E. cbn [t_lines] in I.
    destruct (peg_first 0 _ (x :: d)) as [[[i es'] r']|] eqn:G; [discriminate|]. clear E.
    revert G. generalize 0. induction ([[once (a_to_f_lower su)]; [once (a_to_f_upper su)]; [once (any_number su)]]) as [|l0 ls IH]; intros k G; [destruct I|].
    cbn [map peg_first] in G. destruct I as [->|I].
    - rewrite F in G. apply Nat.ltb_lt in S. rewrite S in G. discriminate.
    - destruct (plain_line l0 (x :: d)) as [[es0 r0]|].
      + destruct (length r0 <? length (x :: d)); [discriminate|]. eapply IH; eauto.
      + eapply IH; eauto. }
  destruct Hx as [D|[U|Lo]].
  - destruct (number_fwd x d D) as (a & F & _). specialize (A [once (any_number su)] ltac:(cbn; auto)).
    rewrite (line_cons _ _ _ _ _ _ _ (once_fwd _ _ _ _ F) (line_nil _)) in A. discriminate.
  - apply classes in U. destruct (any_fwd (str "aToFUpperCaseLetters") _ (su (str "aToFUpperCaseLetters")) x d U) as (j & F).
    specialize (A [once (a_to_f_upper su)] ltac:(cbn; auto)).
    rewrite (line_cons (once (a_to_f_upper su)) _ _ _ _ _ _ (once_fwd (a_to_f_upper su) _ _ _ F) (line_nil _)) in A. discriminate.
  - apply classes in Lo. destruct (any_fwd (str "aToFLowerCaseLetter") _ (su (str "aToFLowerCaseLetter")) x d Lo) as (j & F).
    specialize (A [once (a_to_f_lower su)] ltac:(cbn; auto)).
    rewrite (line_cons (once (a_to_f_lower su)) _ _ _ _ _ _ (once_fwd (a_to_f_lower su) _ _ _ F) (line_nil _)) in A. discriminate.
Qed.
End Tokens.

(** ** Exactly so many times *)
Lemma greedy_exact {A} (p : peg A) (f : A -> bytes) (K : byte -> Prop) m :
  (forall d a r, p d = Some (a, r) -> exists x, d = x :: r /\ K x /\ f a = [x]) ->
  (forall x d, K x -> exists a, p (x :: d) = Some (a, d)) ->
  forall n k d, length d <= n -> (0 <= k <= m)%Z ->
  let '(xs, r) := peg_greedy p (Some m) n k d in
  d = flat_map f xs ++ r /\ Forall K (flat_map f xs) /\ zlen (flat_map f xs) = zlen xs /\ (zlen xs <= m - k)%Z /\
  ((zlen xs < m - k)%Z -> match r with x :: _ => ~ K x | [] => True end).
Proof.
  intros Hi Hf. induction n as [|n IH]; intros k d L R.
  - destruct d; [|cbn in L; lia]. cbn. repeat split; auto. unfold zlen. cbn. lia.
  - cbn [peg_greedy]. destruct (m <=? k)%Z eqn:M.
    + apply Z.leb_le in M. cbn. repeat split; auto; unfold zlen; cbn; lia.
    + apply Z.leb_gt in M. destruct (p d) as [[a d1]|] eqn:E.
      * apply Hi in E as (x & -> & Kx & Fa). specialize (IH (k + 1)%Z d1 ltac:(cbn in L; lia) ltac:(lia)).
        destruct (peg_greedy p (Some m) n (k + 1) d1) as [xs r]. destruct IH as (-> & F & Z1 & Z2 & Z3).
        cbn [flat_map]. rewrite Fa. cbn [app]. unfold zlen in *. cbn [length]. repeat split; auto; try lia. intros Lz. apply Z3. lia.
      * cbn. repeat split; auto; unfold zlen; cbn; try lia. intros _. destruct d as [|x d]; auto. intros Kx. destruct (Hf x d Kx). congruence.
Qed.
Lemma hex_line su : C (from_token (any_hex su) 128 (Some 128%Z)) = peg_times (P (any_hex su)) 128 (Some 128%Z).
Proof. reflexivity. Qed.
Lemma sha_inv su d a r : P (sha512_hex su) d = Some (a, r) ->
  exists h, d = h ++ r /\ zlen h = 128%Z /\ Forall hexadecimal h /\ leaves a = h.
Proof.
  intros E. apply P_single in E as (es & -> & E & _). apply line_inv in E as (xs & d1 & es' & E & E' & ->).
  rewrite line_nil in E'. injection E' as <- <-. rewrite hex_line in E. unfold peg_times in E.
  pose proof (greedy_exact (P (any_hex su)) leaves hexadecimal 128 (fun d a r E => hex_inv su d a r E)
    (fun x d K => let '(ex_intro _ a (conj F _)) := hex_fwd su x d K in ex_intro _ a F) (length d) 0 d (Nat.le_refl _) ltac:(lia)) as G.
  destruct (peg_greedy (P (any_hex su)) (Some 128%Z) (length d) 0 d) as [ys q]. destruct (zlen ys <? 128)%Z eqn:L; [discriminate|]. injection E as <- <-.
  apply Z.ltb_ge in L. destruct G as (-> & F & Z1 & Z2 & _). exists (flat_map leaves ys). repeat split; auto; [lia|].
  cbn. destruct ys; auto. cbn. now rewrite app_nil_r.
Qed.
Lemma sha_fwd su h r : zlen h = 128%Z -> Forall hexadecimal h -> exists a, P (sha512_hex su) (h ++ r) = Some (a, r).
Proof.
  intros Lh Fh.
  pose proof (greedy_exact (P (any_hex su)) leaves hexadecimal 128 (fun d a r E => hex_inv su d a r E)
    (fun x d K => let '(ex_intro _ a (conj F _)) := hex_fwd su x d K in ex_intro _ a F) (length (h ++ r)) 0 (h ++ r) (Nat.le_refl _) ltac:(lia)) as G.
  destruct (peg_greedy (P (any_hex su)) (Some 128%Z) (length (h ++ r)) 0 (h ++ r)) as [ys q] eqn:E. destruct G as (E1 & F & Z1 & Z2 & Z3).
  assert (Ly : zlen ys = 128%Z).
  { destruct (Z.eq_dec (zlen ys) 128) as [|N]; auto. specialize (Z3 ltac:(lia)). exfalso.
    assert (S : length (flat_map leaves ys) < length h) by (unfold zlen in *; lia). clear - E1 Z3 Fh S.
    revert h E1 Fh S. induction (flat_map leaves ys) as [|y w IH]; intros [|x h] E Fh S; cbn in S; try lia; cbn in E.
    - subst q. inversion Fh; subst. contradiction.
    - injection E as -> E. inversion Fh; subst. apply (IH h E); auto. lia. }
  assert (Eh : flat_map leaves ys = h /\ q = r).
  { assert (S : length (flat_map leaves ys) = length h) by (unfold zlen in *; lia). clear - E1 S.
    revert h E1 S. induction (flat_map leaves ys) as [|y w IH]; intros [|x h] E S; cbn in S; try lia; cbn in E; auto.
    injection E as -> E. destruct (IH h E) as (-> & ->); auto. }
  destruct Eh as (Eh & ->). eexists. apply P_here.
  - eapply line_cons; [|apply line_nil]. rewrite hex_line. unfold peg_times. rewrite E, Ly. reflexivity.
  - rewrite app_length. unfold zlen in *. lia.
Qed.

(** ** Texts *)
Lemma runes_length f : forall s, length (runes f s) <= length s.
Proof.
  induction f as [|f IH]; intros s; [cbn; lia|]. cbn [runes].
  repeat match goal with
  | |- context [match ?l with [] => _ | _ :: _ => _ end] => destruct l
  | |- context [if ?b then _ else _] => destruct b
  end; cbn [length]; try lia;
  match goal with |- S (length (runes f ?s)) <= _ => specialize (IH s); cbn [length] in *; lia end.
Qed.
Definition own (b : byte) : byte := if between 0 127 b then b else xfd.
Lemma byte_of_Z_code b : byte_of_Z (Z_of_byte b) = b.
Proof. destruct b; reflexivity. Qed.
Lemma runes_full f : forall s, length s <= f -> length (runes f s) = length s -> map byte_of_Z (runes f s) = map own s.
Proof.
  induction f as [|f IH]; intros s L E; [destruct s; [reflexivity|cbn in L; lia]|]. cbn [runes] in *. destruct s as [|a s]; [reflexivity|].
  cbn [length] in *.
  assert (K : forall z, length (z :: runes f s) = S (length s) -> byte_of_Z z = own a -> map byte_of_Z (z :: runes f s) = map own (a :: s)).
  { intros z Lz Ez. cbn [map length] in *. rewrite Ez. f_equal. apply IH; lia. }
  destruct (between 0 127 a) eqn:Ba.
  { apply K; auto. unfold own. rewrite Ba. apply byte_of_Z_code. }
  assert (R : length (rune_error :: runes f s) = S (length s) -> map byte_of_Z (rune_error :: runes f s) = map own (a :: s)).
  { intros Lz. apply K; auto. unfold own. now rewrite Ba. }
  assert (T : forall z s2 n, length s = n + length s2 -> 0 < n -> length (z :: runes f s2) <> S (length s)).
  { intros z s2 n El Hn. cbn [length]. pose proof (runes_length f s2). lia. }
  destruct s as [|b s2]; auto. destruct (between 194 223 a && between 128 191 b); [destruct (T _ s2 1 eq_refl ltac:(lia) E)|].
  destruct s2 as [|c s3]; auto.
  destruct (between 128 191 c && _); [destruct (T _ s3 2 eq_refl ltac:(lia) E)|].
  destruct s3 as [|d s4]; auto.
  destruct (between 128 191 c && between 128 191 d && _); [destruct (T _ s4 3 eq_refl ltac:(lia) E)|]. auto.
Qed.
Lemma own_iff b : own b = b <-> own_byte b.
Proof.
  assert (A : Byte.eqb (own b) b = ((code b <? 128) || (code b =? 253))%Z) by (destruct b; vm_compute; reflexivity).
  rewrite <- byte_eqb_true, A, orb_true_iff, Z.ltb_lt, Z.eqb_eq. reflexivity.
Qed.
Lemma own_runes f : forall s, length s <= f -> Forall own_byte s -> map byte_of_Z (runes f s) = s.
Proof.
  induction f as [|f IH]; intros s L F; [destruct s; [reflexivity|cbn in L; lia]|]. cbn [runes]. destruct F as [|a s Oa F]; [reflexivity|].
  cbn [length] in L. assert (IHs := IH s ltac:(lia) F). destruct (between 0 127 a) eqn:Ba; [cbn [map]; now rewrite byte_of_Z_code, IHs|].
  assert (Ea : a = xfd) by (destruct Oa as [O|O]; destruct a; vm_compute in O, Ba; try discriminate; auto).
  assert (E : map byte_of_Z (rune_error :: runes f s) = a :: s) by (cbn [map]; now rewrite IHs, Ea). subst a. clear Ba.
  destruct s as [|b s2]; auto. change (between 194 223 xfd) with false. cbn [andb].
  destruct s2 as [|c s3]; auto. change (between 224 224 xfd) with false. change (between 225 236 xfd) with false.
  change (between 237 237 xfd) with false. change (between 238 239 xfd) with false. cbn [andb orb]. rewrite andb_false_r.
  destruct s3 as [|d s4]; auto. change (between 240 240 xfd) with false. change (between 241 243 xfd) with false.
  change (between 244 244 xfd) with false. cbn [andb orb]. rewrite andb_false_r. auto.
Qed.
Lemma codes_own s : codes s = s <-> Forall own_byte s.
Proof.
  unfold codes. split.
  - intros E. assert (L : length (runes (length s) s) = length s) by (rewrite <- (map_length byte_of_Z), E; reflexivity).
    rewrite (runes_full _ s (Nat.le_refl _) L) in E. clear L. revert E. induction s as [|b s IH]; intros E; constructor; cbn in E; injection E as E1 E2; auto.
    now apply own_iff.
  - now apply own_runes.
Qed.
Lemma codes_nil s : codes s = [] -> s = [].
Proof.
  unfold codes. destruct s as [|a s]; auto. cbn [length runes]. intros E. exfalso. revert E.
  repeat match goal with
  | |- context [match ?l with [] => _ | _ :: _ => _ end] => destruct l
  | |- context [if ?b then _ else _] => destruct b
  end; discriminate.
Qed.
Lemma ascii_codes s : forallb (between 0 127) s = true -> codes s = s.
Proof.
  intros F. apply codes_own. apply Forall_forall. intros b I. rewrite forallb_forall in F. specialize (F b I). left.
  unfold between in F. apply andb_true_iff in F as (_ & F). apply Z.leb_le in F. unfold code. unfold Z_of_byte in F. lia.
Qed.
(** The constants: what AllCharacters and AnyCharacter return. *)
Lemma all_eq su n s : str n <> [] -> str s <> [] -> forallb (between 0 127) (str s) = true -> su (str n) = [suite_of (str s) true] ->
  all_characters (str n) (str s) = Ok (all su n s).
Proof.
  intros Nn Ns A E. unfold all_characters, all, tok. rewrite E, (ascii_codes _ A). destruct (str s) as [|x w]; [congruence|]. destruct (str n); [congruence|]. reflexivity.
Qed.
Lemma any_eq su n s : str n <> [] -> str s <> [] -> forallb (between 0 127) (str s) = true ->
  any_character (str n) (str s) (su (str n)) = Ok (any su n s).
Proof.
  intros Nn Ns A. unfold any_character, any, tok, from_block. rewrite (ascii_codes _ A).
  assert (F : forallb (fun l : list container => match l with [] => false | _ => true end) (map (fun b => [from_value b]) (str s)) = true).
  { apply forallb_forall. intros l I. apply in_map_iff in I as (b & <- & _). reflexivity. }
  rewrite F. destruct (str s) as [|x w]; [congruence|]. destruct (str n); [congruence|]. reflexivity.
Qed.

(** ** Tokens made of values *)
Definition value_lines (ls : list (list container)) : Prop := forall l c, In l ls -> In c l -> exists b, c = from_value b.
Lemma values_within n ls s t : value_lines ls -> within (Token n ls s) t -> t = Token n ls s.
Proof.
  intros V. induction 1 as [|t u _ -> K]; auto. exfalso.
  inversion K as [l v mi ma I Ic|l m v e mi ma I Ic|l m v e mi ma I Ic]; destruct (V _ _ I Ic) as (b & E); discriminate E.
Qed.
Lemma values_peg n ls s : value_lines ls -> peg_grammar (Grammar (Token n ls s) []).
Proof.
  intros V.
  assert (U : forall g', uses (Grammar (Token n ls s) []) g' -> g' = Grammar (Token n ls s) []).
  { induction 1 as [|root chs t l m g' mi ma U IH W I Ic|root chs t cond U IH I|root chs t b a U IH I|root chs t b a U IH I]; auto; injection IH as -> ->; try solve [destruct I].
    apply values_within in W as ->; auto. destruct (V _ _ I Ic) as (b & E). discriminate E. }
  intros root chs W. apply U in W. injection W as -> ->. split; [|intros ? ? []]. refine (conj _ (conj _ (conj _ _))).
  - intros t u v W K _. exfalso. apply values_within in W as ->; auto.
    inversion K as [l w mi ma I Ic|l m w e mi ma I Ic|l m w e mi ma I Ic]; destruct (V _ _ I Ic) as (b & E); discriminate E.
  - intros t l W I e mi ma e' mi' ma' Ic Ic' _. apply values_within in W as ->; auto. destruct (V _ _ I Ic) as (b & E). destruct (V _ _ I Ic') as (b' & E').
    injection E as _ -> _. injection E' as _ -> _. lia.
  - intros t l c W I Ic. apply values_within in W as ->; auto. destruct (V _ _ I Ic) as (b & ->). cbn. split; [unfold two63; lia|]. intros m [= <-]. lia.
  - intros t l c W I Ic. apply values_within in W as ->; auto. destruct (V _ _ I Ic) as (b & ->). exact Logic.I.
Qed.
Lemma values_fwd : forall bs d, exists es, plain_line (map from_value bs) (bs ++ d) = Some (es, d).
Proof.
  induction bs as [|b bs IH]; intros d; [eexists; apply line_nil|]. destruct (IH d) as (es & E). eexists. cbn [map app].
  eapply line_cons; [apply value_fwd|]. exact E.
Qed.
Lemma values_inv : forall bs d es r, plain_line (map from_value bs) d = Some (es, r) -> d = bs ++ r.
Proof.
  induction bs as [|b bs IH]; intros d es r E; [rewrite line_nil in E; now injection E as _ ->|].
  cbn [map] in E. apply line_inv in E as (xs & d1 & es' & E & E' & _). apply value_inv in E as (-> & _). cbn. f_equal. eauto.
Qed.
