(** Where names lead: filepath.Join against walks through directories. *)
From Coq Require Import List ZArith NArith Lia Bool.
From Coq Require Import Init.Byte Strings.Byte.
From Verif Require Import Base BaseLemmas HashModel HashTreeModel RefModel DbModel PathModel SpecPath.
Import ListNotations.

Lemma is_slash_true b : is_slash b = true <-> b = x2f.
Proof. unfold is_slash, slash. destruct (Byte.eqb b x2f) eqn:E; split; intros X; try discriminate; auto.
  - now apply byte_dec_bl.
  - subst. discriminate.
Qed.

Lemma is_slash_false b : is_slash b = false <-> b <> x2f.
Proof. rewrite <- is_slash_true. destruct (is_slash b); split; congruence. Qed.

Lemma eqb_dot b : Byte.eqb b dot = true <-> b = dot.
Proof. split; [apply byte_dec_bl|intros ->; reflexivity]. Qed.

(** ** Elements *)
Lemma elements_nil_ne p : elements p <> [].
Proof. destruct p as [|b p]; cbn; [discriminate|]. destruct (is_slash b); [discriminate|]. destruct (elements p); discriminate. Qed.

Lemma elements_one e : ~ In x2f e -> elements e = [e].
Proof.
  induction e as [|b e IH]; intros N; [reflexivity|]. cbn.
  assert (is_slash b = false) as -> by (apply is_slash_false; intros ->; apply N; now left).
  rewrite IH; [reflexivity|]. intros X. apply N. now right.
Qed.

Lemma elements_more e p : ~ In x2f e -> elements (e ++ x2f :: p) = e :: elements p.
Proof.
  induction e as [|b e IH]; intros N; [reflexivity|]. cbn [elements app].
  assert (is_slash b = false) as -> by (apply is_slash_false; intros ->; apply N; now left).
  rewrite IH; [reflexivity|]. intros X. apply N. now right.
Qed.

Lemma elements_app p q : elements (p ++ slash :: q) = elements p ++ elements q.
Proof.
  induction p as [|b p IH]; [reflexivity|]. cbn [elements app]. rewrite IH.
  destruct (is_slash b); [reflexivity|]. pose proof (elements_nil_ne p). destruct (elements p); [congruence|reflexivity].
Qed.

Lemma elements_free p : Forall (fun e => ~ In x2f e) (elements p).
Proof.
  induction p as [|b p IH]; cbn; [repeat constructor; tauto|].
  destruct (is_slash b) eqn:E; [constructor; [tauto|exact IH]|].
  apply is_slash_false in E. destruct (elements p) as [|e es]; [repeat constructor; cbn; intuition congruence|].
  inversion IH; subst. constructor; [cbn; intuition congruence|assumption].
Qed.

Lemma parts_elements p es : parts p es <-> elements p = es.
Proof.
  split.
  - induction 1; [now apply elements_one|]. rewrite elements_more by assumption. now f_equal.
  - intros <-. induction p as [|b p IH]; cbn; [constructor; tauto|].
    destruct (is_slash b) eqn:E.
    + apply is_slash_true in E. subst. apply (parts_more []); [tauto|exact IH].
    + apply is_slash_false in E. inversion IH as [e N E1 E2|e q es N P E1 E2]; subst; cbn.
      * constructor. cbn. intuition congruence.
      * change (b :: e ++ x2f :: q) with ((b :: e) ++ x2f :: q). constructor; [cbn; intuition congruence|assumption].
Qed.

(** ** Walks *)
Lemma go_plain l n : plain n -> go l n = l ++ [n].
Proof.
  intros (A & B & C & D). unfold go. apply bytes_eqb_false in A, C, D. unfold dot. now rewrite A, C, D.
Qed.

Lemma removelast_snoc {A} (l : list A) x : removelast (l ++ [x]) = l.
Proof. rewrite removelast_app by discriminate. cbn. apply app_nil_r. Qed.

Lemma go_up l n : go (l ++ [n]) [x2e; x2e] = l.
Proof. unfold go. cbn. apply removelast_snoc. Qed.

Lemma walk_go l es l' : Forall (fun e => ~ In x2f e) es -> (walk l es l' <-> fold_left go es l = l').
Proof.
  intros F. split.
  - clear F. induction 1 as [l|l e es l' E W IH|l n es l' W IH|es l' W IH|l n es l' P W IH]; cbn [fold_left]; [reflexivity| | | |].
    + destruct E as [->| ->]; exact IH.
    + rewrite go_up. exact IH.
    + exact IH.
    + now rewrite go_plain.
  - intros <-. revert l. induction es as [|e es IH]; intros l; cbn [fold_left]; [constructor|]. inversion F; subst.
    remember (go l e) as l1 eqn:El. unfold go in El. subst l1.
    destruct (bytes_eqb e [] || bytes_eqb e [dot]) eqn:E1.
    { apply walk_stay; [|now apply IH]. apply orb_true_iff in E1. rewrite !bytes_eqb_true in E1. exact E1. }
    apply orb_false_iff in E1. rewrite !bytes_eqb_false in E1.
    destruct (bytes_eqb e [dot; dot]) eqn:E2.
    + apply bytes_eqb_true in E2. subst. destruct l as [|x l _] using rev_ind; [now apply walk_root, IH|].
      rewrite removelast_snoc. now apply walk_up, IH.
    + apply bytes_eqb_false in E2. apply walk_down; [|now apply IH]. repeat split; tauto || assumption.
Qed.

Lemma resolve_leads cwd p l : leads cwd p l <-> resolve cwd p = l.
Proof.
  unfold resolve. split.
  - intros L. inversion L as [q es l' P W|q es l' N P W]; subst.
    + apply parts_elements in P. subst. apply walk_go in W; [|apply elements_free]. cbn. exact W.
    + apply parts_elements in P. subst. apply walk_go in W; [|apply elements_free].
      destruct p as [|b p]; [exact W|]. destruct (is_slash b) eqn:E; [|exact W]. apply is_slash_true in E. subst. exfalso. apply N. now exists p.
  - intros <-. destruct p as [|b p]; [|destruct (is_slash b) eqn:E].
    + eapply leads_relative; [intros (q & X); discriminate|apply parts_elements; reflexivity|apply walk_go; [apply elements_free|reflexivity]].
    + apply is_slash_true in E. subst. cbn. eapply leads_absolute; [apply parts_elements; reflexivity|apply walk_go; [apply elements_free|reflexivity]].
    + apply is_slash_false in E.
      eapply leads_relative; [intros (q & X); congruence|apply parts_elements; reflexivity|apply walk_go; [apply elements_free|reflexivity]].
Qed.

(** ** Clean, element by element *)
Definition sep (rooted : bool) (out : bytes) : bytes :=
  if (if rooted then negb (length out =? 1)%nat else negb (length out =? 0)%nat) then slash :: out else out.

Definition clean_step (rooted : bool) (st : bytes * nat) (e : bytes) : bytes * nat :=
  let (out, dd) := st in
  if bytes_eqb e [] || bytes_eqb e [dot] then st
  else if bytes_eqb e [dot; dot] then
    if (dd <? length out)%nat then (back dd out, dd)
    else if rooted then st
    else let out' := dot :: dot :: (if (0 <? length out)%nat then slash :: out else out) in (out', length out')
  else (rev e ++ sep rooted out, dd).

Lemma at_end_slash e p : ~ In x2f e -> at_end (e ++ x2f :: p) = bytes_eqb e [].
Proof. destruct e as [|b e]; [reflexivity|]. intros N. cbn. apply is_slash_false. intros ->. apply N. now left. Qed.

Lemma at_end_nil e : ~ In x2f e -> at_end e = bytes_eqb e [].
Proof. destruct e as [|b e]; [reflexivity|]. intros N. cbn. apply is_slash_false. intros ->. apply N. now left. Qed.

(** The tail of a path behind its first element. *)
Definition tail_ok (t : bytes) : Prop := t = [] \/ exists p, t = x2f :: p.

Lemma at_end_tail e t : tail_ok t -> ~ In x2f e -> at_end (e ++ t) = bytes_eqb e [].
Proof. intros [->|(p & ->)] N; [rewrite app_nil_r; now apply at_end_nil|now apply at_end_slash]. Qed.

Lemma at_end_t t : tail_ok t -> at_end t = true.
Proof. intros [->|(p & ->)]; reflexivity. Qed.

Lemma copy_element rooted e : ~ In x2f e -> forall t out dd, tail_ok t ->
  clean_loop rooted false (e ++ t) out dd = clean_loop rooted true t (rev e ++ out) dd.
Proof.
  induction e as [|b e IH]; intros N t out dd T.
  - cbn [app rev]. destruct T as [->|(p & ->)]; reflexivity.
  - cbn [app clean_loop rev]. assert (is_slash b = false) as -> by (apply is_slash_false; intros ->; apply N; now left).
    rewrite IH by (cbn in *; tauto || assumption). now rewrite <- app_assoc.
Qed.

Lemma clean_element rooted e t out dd : ~ In x2f e -> tail_ok t ->
  clean_loop rooted true (e ++ t) out dd =
  clean_loop rooted true t (fst (clean_step rooted (out, dd) e)) (snd (clean_step rooted (out, dd) e)).
Proof.
  intros N T. destruct e as [|b e]; [reflexivity|].
  assert (Nb : b <> x2f) by (intros ->; apply N; now left). assert (Ne : ~ In x2f e) by (intros X; apply N; now right).
  assert (Sb : is_slash b = false) by now apply is_slash_false.
  assert (D : forall p1, (forall c p2, p1 = c :: p2 -> Byte.eqb b dot && Byte.eqb c dot && at_end p2 = false) ->
              Byte.eqb b dot && at_end p1 = false ->
              clean_loop rooted true (b :: p1) out dd = clean_loop rooted false p1 (b :: sep rooted out) dd).
  { intros p1 Q1 Q2. cbn [clean_loop]. rewrite Sb, Q2. destruct p1 as [|c p2]; [reflexivity|]. rewrite (Q1 c p2 eq_refl). reflexivity. }
  unfold clean_step. change (bytes_eqb (b :: e) []) with false.
  change (bytes_eqb (b :: e) [dot]) with (Byte.eqb b dot && bytes_eqb e []). cbn [orb].
  change (bytes_eqb (b :: e) [dot; dot]) with (Byte.eqb b dot && bytes_eqb e [dot]).
  destruct (Byte.eqb b dot) eqn:Eb; cbn [andb].
  - apply eqb_dot in Eb. subst b. destruct e as [|c e].
    + cbn [bytes_eqb app]. cbn [clean_loop]. change (is_slash dot) with false.
      change (Byte.eqb dot dot) with true. cbn [andb]. rewrite (at_end_t t T). reflexivity.
    + change (bytes_eqb (c :: e) []) with false. cbv iota.
      assert (Nc : ~ In x2f e) by (cbn in *; tauto).
      assert (Q : at_end ((c :: e) ++ t) = false) by now rewrite at_end_tail.
      change (bytes_eqb (c :: e) [dot]) with (Byte.eqb c dot && bytes_eqb e []).
      destruct (Byte.eqb c dot && bytes_eqb e []) eqn:E2.
      * apply andb_true_iff in E2. destruct E2 as (E2 & E3). apply eqb_dot in E2. apply bytes_eqb_true in E3. subst c e.
        cbn [app clean_loop]. cbn [app] in Q. rewrite Q. change (is_slash dot) with false. change (Byte.eqb dot dot) with true. cbn [andb].
        rewrite (at_end_t t T).
        destruct (dd <? length out)%nat; [reflexivity|]. destruct rooted; reflexivity.
      * cbn [app]. rewrite D.
        -- change (c :: e ++ t) with ((c :: e) ++ t). rewrite copy_element by assumption. cbn [fst snd]. f_equal.
           change (rev (dot :: c :: e)) with (rev (c :: e) ++ [dot]). now rewrite <- app_assoc.
        -- intros c' p2 X. injection X as <- <-. rewrite at_end_tail by assumption.
           change (Byte.eqb dot dot) with true. exact E2.
        -- cbn [app] in Q. rewrite Q. apply andb_false_r.
  - cbn [app]. rewrite D.
    + rewrite copy_element by assumption. cbn [fst snd]. f_equal. cbn [rev]. now rewrite <- app_assoc.
    + intros c p2 _. reflexivity.
    + reflexivity.
Qed.

Lemma clean_elements rooted p : forall out dd,
  clean_loop rooted true p out dd = fst (fold_left (clean_step rooted) (elements p) (out, dd)).
Proof.
  pose proof (proj2 (parts_elements p (elements p)) eq_refl) as P. remember (elements p) as es eqn:E. clear E.
  induction P as [e N|e p es N P IH]; intros out dd.
  - rewrite <- (app_nil_r e) at 1. rewrite clean_element by (auto; now left).
    cbn [clean_loop fold_left]. reflexivity.
  - rewrite clean_element by (auto; right; eauto). cbn [clean_loop fold_left]. change (is_slash x2f) with true. cbv iota.
    rewrite IH. now rewrite <- surjective_pairing.
Qed.

(** ** The output of Clean *)
Fixpoint between (es : list bytes) : bytes :=
  match es with
  | [] => []
  | [e] => e
  | e :: es' => e ++ slash :: between es'
  end.

Lemma between_snoc es e : between (es ++ [e]) = match es with [] => e | _ => between es ++ slash :: e end.
Proof.
  induction es as [|x es IH]; [reflexivity|]. destruct es as [|y es]; [reflexivity|].
  change ((x :: y :: es) ++ [e]) with (x :: ((y :: es) ++ [e])).
  change (between (x :: (y :: es) ++ [e])) with (x ++ slash :: between ((y :: es) ++ [e])).
  rewrite IH. change (between (x :: y :: es)) with (x ++ slash :: between (y :: es)). now rewrite <- app_assoc.
Qed.

Lemma elements_between es : es <> [] -> Forall (fun e => ~ In x2f e) es -> elements (between es) = es.
Proof.
  induction es as [|e es IH]; intros N F; [congruence|]. inversion F; subst. destruct es as [|y es]; [now apply elements_one|].
  change (between (e :: y :: es)) with (e ++ slash :: between (y :: es)). unfold slash. rewrite elements_more by assumption.
  now rewrite IH by (auto; discriminate).
Qed.

Definition ups (k : nat) : list bytes := repeat [dot; dot] k.

(** What has been written for [k] steps up and the names [xs]. *)
Definition written (rooted : bool) (k : nat) (xs : list bytes) : bytes :=
  if rooted then slash :: between xs else between (ups k ++ xs).

Definition mark (rooted : bool) (k : nat) : nat := if rooted then 1 else length (between (ups k)).

Definition name_ok (e : bytes) : Prop := plain e.

Lemma plain_free e : plain e -> ~ In x2f e.
Proof. intros (_ & N & _). exact N. Qed.

Lemma between_length_pos es : es <> [] -> Forall (fun e => e <> []) es -> 0 < length (between es).
Proof.
  destruct es as [|e es]; intros N F; [congruence|]. inversion F; subst.
  destruct es; cbn [between]; rewrite ?app_length; destruct e; cbn; try congruence; lia.
Qed.

Lemma between_app xs ys : xs <> [] -> ys <> [] -> between (xs ++ ys) = between xs ++ slash :: between ys.
Proof.
  intros Nx Ny. destruct ys as [|y ys _] using rev_ind; [congruence|]. clear Ny. revert y. induction ys as [|z ys IH] using rev_ind; intros y.
  - cbn [app]. rewrite between_snoc. destruct xs; [congruence|reflexivity].
  - rewrite app_assoc, between_snoc. destruct (xs ++ ys ++ [z]) eqn:E; [destruct xs; [congruence|discriminate]|]. rewrite <- E, IH.
    rewrite (between_snoc (ys ++ [z]) y). destruct (ys ++ [z]) eqn:E2; [destruct ys; discriminate|]. rewrite <- E2, <- app_assoc. reflexivity.
Qed.

Lemma back_go dd x : ~ In x2f x -> x <> [] -> forall out, dd <= length out ->
  back dd (rev x ++ slash :: out) = out.
Proof.
  intros N Nx out L. destruct x as [|b x]; [congruence|]. clear Nx.
  assert (G : forall y, ~ In x2f y -> y <> [] \/ y = [] -> back dd (y ++ slash :: out) = (if y then out else out)).
  { induction y as [|c y IH]; intros Ny _.
    - cbn [app back]. change (is_slash slash) with true. cbn [negb]. rewrite andb_false_r. reflexivity.
    - cbn [app back]. assert (is_slash c = false) as -> by (apply is_slash_false; intros ->; apply Ny; now left).
      assert ((dd <? length (y ++ slash :: out))%nat = true) as -> by (apply Nat.ltb_lt; rewrite app_length; cbn; lia).
      cbn [negb andb]. rewrite IH; [now destruct y|intros X; apply Ny; now right|destruct y; auto; left; discriminate]. }
  rewrite G; [now destruct (rev (b :: x))|rewrite <- in_rev; exact N|destruct (rev (b :: x)); auto; left; discriminate].
Qed.

Lemma back_only dd x out : ~ In x2f x -> x <> [] -> length out = dd -> back dd (rev x ++ out) = out.
Proof.
  intros N Nx L.
  assert (G : forall y, ~ In x2f y -> y <> [] -> back dd (y ++ out) = out).
  { induction y as [|c y IH]; intros Ny Nn; [congruence|].
    cbn [app back]. assert (is_slash c = false) as -> by (apply is_slash_false; intros ->; apply Ny; now left). cbn [negb]. rewrite andb_true_r.
    destruct y as [|d y]; [cbn [app]; rewrite L, Nat.ltb_irrefl; reflexivity|].
    assert ((dd <? length ((d :: y) ++ out))%nat = true) as -> by (apply Nat.ltb_lt; rewrite app_length; cbn; lia).
    apply IH; [intros X; apply Ny; now right|discriminate]. }
  apply G; [rewrite <- in_rev; exact N|]. destruct x as [|b x] using rev_ind; [congruence|]. rewrite rev_app_distr. discriminate.
Qed.

Lemma ups_ne k : Forall (fun e : bytes => e <> []) (ups k).
Proof. induction k; constructor; [discriminate|assumption]. Qed.
Lemma ups_free k : Forall (fun e : bytes => ~ In x2f e) (ups k).
Proof. induction k; constructor; [cbn; intuition discriminate|assumption]. Qed.
Lemma plain_ne xs : Forall plain xs -> Forall (fun e : bytes => e <> []) xs.
Proof. apply Forall_impl. intros e P. apply P. Qed.
Lemma ups_snoc k : ups (S k) = ups k ++ [[dot; dot]].
Proof. unfold ups. induction k as [|k IH]; [reflexivity|]. cbn [repeat app] in *. now rewrite IH at 1. Qed.

Lemma written_length rooted k xs : Forall plain xs ->
  (mark rooted k <? length (written rooted k xs))%nat = match xs with [] => false | _ => true end.
Proof.
  intros F. unfold mark, written. destruct xs as [|x xs].
  - destruct rooted; [reflexivity|]. rewrite app_nil_r. apply Nat.ltb_irrefl.
  - assert (L : 0 < length (between (x :: xs))) by (apply between_length_pos; [discriminate|now apply plain_ne]).
    apply Nat.ltb_lt. destruct rooted; [cbn [length]; lia|]. destruct (ups k) as [|u us] eqn:E; [cbn [app between length] in *; lia|].
    rewrite between_app by discriminate. rewrite app_length. cbn [length]. lia.
Qed.

Lemma clean_step_inv rooted k xs start e : Forall plain xs -> ~ In x2f e ->
  (rooted = true -> k = 0 /\ start = []) ->
  exists k' xs', clean_step rooted (rev (written rooted k xs), mark rooted k) e = (rev (written rooted k' xs'), mark rooted k') /\
    Forall plain xs' /\ (rooted = true -> k' = 0 /\ start = []) /\
    fold_left go (ups k' ++ xs') start = go (fold_left go (ups k ++ xs) start) e.
Proof.
  intros F N R. unfold clean_step. rewrite !rev_length, written_length by assumption.
  assert (Ge : go (fold_left go (ups k ++ xs) start) e =
    if bytes_eqb e [] || bytes_eqb e [dot] then fold_left go (ups k ++ xs) start
    else if bytes_eqb e [dot; dot] then removelast (fold_left go (ups k ++ xs) start)
    else fold_left go (ups k ++ xs) start ++ [e]) by reflexivity.
  rewrite Ge. clear Ge.
  destruct (bytes_eqb e [] || bytes_eqb e [dot]) eqn:E1; [exists k, xs; auto|].
  apply orb_false_iff in E1. rewrite !bytes_eqb_false in E1. destruct E1 as (E1 & E2).
  destruct (bytes_eqb e [dot; dot]) eqn:E3.
  - destruct xs as [|x xs _] using rev_ind.
    + destruct rooted.
      * destruct (R eq_refl) as (-> & ->). exists 0, []. auto.
      * exists (S k), []. cbv iota. rewrite !app_nil_r. rewrite ups_snoc, fold_left_app. cbn [fold_left].
        split; [|split; [constructor|split; [discriminate|reflexivity]]].
        assert (W : dot :: dot :: (if (0 <? length (written false k []))%nat then slash :: rev (written false k []) else rev (written false k [])) =
                    rev (written false (S k) [])).
        { unfold written. rewrite !app_nil_r, ups_snoc, between_snoc. destruct (ups k) as [|u us] eqn:E; [reflexivity|].
          assert (0 < length (between (u :: us))) as L by (apply between_length_pos; [discriminate|rewrite <- E; apply ups_ne]).
          apply Nat.ltb_lt in L. rewrite L. change (slash :: [dot; dot]) with ([slash; dot; dot]). rewrite rev_app_distr. reflexivity. }
        rewrite W. f_equal. rewrite rev_length. unfold written, mark. now rewrite app_nil_r.
    + assert (M : match xs ++ [x] with [] => false | _ => true end = true) by (destruct xs; reflexivity). rewrite M. clear M.
      apply Forall_app in F. destruct F as (F & Fx). inversion Fx as [|? ? Px _]; subst.
      exists k, xs. split; [|split; [exact F|split; [exact R|]]].
      * f_equal. unfold written, mark. destruct rooted.
        -- rewrite between_snoc. destruct xs as [|y xs].
           ++ cbn [rev]. rewrite back_only; [reflexivity|now apply plain_free|apply Px|reflexivity].
           ++ change (slash :: between (y :: xs) ++ slash :: x) with ((slash :: between (y :: xs)) ++ slash :: x).
              rewrite rev_app_distr. cbn [rev]. rewrite <- !app_assoc. cbn [app].
              rewrite back_go; [reflexivity|now apply plain_free|apply Px|rewrite app_length; cbn; lia].
        -- rewrite app_assoc, between_snoc. destruct (ups k ++ xs) as [|y ys] eqn:E.
           ++ destruct k; [|discriminate]. destruct xs; [|discriminate]. cbn [ups repeat between app length rev].
              rewrite <- (app_nil_r (rev x)). apply back_only; [now apply plain_free|apply Px|reflexivity].
           ++ rewrite <- E, rev_app_distr. cbn [rev]. rewrite <- app_assoc. cbn [app].
              apply back_go; [now apply plain_free|apply Px|]. rewrite rev_length. destruct xs as [|z zs]; [rewrite app_nil_r; lia|].
              destruct k; [cbn; lia|]. rewrite between_app by discriminate. rewrite app_length. lia.
      * rewrite app_assoc, (fold_left_app go (ups k ++ xs) [x]). cbn [fold_left]. rewrite go_plain by assumption. now rewrite removelast_snoc.
  - apply bytes_eqb_false in E3. assert (P : plain e) by (repeat split; assumption).
    exists k, (xs ++ [e]). split; [|split; [apply Forall_app; auto|split; [exact R|]]].
    + f_equal. unfold sep. rewrite !rev_length. unfold written. destruct rooted.
      * rewrite between_snoc. destruct xs as [|y xs]; [cbn [rev between length Nat.eqb negb app]; rewrite ?rev_app_distr; reflexivity|].
        assert (L : 0 < length (between (y :: xs))) by (apply between_length_pos; [discriminate|now apply plain_ne]).
        assert ((length (slash :: between (y :: xs)) =? 1)%nat = false) as -> by (apply Nat.eqb_neq; cbn [length]; lia). cbn [negb].
        change (slash :: between (y :: xs) ++ slash :: e) with ((slash :: between (y :: xs)) ++ slash :: e). rewrite rev_app_distr. cbn [rev].
        rewrite <- !app_assoc. reflexivity.
      * rewrite app_assoc, between_snoc. destruct (ups k ++ xs) as [|y ys] eqn:E; [cbn; now rewrite app_nil_r|].
        assert (L : 0 < length (between (y :: ys))).
        { apply between_length_pos; [discriminate|]. rewrite <- E. apply Forall_app. split; [apply ups_ne|now apply plain_ne]. }
        assert ((length (between (y :: ys)) =? 0)%nat = false) as -> by (apply Nat.eqb_neq; lia). cbn [negb].
        rewrite rev_app_distr. cbn [rev]. rewrite <- app_assoc. reflexivity.
    + rewrite app_assoc, fold_left_app. cbn [fold_left]. now rewrite go_plain.
Qed.

Lemma clean_steps rooted start es : Forall (fun e => ~ In x2f e) es -> forall k xs, Forall plain xs ->
  (rooted = true -> k = 0 /\ start = []) ->
  exists k' xs', fold_left (clean_step rooted) es (rev (written rooted k xs), mark rooted k) = (rev (written rooted k' xs'), mark rooted k') /\
    Forall plain xs' /\ (rooted = true -> k' = 0 /\ start = []) /\
    fold_left go (ups k' ++ xs') start = fold_left go es (fold_left go (ups k ++ xs) start).
Proof.
  induction 1 as [|e es N F IH]; intros k xs P R; cbn [fold_left]; [exists k, xs; auto|].
  destruct (clean_step_inv rooted k xs start e P N R) as (k1 & xs1 & E & P1 & R1 & G). rewrite E, <- G. now apply IH.
Qed.

Lemma rev_match (w : bytes) : match rev w with [] => [dot] | _ => w end = match w with [] => [dot] | b :: l => b :: l end.
Proof.
  destruct w as [|b w]; [reflexivity|]. destruct (rev (b :: w)) eqn:E; [|reflexivity].
  apply (f_equal (@length byte)) in E. rewrite rev_length in E. discriminate.
Qed.

(** Clean does not change where a path leads; its result has its ".." in front. *)
Lemma clean_shape cwd p : exists rooted k xs, Forall plain xs /\ (rooted = true -> k = 0) /\
  clean p = (match written rooted k xs with [] => [dot] | w => w end) /\
  resolve cwd p = fold_left go (ups k ++ xs) (if rooted then [] else cwd).
Proof.
  destruct p as [|b p].
  { exists false, 0, []. repeat split; try constructor; discriminate. }
  unfold clean, resolve. destruct (is_slash b) eqn:E.
  - cbv zeta iota. rewrite clean_elements. destruct (clean_steps true [] (elements p) (elements_free p) 0 [] ltac:(constructor) ltac:(auto)) as (k & xs & Es & P & R & G).
    change (rev (written true 0 []), mark true 0) with ([slash] : bytes, 1) in Es. rewrite Es. cbn [fst]. rewrite rev_involutive.
    exists true, k, xs. split; [exact P|]. split; [apply R|]. split.
    + apply rev_match.
    + rewrite G. cbn [fold_left ups repeat app]. cbn [elements]. rewrite E. reflexivity.
  - cbv zeta iota. rewrite clean_elements. destruct (clean_steps false cwd (elements (b :: p)) (elements_free (b :: p)) 0 [] ltac:(constructor) ltac:(discriminate)) as (k & xs & Es & P & R & G).
    change (rev (written false 0 []), mark false 0) with ([] : bytes, 0) in Es. rewrite Es. cbn [fst]. rewrite rev_involutive.
    exists false, k, xs. split; [exact P|]. split; [discriminate|]. split.
    + apply rev_match.
    + rewrite G. reflexivity.
Qed.

Lemma resolve_written cwd rooted k xs : Forall plain xs -> (rooted = true -> k = 0) ->
  resolve cwd (match written rooted k xs with [] => [dot] | w => w end) =
  fold_left go (ups k ++ xs) (if rooted then [] else cwd).
Proof.
  intros P R. unfold written. destruct rooted.
  - rewrite R by reflexivity. unfold resolve. change (is_slash slash) with true. cbv iota. cbn [elements].
    change (is_slash slash) with true. cbv iota. cbn [fold_left ups repeat app]. change (go [] []) with (@nil bytes).
    destruct xs as [|x xs]; [reflexivity|]. rewrite elements_between; [reflexivity|discriminate|].
    eapply Forall_impl; [|exact P]. intros; now apply plain_free.
  - destruct (ups k ++ xs) as [|y ys] eqn:E; [reflexivity|].
    assert (F : Forall (fun e => ~ In x2f e) (y :: ys)).
    { rewrite <- E. apply Forall_app. split; [apply ups_free|]. eapply Forall_impl; [|exact P]. intros; now apply plain_free. }
    assert (Ne : Forall (fun e : bytes => e <> []) (y :: ys)).
    { rewrite <- E. apply Forall_app. split; [apply ups_ne|now apply plain_ne]. }
    assert (S0 : exists b w, between (y :: ys) = b :: w /\ is_slash b = false).
    { inversion Ne; subst. inversion F; subst. destruct y as [|b y]; [congruence|].
      assert (is_slash b = false) by (apply is_slash_false; intros ->; firstorder).
      destruct ys; cbn; eauto. }
    destruct S0 as (b & w & Eb & Sb). rewrite Eb. unfold resolve. rewrite Sb, <- Eb. rewrite elements_between by (auto; discriminate). reflexivity.
Qed.

Theorem clean_resolve cwd p : resolve cwd (clean p) = resolve cwd p.
Proof.
  destruct (clean_shape cwd p) as (r & k & xs & P & R & -> & ->). now apply resolve_written.
Qed.

Lemma clean_ne p : clean p <> [].
Proof.
  destruct (clean_shape [] p) as (r & k & xs & _ & _ & -> & _). destruct (written r k xs); discriminate.
Qed.

(** Joining is going on from the directory, whatever the name begins with. *)
Theorem join_resolve cwd dir n : dir <> [] ->
  resolve cwd (join dir n) = fold_left go (elements n) (resolve cwd dir).
Proof.
  intros D. destruct dir as [|b dir]; [congruence|]. clear D.
  assert (E : join (b :: dir) n = clean ((b :: dir) ++ slash :: n)) by (destruct n; reflexivity).
  rewrite E, clean_resolve. unfold resolve. rewrite elements_app, fold_left_app. cbn [app]. reflexivity.
Qed.

Lemma join_ne dir n : dir <> [] -> join dir n <> [].
Proof.
  intros D. destruct dir as [|b dir]; [congruence|].
  assert (E : join (b :: dir) n = clean ((b :: dir) ++ slash :: n)) by (destruct n; reflexivity).
  rewrite E. apply clean_ne.
Qed.

Lemma join_plain cwd dir n : dir <> [] -> plain n -> resolve cwd (join dir n) = resolve cwd dir ++ [n].
Proof.
  intros D P. rewrite join_resolve by assumption. rewrite elements_one by (now apply plain_free). cbn. now apply go_plain.
Qed.
