(** Proofs about queries. *)
From Coq Require Import List Arith Bool Lia.
From Verif Require Import Base BaseLemmas AstModel SpecAst InterpModel InterpProofs QueryModel SpecQuery.
Import ListNotations.

(** ** Heights *)
Fixpoint height (t : tree) : nat := let 'Tree _ b _ _ := t in S (list_max (map lheight b))
with lheight (l : tline) : nat := let 'TLine _ _ _ es := l in list_max (map eheight es)
with eheight (e : telement) : nat := let 'TElement _ cs := e in list_max (map cheight cs)
with cheight (c : tcontent) : nat := match c with TValue _ _ => 0 | TTree t => height t end.

Lemma list_max_in {A} (f : A -> nat) l x : In x l -> f x <= list_max (map f l).
Proof.
  intros I. pose proof (proj1 (list_max_le (map f l) (list_max (map f l))) (le_n _)) as F.
  rewrite Forall_forall in F. apply F. now apply in_map.
Qed.

Lemma content_height t l e u : successful (tr_block t) = Some l -> In e (l_elements l) -> In (TTree u) (el_contents e) ->
  height u < height t.
Proof.
  intros Es Ie Iu. destruct t as [g b s r]. cbn [tr_block] in Es. apply find_some in Es as (Il & _).
  apply (list_max_in lheight) in Il. cbn [height]. destruct l as [i lg rv es]. cbn [l_elements] in Ie.
  apply (list_max_in eheight) in Ie. destruct e as [eg cs]. cbn [el_contents] in Iu.
  apply (list_max_in cheight) in Iu. cbn [lheight eheight cheight] in *. lia.
Qed.

(** ** Selection *)
Lemma refine_spec k cs : refined k cs (token_refine k cs).
Proof.
  unfold token_refine. destruct (k_content k) as [i|] eqn:E; [|now constructor].
  destruct (nth_error cs i) as [c|] eqn:En.
  - apply nth_error_split in En as (l1 & l2 & -> & L). eapply refined_one; eauto.
  - apply nth_error_None in En. eapply refined_short; eauto.
Qed.

Lemma refine_in k cs o : refined k cs (Ok o) -> forall c, In c o -> In c cs.
Proof.
  inversion 1; subst; auto. intros x [<- |[]]. rewrite in_app_iff. cbn. auto.
Qed.

Definition plains (es : list telement) : Prop := forall e, In e es -> el_grammar e <> None.

Lemma loop_spec k : forall es cpt, cpt <= k_index k ->
  (exists l1 e l2, filter (answers k) es = l1 ++ e :: l2 /\ cpt + length l1 = k_index k /\ plains l1 /\
     refined k (el_contents e) (elements_loop k es cpt)) \/
  (cpt + length (filter (answers k) es) <= k_index k /\ plains (filter (answers k) es) /\ elements_loop k es cpt = Ok []) \/
  (exists l1 e l2, filter (answers k) es = l1 ++ e :: l2 /\ cpt + length l1 < k_index k /\ el_grammar e = None /\
     elements_loop k es cpt = Panic).
Proof.
  induction es as [|e es IH]; intros cpt L.
  - right; left. cbn. rewrite Nat.add_0_r. split; [lia|]. split; auto. intros x [].
  - cbn [filter elements_loop]. destruct (answers k e) eqn:Ea; unfold answers in Ea;
      destruct (el_grammar e) as [c|] eqn:Eg; rewrite Ea.
    + destruct (k_index k =? cpt) eqn:Ei.
      * apply Nat.eqb_eq in Ei. left. exists [], e, (filter (answers k) es). cbn. split; auto. split; [lia|].
        split; [intros x []|]. apply refine_spec.
      * apply Nat.eqb_neq in Ei. destruct (IH (S cpt)) as [(l1 & e1 & l2 & A & B & C & D)|[(A & B & C)|(l1 & e1 & l2 & A & B & C & D)]]; [lia| | |].
        -- left. exists (e :: l1), e1, l2. rewrite A. cbn. split; auto. split; [lia|]. split; auto.
           intros x [<- |I]; [congruence|auto].
        -- right; left. cbn. split; [lia|]. split; auto. intros x [<- |I]; [congruence|auto].
        -- right; right. exists (e :: l1), e1, l2. rewrite A. cbn. split; auto. split; [lia|]. auto.
    + destruct (k_index k =? cpt) eqn:Ei.
      * apply Nat.eqb_eq in Ei. left. exists [], e, (filter (answers k) es). cbn. split; auto. split; [lia|].
        split; [intros x []|]. apply refine_spec.
      * apply Nat.eqb_neq in Ei. right; right. exists [], e, (filter (answers k) es). cbn. repeat split; auto. lia.
    + apply IH; assumption.
    + apply IH; assumption.
Qed.

Lemma contents_spec k t : selection k t (query_contents k t).
Proof.
  unfold query_contents. destruct (bytes_eqb (k_name k) (t_name (tr_grammar t))) eqn:En.
  - apply bytes_eqb_true in En. destruct (successful (tr_block t)) as [l|] eqn:Es; [|now apply sel_failed].
    destruct (loop_spec k (l_elements l) 0 (Nat.le_0_l _)) as [(l1 & e1 & l2 & A & B & C & D)|[(A & B & C)|(l1 & e1 & l2 & A & B & C & D)]].
    + eapply sel_found; eauto.
    + rewrite C. eapply sel_nothing; eauto.
    + rewrite D. eapply sel_panic; eauto.
  - apply sel_name. intros E. rewrite E, bytes_eqb_refl in En. discriminate.
Qed.

Lemma app_inj_length {A} : forall (l1 l1' l2 l2' : list A), length l1 = length l1' -> l1 ++ l2 = l1' ++ l2' -> l1 = l1' /\ l2 = l2'.
Proof.
  induction l1 as [|x l1 IH]; intros [|y l1'] l2 l2' L E; try discriminate; auto.
  cbn in E. injection E as <- E. injection L as L. destruct (IH _ _ _ L E). subst. auto.
Qed.

Lemma refined_fun k cs o o' : refined k cs o -> refined k cs o' -> o = o'.
Proof.
  inversion 1; inversion 1; subst; try congruence.
  - match goal with E : _ ++ _ = _ ++ _ |- _ => apply app_inj_length in E; [destruct E; congruence|congruence] end.
  - match goal with L : length (_ ++ _) <= _ |- _ => rewrite app_length in L; cbn in L end.
    match goal with A : k_content k = Some ?i, B : k_content k = Some ?j |- _ => assert (i = j) by congruence end. lia.
  - match goal with L : length (_ ++ _) <= _ |- _ => rewrite app_length in L; cbn in L end.
    match goal with A : k_content k = Some ?i, B : k_content k = Some ?j |- _ => assert (i = j) by congruence end. lia.
Qed.

Lemma nth_split {A} (l l1 l2 : list A) x n : l = l1 ++ x :: l2 -> length l1 = n -> nth_error l n = Some x.
Proof. intros -> <-. rewrite nth_error_app2, Nat.sub_diag; auto. Qed.

Lemma split_late {A} (l l1 l2 : list A) e : l = l1 ++ e :: l2 -> length l <= length l1 -> False.
Proof. intros -> L. rewrite app_length in L. cbn in L. lia. Qed.

Lemma split_early {A} (l l1 l2 m1 m2 : list A) e e' : l = l1 ++ e :: l2 -> l = m1 ++ e' :: m2 -> length l1 < length m1 -> In e m1.
Proof.
  intros -> E L. apply (nth_error_In m1 (length l1)).
  rewrite <- (nth_error_app1 m1 (e' :: m2)) by auto. rewrite <- E. eapply nth_split; eauto.
Qed.

Lemma split_in {A} (l l1 l2 : list A) e : l = l1 ++ e :: l2 -> In e l.
Proof. intros ->. rewrite in_app_iff. cbn. auto. Qed.

Lemma selection_fun k t o o' : selection k t o -> selection k t o' -> o = o'.
Proof.
  intros S1 S2.
  destruct S1 as [N|N F|l l1 e l2 o N F A L C R|l N F L C|l l1 e l2 N F A L C];
  destruct S2 as [N'|N' F'|l' l1' e' l2' o' N' F' A' L' C' R'|l' N' F' L' C'|l' l1' e' l2' N' F' A' L' C'];
    try congruence; try (rewrite F in F'; injection F' as <-).
  - rewrite A in A'. apply app_inj_length in A' as (<- & E); [|congruence].
    injection E as <- <-. eapply refined_fun; eauto.
  - exfalso. eapply split_late; [exact A|]. lia.
  - exfalso. eapply (C e'); auto. eapply split_early; [exact A'|exact A|lia].
  - exfalso. eapply split_late; [exact A'|]. lia.
  - exfalso. apply (C e'); auto. eapply split_in; eauto.
  - exfalso. eapply (C' e); auto. eapply split_early; [exact A|exact A'|lia].
  - exfalso. apply (C' e); auto. eapply split_in; eauto.
Qed.

Lemma selection_real k t : ~ selection k t Fuel.
Proof.
  intros S. inversion S; subst. match goal with R : refined _ _ Fuel |- _ => inversion R end.
Qed.

Lemma contents_iff k t o : selection k t o <-> query_contents k t = o.
Proof.
  split; intros H.
  - eapply selection_fun; eauto. apply contents_spec.
  - subst o. apply contents_spec.
Qed.

Lemma selection_in k t cs u : selection k t (Ok cs) -> In (TTree u) cs ->
  exists l e, successful (tr_block t) = Some l /\ In e (l_elements l) /\ In (TTree u) (el_contents e).
Proof.
  intros S I. inversion S as [| |l l1 e l2 o N F A L C R|l N F L C E|]; subst.
  - exists l, e. split; auto. split.
    + apply split_in in A. unfold answering in A. now apply filter_In in A.
    + eapply refine_in; eauto.
  - destruct I.
Qed.

Lemma selection_height k t cs u : selection k t (Ok cs) -> In (TTree u) cs -> height u < height t.
Proof. intros S I. destruct (selection_in _ _ _ _ S I) as (l & e & A & B & C). eapply content_height; eauto. Qed.

Lemma height_pos t : 1 <= height t.
Proof. destruct t. cbn [height]. lia. Qed.

(** ** Execution *)
Section Exec.
Context {V W : Type}.
Variable vnil : V.
Notation query := (query V W).
Notation fetcher := (fetcher V W).
Notation st := (st V W).

Definition known (r : query) (s : st) : Prop := forall n q, mget n (fst s) = Some q -> subquery r q /\ name q = n.

Lemma known_nil r w : known r ([], w).
Proof. intros n q. discriminate. Qed.

Lemma known_set r q s : known r s -> subquery r q -> known r (mset (k_name (q_token q)) q (fst s), snd s).
Proof.
  intros K Q n q'. cbn [fst]. rewrite mget_mset. destruct (bytes_eqb n _) eqn:E.
  - injection 1 as <-. apply bytes_eqb_true in E. auto.
  - apply K.
Qed.

Lemma known_world r m w w' : known r (m, w) -> known r (m, w').
Proof. auto. Qed.

Lemma known_run r call q fs f t s : subquery r q -> q_inside q = IFetchers fs -> In f fs -> known r s ->
  fetcher_run call f t s = (Err, s) \/ exists q', subquery r q' /\ fetcher_run call f t s = call q' t s.
Proof.
  intros Q E I K. destruct f as [n|q']; cbn [fetcher_run].
  - destruct (mget n (fst s)) as [q'|] eqn:G; auto. right. exists q'. split; auto. now apply K in G.
  - right. exists q'. split; auto. eapply sub_step; eauto.
Qed.

(** An invariant, and what follows from a panic or from no fuel, through the loops. *)
Section Loops.
Variable call : query -> tree -> st -> outcome (V * bool) * st.
Variable I : st -> Prop.
Variable P F : Prop.
Variable fs : list fetcher.

Definition safe {A} (x : outcome A * st) : Prop := I (snd x) /\ (fst x = Panic -> P) /\ (fst x = Fuel -> F).

Lemma safe_bind {A B} (m : outcome A * st) (k : A -> st -> outcome B * st) :
  safe m -> (forall a s, I s -> safe (k a s)) -> safe (qbind m k).
Proof.
  intros (A1 & A2 & A3) K. destruct m as [[a| | |] s]; cbn [qbind fst snd] in *; auto; split; auto; cbn [fst];
    split; intros; try discriminate; auto.
Qed.

Lemma safe_ok {A} (a : A) s : I s -> safe (Ok a, s).
Proof. intros Is. split; auto. cbn. split; intros; discriminate. Qed.

Lemma rows_safe cs : (forall t f s, In (TTree t) cs -> In f fs -> I s -> safe (fetcher_run call f t s)) ->
  forall s, I s -> safe (rows_run call fs cs s).
Proof.
  induction cs as [|c cs IH]; intros H s Is; cbn [rows_run]; [now apply safe_ok|].
  apply safe_bind.
  - destruct c as [b p|t].
    + assert (R : forall l, row_run call l (TValue b p) s = (Ok [], s)) by (induction l; cbn [row_run]; auto).
      rewrite R. now apply safe_ok.
    + assert (G : forall l, incl l fs -> forall s, I s -> safe (row_run call l (TTree t) s)).
      { induction l as [|f l IHl]; intros L s' Is'; cbn [row_run]; [now apply safe_ok|].
        apply safe_bind; [apply H; cbn; auto; apply L; cbn; auto|]. intros [v ok] s1 I1.
        apply safe_bind; [apply IHl; auto; intros x X; apply L; cbn; auto|]. intros vs s2 I2. now apply safe_ok. }
      apply G; auto. apply incl_refl.
  - intros vs s1 I1. apply safe_bind; [apply IH; auto; intros; apply H; cbn; auto|]. intros. now apply safe_ok.
Qed.
End Loops.

Lemma rows_ext call call' (fs : list fetcher) cs :
  (forall q t s, In (TTree t) cs -> call q t s = call' q t s) -> forall s, rows_run call fs cs s = rows_run call' fs cs s.
Proof.
  intros H. induction cs as [|c cs IH]; intros s; cbn [rows_run]; auto.
  assert (G : forall l s, row_run call l c s = row_run call' l c s).
  { induction l as [|f l IHl]; intros s'; cbn [row_run]; auto. destruct c as [b p|t]; auto.
    assert (E : fetcher_run call f t s' = fetcher_run call' f t s').
    { destruct f as [n|q]; cbn [fetcher_run]; [destruct (mget n (fst s')); auto|]; apply H; cbn; auto. }
    rewrite E. destruct (fetcher_run call' f t s') as [[r| | |] s1]; cbn [qbind]; auto. rewrite IHl. reflexivity. }
  rewrite G. destruct (row_run call' fs c s) as [[r| | |] s1]; cbn [qbind]; auto.
  rewrite IH; auto. intros q t s2 I2. apply H. cbn. auto.
Qed.

Lemma fetch_eq n (q : query) t s : query_fetch vnil (S n) q t s =
  match query_contents (q_token q) t with
  | Ok cs => query_instance vnil (query_fetch vnil n) q cs (mset (k_name (q_token q)) q (fst s), snd s)
  | Err => (Err, s)
  | Panic => (Panic, s)
  | Fuel => (Fuel, s)
  end.
Proof. reflexivity. Qed.

Lemma fetch_fuel : forall n m (q : query) t s, height t <= n -> height t <= m ->
  query_fetch vnil n q t s = query_fetch vnil m q t s.
Proof.
  induction n as [|n IH]; intros m q t s Ln Lm; pose proof (height_pos t) as Hp; [lia|].
  destruct m as [|m]; [lia|]. rewrite !fetch_eq. destruct (query_contents (q_token q) t) as [cs| | |] eqn:E; auto.
  apply contents_iff in E. unfold query_instance.
  assert (X : forall s, inside_instances (query_fetch vnil n) (q_inside q) cs s = inside_instances (query_fetch vnil m) (q_inside q) cs s).
  { intros s'. destruct (q_inside q) as [f|f|fs]; cbn [inside_instances]; auto. apply rows_ext.
    intros q' u s2 I. pose proof (selection_height _ _ _ _ E I). apply IH; lia. }
  now rewrite X.
Qed.

Lemma execute_fuel n m (q : query) t w : height t <= n -> height t <= m -> query_execute vnil n q t w = query_execute vnil m q t w.
Proof. intros. unfold query_execute. rewrite (fetch_fuel n m) by auto. reflexivity. Qed.

Lemma lift_real {A B} (f : ufn W A B) a (s : st) : real f -> fst (lift f a s) <> Fuel.
Proof. intros R. specialize (R a (snd s)). unfold lift. destruct (f a (snd s)). exact R. Qed.

Lemma lift_map {A B} (f : ufn W A B) a (s : st) : fst (snd (lift f a s)) = fst s.
Proof. unfold lift. destruct (f a (snd s)). reflexivity. Qed.

Lemma known_lift r {A B} (f : ufn W A B) a s : known r s -> known r (snd (lift f a s)).
Proof. intros K n q. rewrite lift_map. apply K. Qed.

Lemma below_trans t u v : below t u -> below u v -> below t v.
Proof. intros A B. induction B; auto. eapply below_step; eauto. Qed.

Lemma selection_below k t cs u : selection k t (Ok cs) -> In (TTree u) cs -> below t u.
Proof. intros S I. destruct (selection_in _ _ _ _ S I) as (l & e & A & B & C). eapply below_step; eauto. apply below_refl. Qed.

Lemma fetch_safe (r : query) : real_query r -> forall n q t s, subquery r q -> known r s ->
  safe (known r) (calm_query r -> exists q' t', subquery r q' /\ below t t' /\ blames q' t') (n < height t)
    (query_fetch vnil n q t s).
Proof.
  intros R. induction n as [|n IH]; intros q t s Q K.
  - cbn. split; auto. cbn. split; [discriminate|]. intros _. pose proof (height_pos t). lia.
  - rewrite fetch_eq. pose proof (contents_spec (q_token q) t) as S.
    destruct (query_contents (q_token q) t) as [cs| | |] eqn:Ec.
    + pose proof (known_set _ _ _ K Q) as K1. set (s1 := (mset _ q (fst s), snd s)) in *. clearbody s1. clear s K.
      destruct (R q Q) as (Ri & Rf). unfold query_instance.
      assert (C : calm_query r -> match q_inside q with ISingle f => calm f | IMulti f => calm f | IFetchers _ => True end /\
        match q_fn q with QSingle f => calm f | QMulti f => calm f end) by (intros C; now apply C).
      apply safe_bind.
      * destruct (q_inside q) as [f|f|fs] eqn:Ei; cbn [inside_instances].
        -- destruct cs as [|c cs].
           ++ split; auto. cbn [fst]. split; [|discriminate]. intros _ _. exists q, t. split; auto. split; [apply below_refl|].
              right. split; eauto.
           ++ split; [now apply known_lift|]. split.
              ** intros E Cq. destruct (C Cq) as (Cf & _). exfalso. destruct (Cf c (snd s1)) as (X & _). apply X.
                 unfold lift in E. destruct (f c (snd s1)). exact E.
              ** intros E. exfalso. eapply lift_real; eauto.
        -- split; [now apply known_lift|]. split.
           ++ intros E Cq. destruct (C Cq) as (Cf & _). exfalso. destruct (Cf cs (snd s1)) as (X & _). apply X.
              unfold lift in E. destruct (f cs (snd s1)). exact E.
           ++ intros E. exfalso. eapply lift_real; eauto.
        -- apply rows_safe; auto. intros u f s2 Iu If K2.
           destruct (known_run r (query_fetch vnil n) q fs f u s2 Q Ei If K2) as [E|(q' & Q' & E)]; rewrite E.
           ++ split; auto. cbn [fst]. split; discriminate.
           ++ destruct (IH q' u s2 Q' K2) as (A1 & A2 & A3). split; auto. split.
              ** intros E2 Cq. destruct (A2 E2 Cq) as (q2 & t2 & B1 & B2 & B3). exists q2, t2. split; auto. split; auto.
                 eapply below_trans; eauto. eapply selection_below; eauto.
              ** intros E2. apply A3 in E2. pose proof (selection_height _ _ _ _ S Iu). lia.
      * intros [|v vs] s2 K2; [now apply safe_ok|]. destruct (q_fn q) as [f|f].
        -- split; [now apply known_lift|]. split.
           ++ intros E Cq. destruct (C Cq) as (_ & Cf). exfalso. destruct (Cf v (snd s2)) as (X & _). apply X.
              unfold lift in E. destruct (f v (snd s2)). exact E.
           ++ intros E. exfalso. eapply lift_real; eauto.
        -- split; [now apply known_lift|]. split.
           ++ intros E Cq. destruct (C Cq) as (_ & Cf). exfalso. destruct (Cf (v :: vs) (snd s2)) as (X & _). apply X.
              unfold lift in E. destruct (f (v :: vs) (snd s2)). exact E.
           ++ intros E. exfalso. eapply lift_real; eauto.
    + split; auto. cbn. split; discriminate.
    + split; auto. cbn [fst]. split; [|discriminate]. intros _ _. exists q, t. split; [auto|]. split; [apply below_refl|]. now left.
    + exfalso. now apply selection_real in S.
Qed.

Lemma execute_real (q : query) t w n : real_query q -> height t <= n -> fst (query_execute vnil n q t w) <> Fuel.
Proof.
  intros R L E. destruct (fetch_safe q R n q t ([], w) (sub_refl _) (known_nil _ _)) as (_ & _ & F).
  unfold query_execute in E. destruct (query_fetch vnil n q t ([], w)) as [[x| | |] s]; cbn in *; try discriminate.
  specialize (F eq_refl). lia.
Qed.

Lemma execute_panic (q : query) t w n : calm_query q -> fst (query_execute vnil n q t w) = Panic ->
  exists q' t', subquery q q' /\ below t t' /\ blames q' t'.
Proof.
  intros C E.
  assert (R : real_query q).
  { intros q' Q'. destruct (C q' Q') as (A & B). split.
    - destruct (q_inside q'); auto; intros a w'; apply A.
    - destruct (q_fn q'); intros a w'; apply B. }
  destruct (fetch_safe q R n q t ([], w) (sub_refl _) (known_nil _ _)) as (_ & F & _).
  unfold query_execute in E. destruct (query_fetch vnil n q t ([], w)) as [[x| | |] s]; cbn in *; try discriminate. auto.
Qed.

Lemma blames_panic (q : query) t w n : blames q t -> 1 <= n -> query_execute vnil n q t w = (Panic, w).
Proof.
  intros B L. destruct n as [|n]; [lia|]. unfold query_execute. rewrite fetch_eq.
  destruct B as [S|((f & Ei) & S)]; apply contents_iff in S; rewrite S; auto.
  unfold query_instance. rewrite Ei. reflexivity.
Qed.

End Exec.
