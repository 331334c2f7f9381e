(** Queries and what they mean. *)
From Coq Require Import List Arith Bool Lia.
From Verif Require Import Base BaseLemmas AstModel SpecAst InterpModel InterpProofs QueryModel SpecQuery QueryProofs.
Import ListNotations.

Section Mean.
Context {V W : Type}.
Variable vnil : V.
Notation query := (query V W).
Notation fetcher := (fetcher V W).
Notation st := (st V W).

(** ** One meaning *)
Scheme means_mut := Minimality for means Sort Prop
  with instances_mut := Minimality for instances Sort Prop
  with results_mut := Minimality for results Sort Prop.

Definition usable (r : query) (f : fetcher) : Prop :=
  match f with FRecursive n => referred r n | FQuery q => subquery r q end.

Lemma stands_sub (r : query) f q : stands r f q -> usable r f -> subquery r q.
Proof. intros [q'|n q' S N] U; auto. Qed.

Lemma stands_fun (r : query) f q q' : one_per_name r -> usable r f -> stands r f q -> stands r f q' -> q = q'.
Proof.
  intros O U A B. destruct A as [a|n a S N]; inversion B; subst; auto. 
Qed.

Lemma pairs_in (cs : list tcontent) (fs : list fetcher) t f : In (t, f) (pairs cs fs) -> In (TTree t) cs /\ In f fs.
Proof.
  unfold pairs. rewrite in_flat_map. intros ([b p|u] & I & J); [destruct J|]. apply in_map_iff in J as (x & E & J).
  injection E as <- <-. auto.
Qed.

Lemma usable_in (r q : query) fs f : subquery r q -> q_inside q = IFetchers fs -> In f fs -> usable r f.
Proof.
  intros Q E I. destruct f as [n|q']; cbn.
  - exists q, fs. auto.
  - eapply sub_step; eauto.
Qed.


(** ** The loops, pair by pair *)
Section Pairs.
Variable call : query -> tree -> st -> outcome (V * bool) * st.

Fixpoint pairs_run (l : list (tree * fetcher)) (s : st) : outcome (list V) * st :=
  match l with
  | [] => (Ok [], s)
  | (t, f) :: l' =>
    qbind (fetcher_run call f t s) (fun r s1 =>
    qbind (pairs_run l' s1) (fun vs s2 =>
      (Ok (if snd r then fst r :: vs else vs), s2)))
  end.

Lemma pairs_app l1 l2 : forall s, pairs_run (l1 ++ l2) s =
  qbind (pairs_run l1 s) (fun vs s1 => qbind (pairs_run l2 s1) (fun vs' s2 => (Ok (vs ++ vs'), s2))).
Proof.
  induction l1 as [|[t f] l1 IH]; intros s; cbn [app pairs_run].
  - cbn [qbind]. destruct (pairs_run l2 s) as [[vs| | |] s1]; reflexivity.
  - destruct (fetcher_run call f t s) as [[[v ok]| | |] s1]; cbn [qbind]; auto. rewrite IH.
    destruct (pairs_run l1 s1) as [[vs| | |] s2]; cbn [qbind]; auto.
    destruct (pairs_run l2 s2) as [[vs'| | |] s3]; cbn [qbind fst snd]; auto. destruct ok; reflexivity.
Qed.

Lemma rows_pairs fs cs : forall s, rows_run call fs cs s = pairs_run (pairs cs fs) s.
Proof.
  induction cs as [|c cs IH]; intros s; cbn [rows_run]; auto.
  unfold pairs. cbn [flat_map]. fold (pairs cs fs). rewrite pairs_app.
  assert (R : row_run call fs c s = pairs_run (match c with TTree t => map (pair t) fs | TValue _ _ => [] end) s).
  { destruct c as [b p|t].
    - clear IH. induction fs as [|f fs' IHf]; cbn [row_run]; auto.
    - clear IH. revert s. induction fs as [|f fs' IHf]; intros s; auto. cbn [row_run map pairs_run].
      destruct (fetcher_run call f t s) as [[r| | |] s1]; cbn [qbind]; auto. now rewrite IHf. }
  rewrite R. destruct (pairs_run _ s) as [[vs| | |] s1]; cbn [qbind]; auto. now rewrite IH.
Qed.
End Pairs.

(** ** The map *)
Definition has (s : st) (n : bytes) : Prop := mget n (fst s) <> None.

Definition ready (r : query) (s : st) : Prop :=
  forall n q, mget n (fst s) = Some q -> subquery r q /\ name q = n /\ exists ns, enclosed ns q /\ forall x, In x ns -> has s x.

Definition grows (s s' : st) : Prop := forall n, has s n -> has s' n.

Lemma grows_trans s1 s2 s3 : grows s1 s2 -> grows s2 s3 -> grows s1 s3.
Proof. intros A B n H. auto. Qed.

Lemma ready_world r m w w' : ready r (m, w) -> ready r (m, w').
Proof. auto. Qed.

Lemma ready_lift r {A B} (f : ufn W A B) a s : ready r s -> ready r (snd (lift f a s)) /\ grows s (snd (lift f a s)).
Proof.
  intros K. unfold grows, ready, has. rewrite lift_map. auto.
Qed.

Definition entered (q : query) (s : st) : st := (mset (k_name (q_token q)) q (fst s), snd s).

Lemma has_entered q s n : has (entered q s) n <-> n = name q \/ has s n.
Proof.
  unfold has, entered. cbn [fst]. rewrite mget_mset. destruct (bytes_eqb n _) eqn:E.
  - apply bytes_eqb_true in E. split; [auto|discriminate].
  - split; [auto|]. intros [-> |H]; auto. unfold name in E. rewrite bytes_eqb_refl in E. discriminate.
Qed.

Lemma ready_entered r q s ns : subquery r q -> enclosed ns q -> (forall x, In x ns -> has s x) -> ready r s -> ready r (entered q s).
Proof.
  intros Q E N R n q' G. cbn [entered fst] in G. rewrite mget_mset in G. destruct (bytes_eqb n _) eqn:En.
  - injection G as <-. apply bytes_eqb_true in En. split; auto. split; auto. exists ns. split; auto.
    intros x X. apply has_entered. auto.
  - destruct (R _ _ G) as (A & B & ns' & C & D). split; auto. split; auto. exists ns'. split; auto.
    intros x X. apply has_entered. auto.
Qed.

(** What a fetcher of the query runs. *)
Lemma fetcher_ready r q ns fs f call t s : subquery r q -> enclosed ns q -> q_inside q = IFetchers fs -> In f fs ->
  ready r s -> has s (name q) -> (forall x, In x ns -> has s x) ->
  exists q' ns', stands r f q' /\ subquery r q' /\ fetcher_run call f t s = call q' t s /\
    enclosed ns' q' /\ (forall x, In x ns' -> has s x).
Proof.
  intros Q E Ei If R Hq N. inversion E as [ns0 q0 E1 E2]; subst. destruct f as [n|q']; cbn [fetcher_run].
  - assert (H : has s n). { destruct (E1 _ _ Ei If) as [<- |I]; auto. }
    unfold has in H. destruct (mget n (fst s)) as [q'|] eqn:G; [|congruence].
    destruct (R _ _ G) as (A & B & ns' & C & D). exists q', ns'. refine (conj _ (conj A (conj eq_refl (conj C D)))). now constructor.
  - exists q', (name q :: ns). split; [constructor|]. split; [eapply sub_step; eauto|]. split; auto. split; [eapply E2; eauto|].
    intros x [<- |I]; auto.
Qed.

(** ** From execution to meaning *)
Lemma fetch_means r : forall n q t s ns, height t <= n -> subquery r q -> enclosed ns q -> (forall x, In x ns -> has s x) -> ready r s ->
  let '(o, s') := query_fetch vnil n q t s in
  (o <> Fuel -> means vnil r q t (snd s) o (snd s')) /\ ready r s' /\ grows s s'.
Proof.
  induction n as [|n IH]; intros q t s ns L Q E N R; [pose proof (height_pos t); lia|].
  rewrite fetch_eq. pose proof (contents_spec (q_token q) t) as S.
  destruct (query_contents (q_token q) t) as [cs| | |] eqn:Ec.
  2:{ split; [intros _; now apply m_error|]. split; [auto|now intros x]. }
  2:{ split; [intros _; now apply m_panic|]. split; [auto|now intros x]. }
  2:{ exfalso. now apply selection_real in S. }
  fold (entered q s). pose proof (ready_entered r q s ns Q E N R) as R1.
  assert (G1 : grows s (entered q s)) by (intros x X; apply has_entered; auto).
  assert (H1 : has (entered q s) (name q)) by (apply has_entered; auto).
  assert (N1 : forall x, In x ns -> has (entered q s) x) by (intros x X; apply has_entered; auto).
  unfold query_instance.
  assert (I : let '(o, s') := inside_instances (query_fetch vnil n) (q_inside q) cs (entered q s) in
    (o <> Fuel -> instances vnil r (q_inside q) cs (snd (entered q s)) o (snd s')) /\ ready r s' /\ grows (entered q s) s').
  { destruct (q_inside q) as [f|f|fs] eqn:Ei; cbn [inside_instances].
    - destruct cs as [|c cs].
      + split; [intros _; constructor|]. split; [auto|now intros x].
      + destruct (ready_lift r f c _ R1) as (A & B). unfold lift in *. destruct (f c (snd (entered q s))) as [o w] eqn:Ef.
        split; auto. intros _. now constructor.
    - destruct (ready_lift r f cs _ R1) as (A & B). unfold lift in *. destruct (f cs (snd (entered q s))) as [o w] eqn:Ef.
      split; auto. intros _. now constructor.
    - rewrite rows_pairs.
      assert (X : forall l, incl l (pairs cs fs) -> forall s1, ready r s1 -> has s1 (name q) -> (forall x, In x ns -> has s1 x) ->
        let '(o, s') := pairs_run (query_fetch vnil n) l s1 in
        (o <> Fuel -> results vnil r l (snd s1) o (snd s')) /\ ready r s' /\ grows s1 s').
      { induction l as [|[u f] l IHl]; intros Il s1 Rs Hs Ns; cbn [pairs_run].
        - split; [intros _; constructor|]. split; [auto|now intros x].
        - destruct (pairs_in cs fs u f) as (Iu & If); [apply Il; cbn; auto|].
          destruct (fetcher_ready r q ns fs f (query_fetch vnil n) u s1 Q E Ei If Rs Hs Ns) as (q' & ns' & A1 & A2 & A3 & A4 & A5).
          rewrite A3. pose proof (selection_height _ _ _ _ S Iu) as Hu.
          specialize (IH q' u s1 ns'). destruct (query_fetch vnil n q' u s1) as [o1 s2].
          destruct IH as (B1 & B2 & B3); auto; [lia|].
          destruct o1 as [[v ok]| | |]; cbn [qbind].
          + assert (T : incl l (pairs cs fs)) by (intros x X; apply Il; cbn; auto).
            assert (Ns2 : forall x, In x ns -> has s2 x) by auto.
            specialize (IHl T s2 B2 (B3 _ Hs) Ns2). destruct (pairs_run (query_fetch vnil n) l s2) as [o2 s3].
            destruct IHl as (C1 & C2 & C3).
            assert (B1' : means vnil r q' u (snd s1) (Ok (v, ok)) (snd s2)) by (apply B1; discriminate).
            assert (G' : grows s1 s3) by (eapply grows_trans; eauto).
            destruct o2 as [vs| | |]; cbn [qbind fst snd].
            * split; auto. intros _. assert (C1' := C1 ltac:(discriminate)).
              destruct ok; [eapply r_valid|eapply r_invalid]; eauto.
            * split; auto. intros _. eapply r_later_error; eauto. apply C1. discriminate.
            * split; auto. intros _. eapply r_later_panic; eauto. apply C1. discriminate.
            * split; auto. congruence.
          + split; auto. intros _. eapply r_error; eauto. apply B1. discriminate.
          + split; auto. intros _. eapply r_panic; eauto. apply B1. discriminate.
          + split; auto. congruence. }
      specialize (X (pairs cs fs) (incl_refl _) (entered q s) R1 H1 N1).
      destruct (pairs_run (query_fetch vnil n) (pairs cs fs) (entered q s)) as [o s'].
      destruct X as (A & B & C). split; auto. intros F. constructor. auto. }
  destruct (inside_instances (query_fetch vnil n) (q_inside q) cs (entered q s)) as [o s'].
  destruct I as (A & B & C). assert (G2 : grows s s') by (eapply grows_trans; eauto).
  change (snd (entered q s)) with (snd s) in A.
  destruct o as [[|v vs]| | |]; cbn [qbind].
  - split; auto. intros _. eapply m_none; eauto. apply A. discriminate.
  - assert (A' := A ltac:(discriminate)). destruct (q_fn q) as [f|f] eqn:Ef.
    + destruct (ready_lift r f v _ B) as (B1 & B2). unfold lift in *. destruct (f v (snd s')) as [o w] eqn:Eo.
      split; [|split; auto; eapply grows_trans; eauto]. intros _. eapply m_single; eauto.
    + destruct (ready_lift r f (v :: vs) _ B) as (B1 & B2). unfold lift in *. destruct (f (v :: vs) (snd s')) as [o w] eqn:Eo.
      split; [|split; auto; eapply grows_trans; eauto]. intros _. eapply m_multi; eauto.
  - split; auto. intros _. eapply m_inside_error; eauto. apply A. discriminate.
  - split; auto. intros _. eapply m_inside_panic; eauto. apply A. discriminate.
  - split; auto. congruence.
Qed.

Lemma ready_nil r w : ready r ([], w).
Proof. intros n q. discriminate. Qed.

(** ** From meaning to execution *)
Lemma run_states n (q : query) t s ns r : height t <= n -> subquery r q -> enclosed ns q -> (forall x, In x ns -> has s x) -> ready r s ->
  forall o m' w', query_fetch vnil n q t s = (o, (m', w')) -> ready r (m', w') /\ grows s (m', w').
Proof.
  intros L Q E N R o m' w' F. pose proof (fetch_means r n q t s ns L Q E N R) as X. rewrite F in X. tauto.
Qed.

Definition ok_for (r q : query) (ns : list bytes) (s : st) : Prop :=
  subquery r q /\ enclosed ns q /\ ready r s /\ has s (name q) /\ (forall x, In x ns -> has s x).

Lemma ok_for_grows r q ns s s' : ok_for r q ns s -> ready r s' -> grows s s' -> ok_for r q ns s'.
Proof. intros (A & B & C & D & E) R G. exact (conj A (conj B (conj R (conj (G _ D) (fun x X => G _ (E x X)))))). Qed.

Lemma means_run (r : query) : one_per_name r -> forall q t w o w', means vnil r q t w o w' ->
  subquery r q -> forall n s ns, height t <= n -> snd s = w -> enclosed ns q -> (forall x, In x ns -> has s x) -> ready r s ->
  exists m', query_fetch vnil n q t s = (o, (m', w')).
Proof.
  intros O.
  pose (P1 := fun (q : query) t w o w' => subquery r q -> forall n s ns, height t <= n -> snd s = w -> enclosed ns q ->
    (forall x, In x ns -> has s x) -> ready r s -> exists m', query_fetch vnil n q t s = (o, (m', w'))).
  pose (P2 := fun (i : inside V W) cs w o w' => forall q ns n s, q_inside q = i -> ok_for r q ns s -> snd s = w ->
    (forall u, In (TTree u) cs -> height u <= n) ->
    exists m', inside_instances (query_fetch vnil n) i cs s = (o, (m', w'))).
  pose (P3 := fun (l : list (tree * fetcher)) w o w' => forall q ns fs n s, q_inside q = IFetchers fs -> ok_for r q ns s -> snd s = w ->
    (forall t f, In (t, f) l -> In f fs /\ height t <= n) ->
    exists m', pairs_run (query_fetch vnil n) l s = (o, (m', w'))).
  (* the contents are selected: the inside runs in the entered state *)
  assert (S1 : forall q t w cs oi wi, selection (q_token q) t (Ok cs) -> P2 (q_inside q) cs w oi wi -> subquery r q ->
    forall n s ns, height t <= S n -> snd s = w -> enclosed ns q -> (forall x, In x ns -> has s x) -> ready r s ->
    exists m1, query_fetch vnil (S n) q t s = qbind (oi, (m1, wi)) (fun vs s1 =>
      match vs with [] => (Ok (vnil, false), s1) | v :: _ => match q_fn q with QSingle f => lift f v s1 | QMulti f => lift f vs s1 end end)).
  { intros q t w cs oi wi S I Q n s ns L <- E N R. rewrite fetch_eq. pose proof (proj1 (contents_iff _ _ _) S) as Ec. rewrite Ec.
    unfold query_instance. destruct (I q ns n (entered q s)) as (m1 & Em); auto.
    - split; auto. split; auto. split; [eapply ready_entered; eauto|]. split; [apply has_entered; auto|].
      intros x X. apply has_entered. auto.
    - intros u Iu. pose proof (selection_height _ _ _ _ S Iu). lia.
    - exists m1. fold (entered q s). rewrite Em. reflexivity. }
  (* one more pair *)
  assert (S3 : forall t f q' l w o1 w1, stands r f q' -> P1 q' t w o1 w1 ->
    forall q ns fs n s, q_inside q = IFetchers fs -> ok_for r q ns s -> snd s = w ->
    (forall t' f', In (t', f') ((t, f) :: l) -> In f' fs /\ height t' <= n) ->
    exists m1, ok_for r q ns (m1, w1) /\ pairs_run (query_fetch vnil n) ((t, f) :: l) s =
      qbind (o1, (m1, w1)) (fun r s1 => qbind (pairs_run (query_fetch vnil n) l s1) (fun vs s2 =>
        (Ok (if snd r then fst r :: vs else vs), s2)))).
  { intros t f q' l w o1 w1 St I q ns fs n s Ei K <- H. pose proof K as (Q & E & R & Hq & N).
    destruct (H t f) as (If & Lt); [cbn; auto|].
    destruct (fetcher_ready r q ns fs f (query_fetch vnil n) t s Q E Ei If R Hq N) as (q2 & ns2 & A1 & A2 & A3 & A4 & A5).
    assert (q2 = q') as ->. { apply (stands_fun r f q2 q' O); [exact (usable_in r q fs f Q Ei If)|exact A1|exact St]. }
    destruct (I A2 n s ns2) as (m1 & Em); auto. exists m1.
    destruct (run_states n q' t s ns2 r Lt A2 A4 A5 R _ _ _ Em) as (B1 & B2).
    split; [eapply ok_for_grows; eauto|]. cbn [pairs_run]. rewrite A3, Em. reflexivity. }
  assert (HP : forall t n, height t <= n -> exists n', n = S n').
  { intros t n L. pose proof (height_pos t). destruct n as [|n']; [lia|eauto]. }
  apply (means_mut V W vnil r P1 P2 P3).
  - intros q t w S Q n s ns L <- E N R. destruct (HP _ _ L) as (n' & ->). rewrite fetch_eq.
    rewrite (proj1 (contents_iff _ _ _) S). exists (fst s). destruct s. reflexivity.
  - intros q t w S Q n s ns L <- E N R. destruct (HP _ _ L) as (n' & ->). rewrite fetch_eq.
    rewrite (proj1 (contents_iff _ _ _) S). exists (fst s). destruct s. reflexivity.
  - intros q t w cs w1 S _ I Q n s ns L Es E N R. destruct (HP _ _ L) as (n' & ->).
    destruct (S1 q t w cs _ _ S I Q n' s ns L Es E N R) as (m1 & ->). exists m1. reflexivity.
  - intros q t w cs v vs w1 f o w2 S _ I Ef Eo Q n s ns L Es E N R. destruct (HP _ _ L) as (n' & ->).
    destruct (S1 q t w cs _ _ S I Q n' s ns L Es E N R) as (m1 & ->). exists m1. cbn [qbind]. rewrite Ef. unfold lift. cbn [fst snd].
    now rewrite Eo.
  - intros q t w cs v vs w1 f o w2 S _ I Ef Eo Q n s ns L Es E N R. destruct (HP _ _ L) as (n' & ->).
    destruct (S1 q t w cs _ _ S I Q n' s ns L Es E N R) as (m1 & ->). exists m1. cbn [qbind]. rewrite Ef. unfold lift. cbn [fst snd].
    now rewrite Eo.
  - intros q t w cs w1 S _ I Q n s ns L Es E N R. destruct (HP _ _ L) as (n' & ->).
    destruct (S1 q t w cs _ _ S I Q n' s ns L Es E N R) as (m1 & ->). exists m1. reflexivity.
  - intros q t w cs w1 S _ I Q n s ns L Es E N R. destruct (HP _ _ L) as (n' & ->).
    destruct (S1 q t w cs _ _ S I Q n' s ns L Es E N R) as (m1 & ->). exists m1. reflexivity.
  - intros f c cs w o w' Ef q ns n s Ei K <- H. cbn [inside_instances]. unfold lift. rewrite Ef. eauto.
  - intros f w q ns n s Ei K <- H. cbn [inside_instances]. exists (fst s). destruct s. reflexivity.
  - intros f cs w o w' Ef q ns n s Ei K <- H. cbn [inside_instances]. unfold lift. rewrite Ef. eauto.
  - intros fs cs w o w' _ I q ns n s Ei K Es H. cbn [inside_instances]. rewrite rows_pairs. apply (I q ns fs n s); auto.
    intros t f X. apply pairs_in in X as (X1 & X2). auto.
  - intros w q ns fs n s Ei K <- H. exists (fst s). destruct s. reflexivity.
  - intros t f q' l w v w1 vs w2 St _ I _ J q ns fs n s Ei K Es H.
    destruct (S3 t f q' l w _ _ St I q ns fs n s Ei K Es H) as (m1 & K1 & ->). cbn [qbind].
    destruct (J q ns fs n (m1, w1)) as (m2 & ->); auto; [intros; apply H; cbn; auto|]. exists m2. reflexivity.
  - intros t f q' l w v w1 vs w2 St _ I _ J q ns fs n s Ei K Es H.
    destruct (S3 t f q' l w _ _ St I q ns fs n s Ei K Es H) as (m1 & K1 & ->). cbn [qbind].
    destruct (J q ns fs n (m1, w1)) as (m2 & ->); auto; [intros; apply H; cbn; auto|]. exists m2. reflexivity.
  - intros t f q' l w w1 St _ I q ns fs n s Ei K Es H.
    destruct (S3 t f q' l w _ _ St I q ns fs n s Ei K Es H) as (m1 & K1 & ->). exists m1. reflexivity.
  - intros t f q' l w w1 St _ I q ns fs n s Ei K Es H.
    destruct (S3 t f q' l w _ _ St I q ns fs n s Ei K Es H) as (m1 & K1 & ->). exists m1. reflexivity.
  - intros t f q' l w v b w1 w2 St _ I _ J q ns fs n s Ei K Es H.
    destruct (S3 t f q' l w _ _ St I q ns fs n s Ei K Es H) as (m1 & K1 & ->). cbn [qbind].
    destruct (J q ns fs n (m1, w1)) as (m2 & ->); auto; [intros; apply H; cbn; auto|]. exists m2. reflexivity.
  - intros t f q' l w v b w1 w2 St _ I _ J q ns fs n s Ei K Es H.
    destruct (S3 t f q' l w _ _ St I q ns fs n s Ei K Es H) as (m1 & K1 & ->). cbn [qbind].
    destruct (J q ns fs n (m1, w1)) as (m2 & ->); auto; [intros; apply H; cbn; auto|]. exists m2. reflexivity.
Qed.

Lemma execute_means (q : query) t w n o w' : one_per_name q -> enclosed [] q -> height t <= n -> o <> Fuel ->
  (query_execute vnil n q t w = (reported o (tr_remaining t), w') <-> means vnil q q t w o w').
Proof.
  intros O E L F. split.
  - intros X. pose proof (fetch_means q n q t ([], w) [] L (sub_refl _) E ltac:(intros x []) (ready_nil _ _)) as M.
    unfold query_execute in X. destruct (query_fetch vnil n q t ([], w)) as [o1 s1]. destruct M as (M & _).
    cbn [snd] in M. injection X as X <-. assert (o1 = o) as <-; [|now apply M].
    destruct o1 as [r| | |], o as [r'| | |]; cbn in X; try discriminate; try reflexivity. now injection X as ->.
  - intros M. destruct (means_run q O q t w o w' M (sub_refl _) n ([], w) [] L eq_refl E ltac:(intros x []) (ready_nil _ _)) as (m & Em).
    unfold query_execute. rewrite Em. reflexivity.
Qed.

(** ** The trees a query is run on have the names of its fetchers *)
Lemma fetch_name n (q : query) t s r s' : query_fetch vnil n q t s = (Ok r, s') -> t_name (tr_grammar t) = name q.
Proof.
  destruct n; [discriminate|]. rewrite fetch_eq. pose proof (contents_spec (q_token q) t) as S.
  destruct (query_contents (q_token q) t) as [cs| | |]; try discriminate. intros _. inversion S; auto.
Qed.

Lemma pairs_names r n : real_query r -> forall l s vs s', known r s -> (forall t f, In (t, f) l -> usable r f) ->
  pairs_run (query_fetch vnil n) l s = (Ok vs, s') ->
  forall t f, In (t, f) l -> match f with FQuery q => t_name (tr_grammar t) = name q | FRecursive m => t_name (tr_grammar t) = m end.
Proof.
  intros Rq. induction l as [|[t f] l IH]; intros s vs s' K U E t' f' I; [destruct I|]. cbn [pairs_run] in E.
  destruct (fetcher_run (query_fetch vnil n) f t s) as [[[v ok]| | |] s1] eqn:Ef; cbn [qbind] in E; try discriminate.
  destruct (pairs_run (query_fetch vnil n) l s1) as [[vs'| | |] s2] eqn:El; cbn [qbind] in E; try discriminate.
  assert (X : known r s1 /\ match f with FQuery q => t_name (tr_grammar t) = name q | FRecursive m => t_name (tr_grammar t) = m end).
  { pose proof (U t f (or_introl eq_refl)) as Uf. destruct f as [m|q]; cbn [fetcher_run] in Ef.
    - destruct (mget m (fst s)) as [q|] eqn:G; [|discriminate]. destruct (K _ _ G) as (Q & N). split.
      + destruct (fetch_safe vnil r Rq n q t s Q K) as (A & _). now rewrite Ef in A.
      + rewrite <- N. eapply fetch_name; eauto.
    - split.
      + destruct (fetch_safe vnil r Rq n q t s Uf K) as (A & _). now rewrite Ef in A.
      + eapply fetch_name; eauto. }
  destruct X as (K1 & X). destruct I as [I|I]; [injection I as <- <-; exact X|].
  eapply IH; eauto. intros; apply (U t0). cbn. auto.
Qed.

Lemma execute_names (k : qtoken) (fs : list fetcher) (fn : qfn V W) t w n (x : V * bool * bytes) w' cs :
  real_query (Query k (IFetchers fs) fn) ->
  query_execute vnil n (Query k (IFetchers fs) fn) t w = (Ok x, w') -> selection k t (Ok cs) ->
  forall u f, In (TTree u) cs -> In f fs ->
  match f with FQuery q => t_name (tr_grammar u) = name q | FRecursive m => t_name (tr_grammar u) = m end.
Proof.
  intros Rq E S u f Iu If. destruct n as [|n]; [discriminate|]. unfold query_execute in E. rewrite fetch_eq in E. cbn [q_token] in E.
  rewrite (proj1 (contents_iff _ _ _) S) in E. unfold query_instance in E. cbn [q_inside inside_instances] in E. rewrite rows_pairs in E.
  cbn [fst snd] in E. set (r := Query k (IFetchers fs) fn) in *. set (s := (mset (k_name k) r [], w)) in E.
  assert (K : known r s). { apply (known_set r r ([], w)); [apply known_nil|constructor]. }
  destruct (pairs_run (query_fetch vnil n) (pairs cs fs) s) as [[vs| | |] s1] eqn:Ep; cbn [qbind] in E; try discriminate.
  assert (Ip : In (u, f) (pairs cs fs)).
  { unfold pairs. apply in_flat_map. exists (TTree u). split; auto. now apply in_map. }
  eapply (pairs_names r n Rq (pairs cs fs) s vs s1 K); eauto.
  intros t' f' I. apply pairs_in in I as (_ & I). eapply usable_in; eauto; constructor.
Qed.

End Mean.
