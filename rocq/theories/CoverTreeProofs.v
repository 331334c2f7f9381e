From Coq Require Import List ZArith Bool Lia Arith.
From Coq Require Import Init.Byte Strings.Byte.
From Verif Require Import Base BaseLemmas AstModel SpecAst AstProofs AstTraceProofs AstFuelProofs CoverModel SpecCover CoverProofs.
Import ListNotations.

(** ** Maps *)
Lemma key_eqb_true a b : key_eqb a b = true <-> a = b.
Proof.
  destruct a as [[n i] j], b as [[m k] l]. cbn [key_eqb]. rewrite !andb_true_iff, !Nat.eqb_eq. split.
  - intros [[A ->] ->]. apply bytes_eqb_true in A. now subst.
  - intros [= -> -> ->]. now rewrite bytes_eqb_refl.
Qed.

Lemma cget_filter m k k' : cget (filter (fun x => negb (key_eqb (fst x) k)) m) k' = if key_eqb k k' then None else cget m k'.
Proof.
  induction m as [|[k1 v] m IH]; cbn [filter cget fst]; [now destruct (key_eqb k k')|].
  destruct (key_eqb k1 k) eqn:E; cbn [negb].
  - apply key_eqb_true in E. subst k1. rewrite IH. now destruct (key_eqb k k').
  - cbn [cget]. rewrite IH. destruct (key_eqb k1 k') eqn:E1; auto. apply key_eqb_true in E1. subst k1.
    destruct (key_eqb k k') eqn:E2; auto. apply key_eqb_true in E2. subst k'. assert (key_eqb k k = true) by now apply key_eqb_true. congruence.
Qed.
Lemma cget_put_last m k v k' : cget (put_last m k v) k' = if key_eqb k k' then Some v else cget m k'.
Proof. unfold put_last. cbn [cget]. rewrite cget_filter. now destruct (key_eqb k k'). Qed.
Lemma cget_put_first m k v k' : cget (put_first m k v) k' =
  match cget m k' with Some x => Some x | None => if key_eqb k k' then Some v else None end.
Proof.
  unfold put_first. destruct (cget m k) eqn:E.
  - destruct (cget m k') eqn:E'; auto. destruct (key_eqb k k') eqn:Q; auto. apply key_eqb_true in Q. subst. congruence.
  - cbn [cget]. destruct (key_eqb k k') eqn:Q; [apply key_eqb_true in Q; subst; now rewrite E|]. now destruct (cget m k').
Qed.

(** [m'] is [m] with some of the entries of [E], and all of their keys. *)
Definition grows (m m' : cmap) (E : key -> bytes -> Prop) : Prop :=
  forall k, (forall v, cget m' k = Some v -> cget m k = Some v \/ E k v) /\
            (cget m k <> None -> cget m' k <> None) /\ (forall v, E k v -> cget m' k <> None).

Lemma grows_refl m (E : key -> bytes -> Prop) : (forall k v, ~ E k v) -> grows m m E.
Proof. intros N k. repeat split; auto. intros v H. now destruct (N k v). Qed.
Lemma grows_trans m1 m2 m3 (E1 E2 E : key -> bytes -> Prop) : grows m1 m2 E1 -> grows m2 m3 E2 ->
  (forall k v, E k v <-> E1 k v \/ E2 k v) -> grows m1 m3 E.
Proof.
  intros A B H k. destruct (A k) as (A1 & A2 & A3), (B k) as (B1 & B2 & B3). repeat split; auto.
  - intros v Hv. rewrite H. destruct (B1 v Hv) as [X|X]; auto. destruct (A1 v X); auto.
  - intros v Hv. apply H in Hv as [X|X]; eauto.
Qed.
Lemma grows_iff m m' (E E' : key -> bytes -> Prop) : grows m m' E -> (forall k v, E k v <-> E' k v) -> grows m m' E'.
Proof.
  intros A H k. destruct (A k) as (A1 & A2 & A3). repeat split; auto.
  - intros v Hv. rewrite <- H. auto.
  - intros v Hv. apply H in Hv. eauto.
Qed.
Lemma grows_last m k v : grows m (put_last m k v) (fun k' v' => k' = k /\ v' = v).
Proof.
  intros k'. rewrite cget_put_last. destruct (key_eqb k k') eqn:Q; repeat split; auto; try discriminate.
  - intros v' [= <-]. right. apply key_eqb_true in Q. now subst.
  - intros v' [-> ->]. assert (key_eqb k k = true) by now apply key_eqb_true. congruence.
Qed.
Lemma grows_first m k v : grows m (put_first m k v) (fun k' v' => k' = k /\ v' = v).
Proof.
  intros k'. rewrite cget_put_first. repeat split.
  - intros v'. destruct (cget m k'); auto. destruct (key_eqb k k') eqn:Q; [|discriminate]. intros [= <-]. right. apply key_eqb_true in Q. now subst.
  - destruct (cget m k'); [discriminate|congruence].
  - intros v' [-> ->]. destruct (cget m k); [discriminate|]. assert (key_eqb k k = true) as -> by now apply key_eqb_true. discriminate.
Qed.

(** ** What is in the trees *)
Fixpoint tree_size (t : tree) : nat :=
  let 'Tree _ b _ _ := t in S (list_sum (map tline_size b))
with tline_size (l : tline) : nat :=
  let 'TLine _ _ _ es := l in list_sum (map telement_size es)
with telement_size (e : telement) : nat :=
  let 'TElement _ cs := e in list_sum (map tcontent_size cs)
with tcontent_size (x : tcontent) : nat :=
  match x with TValue _ _ => 0 | TTree t => tree_size t end.

Lemma tree_size_content t l e u : In l (tr_block t) -> In e (l_elements l) -> In (TTree u) (el_contents e) -> tree_size u < tree_size t.
Proof.
  destruct t as [g b s r]. cbn [tr_block]. intros Il Ie Iu.
  pose proof (list_sum_in _ _ (in_map tline_size _ _ Il)) as A. destruct l as [i gl rv es]. cbn [l_elements] in Ie.
  pose proof (list_sum_in _ _ (in_map telement_size _ _ Ie)) as B. destruct e as [ge cs]. cbn [el_contents] in Iu.
  pose proof (list_sum_in _ _ (in_map tcontent_size _ _ Iu)) as C. cbn [tree_size tline_size telement_size tcontent_size] in *. lia.
Qed.
Lemma successful_in b l : successful b = Some l -> In l b.
Proof. intros E. now apply find_some in E. Qed.

Section Seen.
  Variable name : bytes.
  Fixpoint seen_contents (cs : list tcontent) (m : cmap) : cmap :=
    match cs with
    | [] => m
    | x :: cs' => seen_contents cs' (seen_content name x m)
    end.
  Variable i : nat.
  Fixpoint seen_elements (es : list telement) (j : nat) (m : cmap) : cmap :=
    match es with
    | [] => m
    | e :: es' => seen_elements es' (S j) (seen_element name i j e m)
    end.
End Seen.

Lemma seen_tree_eq name t m : seen_tree name t m =
  match successful (tr_block t) with None => m | Some l => seen_elements name (l_index l) (l_elements l) 0 m end.
Proof.
  destruct t as [g b s r]. cbn [tr_block]. unfold successful.
  induction b as [|l b IH]; [reflexivity|]. cbn [find].
  transitivity (if line_ok l then seen_line name l m else seen_tree name (Tree g b s r) m); [reflexivity|].
  destruct (line_ok l); [|exact IH]. destruct l. reflexivity.
Qed.
Lemma seen_element_eq name i j e m : seen_element name i j e m =
  match el_grammar e with None => m | Some c => seen_contents (c_name c) (el_contents e) (put_first m (name, i, j) (c_name c)) end.
Proof. destruct e as [[c|] cs]; reflexivity. Qed.

Definition locates (name : bytes) (t : tree) (k : key) (v : bytes) : Prop := let '(n, i, j) := k in located name t n i j v.

Lemma seen_tree_grows : forall n t, tree_size t <= n -> forall name m, grows m (seen_tree name t m) (locates name t).
Proof.
  induction n as [|n IH]; intros t Sz name m; [destruct t; cbn [tree_size] in Sz; lia|].
  rewrite seen_tree_eq. destruct (successful (tr_block t)) as [l|] eqn:El.
  2:{ apply grows_refl. intros [[a b] c] v H. cbn [locates] in H. inversion H; congruence. }
  assert (C : forall nm cs m, (forall u, In (TTree u) cs -> tree_size u <= n) ->
    grows m (seen_contents nm cs m) (fun k v => exists u, In (TTree u) cs /\ locates nm u k v)).
  { intros nm. induction cs as [|x cs IHc]; intros m0 Hs; cbn [seen_contents].
    - apply grows_refl. intros k v (u & [] & _).
    - destruct x as [b p|u].
      + cbn [seen_content]. eapply grows_iff; [apply IHc; intros; apply Hs; now right|]. intros k v. split.
        * intros (u & I & L). exists u. split; auto. now right.
        * intros (u & [I|I] & L); [discriminate|]. eauto.
      + eapply grows_trans; [apply (IH u); apply Hs; now left|apply IHc; intros; apply Hs; now right|].
        intros k v. split.
        * intros (u' & [[= ->]|I] & L); [now left|]. right. eauto.
        * intros [L|(u' & I & L)]; [exists u; split; auto; now left|]. exists u'. split; auto. now right. }
  assert (S1 : forall e u, In e (l_elements l) -> In (TTree u) (el_contents e) -> tree_size u <= n).
  { intros e u Ie Iu. pose proof (tree_size_content t l e u (successful_in _ _ El) Ie Iu). lia. }
  assert (G : forall es j m, incl es (l_elements l) -> grows m (seen_elements name (l_index l) es j m) (fun k v =>
    (exists d e c, nth_error es d = Some e /\ el_grammar e = Some c /\ k = (name, l_index l, j + d) /\ v = c_name c) \/
    (exists e c u, In e es /\ el_grammar e = Some c /\ In (TTree u) (el_contents e) /\ locates (c_name c) u k v))).
  { induction es as [|e es IHe]; intros j m0 Inc; cbn [seen_elements].
    - apply grows_refl. intros k v [(d & e & c & Q & _)|(e & c & u & [] & _)]. destruct d; discriminate.
    - assert (Ie : In e (l_elements l)) by (apply Inc; now left).
      assert (Inc' : incl es (l_elements l)) by (intros z Hz; apply Inc; now right).
      assert (G1 : grows m0 (seen_element name (l_index l) j e m0) (fun k v => exists c, el_grammar e = Some c /\
        ((k = (name, l_index l, j) /\ v = c_name c) \/ exists u, In (TTree u) (el_contents e) /\ locates (c_name c) u k v))).
      { rewrite seen_element_eq. destruct (el_grammar e) as [c|] eqn:Eg.
        - eapply grows_trans; [apply grows_first|apply C; intros u Iu; eapply S1; eauto|].
          intros k v. split; [intros (c' & [= <-] & H); exact H|intros H; exists c; auto].
        - apply grows_refl. intros k v (c & Q & _). discriminate. }
      eapply grows_trans; [exact G1|apply (IHe (S j)); auto|]. intros k v. split.
      + intros [(d & e0 & c & Q & Gc & -> & ->)|(e0 & c & u & [->|I] & Gc & Iu & L)].
        * destruct d as [|d]; cbn [nth_error] in Q.
          -- injection Q as <-. left. exists c. rewrite Nat.add_0_r. auto.
          -- right. left. exists d, e0, c. repeat split; auto; f_equal; lia.
        * left. exists c. split; auto. right. eauto.
        * right. right. exists e0, c, u. auto.
      + intros [(c & Gc & [[-> ->]|(u & Iu & L)])|[(d & e0 & c & Q & Gc & -> & ->)|(e0 & c & u & I & Gc & Iu & L)]].
        * left. exists 0, e, c. rewrite Nat.add_0_r. auto.
        * right. exists e, c, u. repeat split; auto. now left.
        * left. exists (S d), e0, c. repeat split; auto; f_equal; lia.
        * right. exists e0, c, u. repeat split; auto. now right. }
  eapply grows_iff; [apply (G (l_elements l) 0 m (incl_refl _))|]. intros [[nm i] j] v. cbn [locates]. split.
  - intros [(d & e & c & Q & Gc & [= -> -> ->] & ->)|(e & c & u & I & Gc & Iu & L)].
    + cbn [Nat.add]. eapply located_here; eauto.
    + eapply located_inside; eauto.
  - intros H. inversion H as [name0 t0 l0 j0 e c E1 E2 E3|name0 t0 l0 e c u n0 i0 j0 v0 E1 E2 E3 E4 L]; subst.
    + rewrite El in E1. injection E1 as <-. left. exists j, e, c. auto.
    + rewrite El in E1. injection E1 as <-. right. exists e, c, u. auto.
Qed.

Lemma covered_grows l m : covered l = Ok m -> grows [] m (fun k v => let '(n, i, j) := k in reached l n i j v).
Proof.
  unfold covered. destruct l as [|c0 l0] eqn:El; [discriminate|]. rewrite <- El. clear El c0 l0. intros [= <-].
  assert (X : forall name (ex : list (suite * option tree)) m, grows m (fold_left (fun m x => match snd x with Some t => seen_tree name t m | None => m end) ex m)
    (fun k v => exists (s : suite) (t : tree), In (s, Some t) ex /\ locates name t k v)).
  { intros name. induction ex as [|[s o] ex IH]; intros m; cbn [fold_left snd].
    - apply grows_refl. intros k v (s & t & [] & _).
    - destruct o as [t|].
      + eapply grows_trans; [apply (seen_tree_grows (tree_size t) t (le_n _))|apply IH|]. intros k v. split.
        * intros (s' & t' & [[= -> ->]|I] & L); [now left|]. right. eauto.
        * intros [L|(s' & t' & I & L)]; [exists s, t; split; auto; now left|]. exists s', t'. split; auto. now right.
      + eapply grows_iff; [apply IH|]. intros k v. split.
        * intros (s' & t' & I & L). exists s', t'. split; auto. now right.
        * intros (s' & t' & [Q|I] & L); [discriminate|]. eauto. }
  assert (Y : forall l m, grows m (fold_left (fun m c => fold_left (fun m x => match snd x with Some t => seen_tree (t_name (cv_token c)) t m | None => m end)
    (cv_executions c) m) l m) (fun k v => exists c s t, In c l /\ In (s, Some t) (cv_executions c) /\ locates (t_name (cv_token c)) t k v)).
  { clear l. induction l as [|c l IH]; intros m; cbn [fold_left].
    - apply grows_refl. intros k v (c & s & t & [] & _).
    - eapply grows_trans; [apply X|apply IH|]. intros k v. split.
      + intros (c' & s & t & [->|I] & I' & L); [left; eauto|]. right. exists c', s, t. auto.
      + intros [(s & t & I & L)|(c' & s & t & I & I' & L)]; [exists c, s, t; repeat split; auto; now left|].
        exists c', s, t. repeat split; auto. now right. }
  eapply grows_iff; [apply Y|]. intros [[n i] j] v. reflexivity.
Qed.

Lemma covered_entries l m n i j : covered l = Ok m ->
  (forall v, cget m (n, i, j) = Some v -> reached l n i j v) /\ (forall v, reached l n i j v -> exists v', cget m (n, i, j) = Some v').
Proof.
  intros E. destruct (covered_grows _ _ E (n, i, j)) as (A & _ & B). split.
  - intros v Hv. destruct (A v Hv) as [Q|Q]; auto. discriminate.
  - intros v Hv. specialize (B v Hv). destruct (cget m (n, i, j)); [eauto|congruence].
Qed.

(** ** What is in the grammar *)
Section All.
  Variable n : bytes.
  Section Line.
    Variable i : nat.
    Fixpoint all_line (l : list container) (j : nat) (m : cmap) : cmap :=
      match l with
      | [] => m
      | c :: l' => all_line l' (S j) (all_container n i j c m)
      end.
  End Line.
  Fixpoint all_lines (ls : list (list container)) (i : nat) (m : cmap) : cmap :=
    match ls with
    | [] => m
    | l :: ls' => all_lines ls' (S i) (all_line i l 0 m)
    end.
End All.
Fixpoint all_channels (l : list channel) (m : cmap) : cmap :=
  match l with
  | [] => m
  | Channel t _ :: l' => all_channels l' (all_token t m)
  end.
Lemma all_token_eq t m : all_token t m = all_lines (t_name t) (t_lines t) 0 m.
Proof. destruct t as [n ls su]. reflexivity. Qed.
Lemma all_grammar_eq root chs m : all_grammar (Grammar root chs) m = all_channels chs (all_token root m).
Proof. reflexivity. Qed.

Definition tok_entries (t : token) (k : key) (v : bytes) : Prop :=
  let '(n, i, j) := k in exists u, listed t u /\ t_name u = n /\ element_at u i j v.
Definition gram_entries (g : grammar) (k : key) (v : bytes) : Prop :=
  let '(n, i, j) := k in exists u, listed_in g u /\ t_name u = n /\ element_at u i j v.

Definition inside_of (c : container) (k : key) (v : bytes) : Prop :=
  (exists u, In u (inner c) /\ tok_entries u k v) \/
  (exists n g min max, c = CElement (EExternal n g) min max /\ gram_entries g k v).

Lemma listed_inv t k v : tok_entries t k v <->
  (exists i j, k = (t_name t, i, j) /\ element_at t i j v) \/ (exists l c, In l (t_lines t) /\ In c l /\ inside_of c k v).
Proof.
  destruct k as [[n i] j]. cbn [tok_entries]. split.
  - intros (u & L & N & E). inversion L as [t0|t0 c u0 C L'|t0 l nm root chs mi ma u0 I Ic L'|t0 l nm root chs mi ma c cond u0 I Ic Ich L']; subst.
    + left. eauto.
    + right. destruct (child_inner _ _ C) as (l & x & I & Ix & Iu). exists l, x. repeat split; auto. left. exists c. split; auto. exists u. auto.
    + right. exists l, (CElement (EExternal nm (Grammar root chs)) mi ma). repeat split; auto. right. exists nm, (Grammar root chs), mi, ma.
      split; auto. exists u. repeat split; auto. now left.
    + right. exists l, (CElement (EExternal nm (Grammar root chs)) mi ma). repeat split; auto. right. exists nm, (Grammar root chs), mi, ma.
      split; auto. exists u. repeat split; auto. right. eauto.
  - intros [(i' & j' & [= -> -> ->] & E)|(l & c & I & Ic & [(u & Iu & (u' & L & N & E))|(nm & [root chs] & mi & ma & -> & (u' & L & N & E))])].
    + exists t. auto using listed_self.
    + exists u'. repeat split; auto. apply (listed_child t u u'); auto.
      destruct c as [[?|?|w|m w [e'|]|?] mi ma|? ?]; cbn [inner In] in Iu; try contradiction.
      * destruct Iu as [<-|[]]. eapply child_token; eauto.
      * destruct Iu as [<-|[<-|[]]]; [eapply child_exception|eapply child_escape]; eauto.
      * destruct Iu as [<-|[]]. eapply child_exception; eauto.
    + exists u'. repeat split; auto. destruct L as [L|(c & cond & Ich & L)]; [eapply listed_external; eauto|eapply listed_channel; eauto].
Qed.

Definition own (n : bytes) (i j : nat) (c : container) (k : key) (v : bytes) : Prop :=
  exists e min max, c = CElement e min max /\ k = (n, i, j) /\ v = e_name e.

Lemma all_grows :
  (forall t, forall m, grows m (all_token t m) (tok_entries t)) /\ (forall g, forall m, grows m (all_grammar g m) (gram_entries g)).
Proof.
  apply grammar_induction.
  - intros t IC IE m. rewrite all_token_eq.
    assert (C : forall l c i j m, In l (t_lines t) -> In c l ->
      grows m (all_container (t_name t) i j c m) (fun k v => own (t_name t) i j c k v \/ inside_of c k v)).
    { intros l c i j m0 I Ic. destruct c as [e mi ma|nm vs].
      - assert (B : grows (put_last m0 (t_name t, i, j) (e_name e)) (all_container (t_name t) i j (CElement e mi ma) m0) (inside_of (CElement e mi ma))).
        { destruct e as [nm b|nm g'|u|nm u [e'|]|nm].
          - apply grows_refl. intros k v [(u & [] & _)|(n' & g' & x & y & Q & _)]. discriminate.
          - eapply grows_iff; [apply (IE _ _ _ _ _ I Ic)|]. intros k v. split.
            + intros H. right. eauto 6.
            + intros [(u & [] & _)|(n' & g2 & x & y & [= -> -> -> ->] & H)]; auto.
          - eapply grows_iff; [apply (IC u); eapply child_token; eauto|]. intros k v. split.
            + intros H. left. exists u. split; auto. now left.
            + intros [(u' & [<-|[]] & H)|(n' & g2 & x & y & Q & _)]; [auto|discriminate].
          - eapply grows_trans; [apply (IC u); eapply child_exception; eauto|apply (IC e'); eapply child_escape; eauto|]. intros k v. split.
            + intros [(u' & [<-|[<-|[]]] & H)|(n' & g2 & x & y & Q & _)]; [auto|auto|discriminate].
            + intros [H|H]; left; [exists u|exists e']; split; auto; cbn; auto.
          - eapply grows_iff; [apply (IC u); eapply child_exception; eauto|]. intros k v. split.
            + intros H. left. exists u. split; auto. now left.
            + intros [(u' & [<-|[]] & H)|(n' & g2 & x & y & Q & _)]; [auto|discriminate].
          - apply grows_refl. intros k v [(u & [] & _)|(n' & g' & x & y & Q & _)]. discriminate. }
        eapply grows_trans; [apply grows_last|exact B|]. intros k v. split.
        + intros [(e' & x & y & [= -> -> ->] & -> & ->)|H]; auto.
        + intros [[-> ->]|H]; auto. left. exists e, mi, ma. auto.
      - apply grows_refl. intros k v [(e & x & y & Q & _)|[(u & [] & _)|(n' & g' & x & y & Q & _)]]; discriminate. }
    assert (L : forall l i, In l (t_lines t) -> forall l1 j m, incl l1 l -> grows m (all_line (t_name t) i l1 j m) (fun k v =>
      (exists d c, nth_error l1 d = Some c /\ own (t_name t) i (j + d) c k v) \/ (exists c, In c l1 /\ inside_of c k v))).
    { intros l i Il. induction l1 as [|c l1 IH]; intros j m0 Inc; cbn [all_line].
      - apply grows_refl. intros k v [(d & c & Q & _)|(c & [] & _)]. destruct d; discriminate.
      - eapply grows_trans; [apply (C l c); auto; apply Inc; now left|apply IH; intros z Hz; apply Inc; now right|].
        intros k v. split.
        + intros [(d & c' & Q & O)|(c' & [->|I] & O)].
          * destruct d as [|d]; cbn [nth_error] in Q; [injection Q as <-; rewrite Nat.add_0_r in O; auto|].
            right. left. exists d, c'. split; auto. now rewrite Nat.add_succ_comm.
          * auto.
          * right. right. eauto.
        + intros [[O|O]|[(d & c' & Q & O)|(c' & I & O)]].
          * left. exists 0, c. now rewrite Nat.add_0_r.
          * right. exists c. split; auto. now left.
          * left. exists (S d), c'. split; auto. now rewrite <- Nat.add_succ_comm.
          * right. exists c'. split; auto. now right. }
    assert (LL : forall ls i m, incl ls (t_lines t) -> grows m (all_lines (t_name t) ls i m) (fun k v =>
      (exists d l j c, nth_error ls d = Some l /\ nth_error l j = Some c /\ own (t_name t) (i + d) j c k v) \/
      (exists l c, In l ls /\ In c l /\ inside_of c k v))).
    { induction ls as [|l ls IH]; intros i m0 Inc; cbn [all_lines].
      - apply grows_refl. intros k v [(d & l & j & c & Q & _)|(l & c & [] & _)]. destruct d; discriminate.
      - eapply grows_trans; [apply (L l i); [apply Inc; now left|apply incl_refl]|apply IH; intros z Hz; apply Inc; now right|].
        intros k v. split.
        + intros [(d & l' & j & c & Q & Qc & O)|(l' & c & [->|I] & Ic & O)].
          * destruct d as [|d]; cbn [nth_error] in Q.
            -- injection Q as <-. rewrite Nat.add_0_r in O. left. left. exists j, c. auto.
            -- right. left. exists d, l', j, c. repeat split; auto. now rewrite Nat.add_succ_comm.
          * left. right. eauto.
          * right. right. exists l', c. auto.
        + intros [[(d & c & Q & O)|(c & I & O)]|[(d & l' & j & c & Q & Qc & O)|(l' & c & I & Ic & O)]].
          * left. exists 0, l, d, c. rewrite Nat.add_0_r. auto.
          * right. exists l, c. repeat split; auto. now left.
          * left. exists (S d), l', j, c. repeat split; auto. now rewrite <- Nat.add_succ_comm.
          * right. exists l', c. repeat split; auto. now right. }
    eapply grows_iff; [apply LL; apply incl_refl|]. intros k v. rewrite listed_inv. split.
    + intros [(d & l & j & c & Q & Qc & (e & mi & ma & -> & -> & ->))|H]; auto. left. exists d, j. split; auto.
      exists e, mi, ma. unfold container_at. now rewrite Q.
    + intros [(i & j & -> & (e & mi & ma & A & <-))|H]; auto. left. unfold container_at in A.
      destruct (nth_error (t_lines t) i) as [l|] eqn:Q; [|discriminate]. exists i, l, j, (CElement e mi ma). repeat split; auto. exists e, mi, ma. auto.
  - intros root chs IR IC m. rewrite all_grammar_eq.
    assert (L : forall l m, incl l chs -> grows m (all_channels l m) (fun k v => exists c cond, In (Channel c cond) l /\ tok_entries c k v)).
    { induction l as [|[t cond] l IH]; intros m0 Inc; cbn [all_channels].
      - apply grows_refl. intros k v (c & cond & [] & _).
      - eapply grows_trans; [apply (IC t cond); apply Inc; now left|apply IH; intros z Hz; apply Inc; now right|]. intros k v. split.
        + intros (c & cond1 & [Q|I] & Hc); [injection Q as <- <-; now left|right; eauto].
        + intros [H|(c & cond' & I & H)]; [exists t, cond; split; auto; now left|]. exists c, cond'. split; auto. now right. }
    eapply grows_trans; [apply IR|apply L; apply incl_refl|]. intros [[n i] j] v. cbn [gram_entries tok_entries listed_in]. split.
    + intros (u & [H|(c & cond & I & H)] & N & E); [left; eauto|]. right. exists c, cond. split; auto. eauto.
    + intros [(u & H & N & E)|(c & cond & I & (u & H & N & E))]; exists u; repeat split; auto. right. eauto.
Qed.

Lemma all_entries g n i j :
  (forall v, cget (all_grammar g []) (n, i, j) = Some v -> exists u, listed_in g u /\ t_name u = n /\ element_at u i j v) /\
  (forall u v, listed_in g u -> t_name u = n -> element_at u i j v -> exists v', cget (all_grammar g []) (n, i, j) = Some v').
Proof.
  destruct (proj2 all_grows g [] (n, i, j)) as (A & _ & B). split.
  - intros v Hv. destruct (A v Hv) as [Q|Q]; [discriminate|exact Q].
  - intros u v L N E. specialize (B v). destruct (cget (all_grammar g []) (n, i, j)); [eauto|]. exfalso. apply B; auto. exists u. auto.
Qed.

(** ** Uncovered *)
Lemma cget_keep p m k : cget (filter (fun x => p (fst x)) m) k = if p k then cget m k else None.
Proof.
  induction m as [|[k1 v] m IH]; cbn [filter cget fst]; [now destruct (p k)|].
  destruct (p k1) eqn:E; cbn [cget]; destruct (key_eqb k1 k) eqn:Q; rewrite ?IH; auto; apply key_eqb_true in Q; subst; now rewrite E.
Qed.

Lemma uncovered_entries fuel g l m n i j : coverages fuel g = Ok l -> uncovered fuel g = Ok m ->
  (forall v, cget m (n, i, j) = Some v -> (exists u, listed_in g u /\ t_name u = n /\ element_at u i j v) /\ forall v', ~ reached l n i j v') /\
  (forall u v, listed_in g u -> t_name u = n -> element_at u i j v -> (forall v', ~ reached l n i j v') -> exists v', cget m (n, i, j) = Some v').
Proof.
  intros E. unfold uncovered. rewrite E. cbn [bind]. destruct (covered l) as [c| | |] eqn:Ec; cbn [bind]; try discriminate. intros [= <-].
  rewrite (cget_keep (fun k => match cget c k with Some _ => false | None => true end)).
  destruct (covered_entries l c n i j Ec) as [A B]. destruct (all_entries g n i j) as [A' B']. destruct (cget c (n, i, j)) as [v0|] eqn:Q.
  - split; [discriminate|]. intros u v _ _ _ H. destruct (H v0). auto.
  - split.
    + intros v Hv. split; auto. intros v' R. destruct (B v' R) as [x Hx]. congruence.
    + intros u v L N El _. eauto.
Qed.
