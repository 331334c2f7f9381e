From Coq Require Import List ZArith Bool Lia Arith.
From Coq Require Import Init.Byte Strings.Byte.
From Verif Require Import Base BaseLemmas AstModel SpecAst AstProofs AstTraceProofs AstFuelProofs CoverModel SpecCover CoverProofs CoverTreeProofs.
Import ListNotations.

(** ** Positions in trees and in grammars *)
Definition present (c : container) : Prop :=
  card_ok c /\ match c with
               | CElement (EExternal _ _) _ _ => False
               | CElement _ min _ => (1 <= min)%Z
               | CCompose _ _ => True
               end.

Lemma containers_nth r esc chs rev l cur es rem : p_containers r esc chs rev l cur es rem -> Forall present l ->
  forall j e c, nth_error es j = Some e -> el_grammar e = Some c -> nth_error l j = Some c /\ exists d min max, c = CElement d min max.
Proof.
  induction 1 as [r esc chs rev cur|r esc chs rev d mi ma l cur cs cur' es rem T M X C IH]; intros F j e c.
  - destruct j; discriminate.
  - inversion F as [|? ? Pc F']; subst. destruct Pc as [[Lo _] Pm].
    assert (1 <= mi)%Z by (destruct d; [exact Pm|contradiction|exact Pm..]).
    rewrite i64_small in M by lia. destruct cs as [|x cs]; [cbn in M; lia|].
    destruct j as [|j]; cbn [nth_error].
    + intros [= <-] [= <-]. eauto.
    + intros E G. exact (IH F' _ _ _ E G).
Qed.

Lemma times_in r esc chs rev c cur cs rem : p_times r esc chs rev c cur cs rem -> forall x, In x cs -> exists cur' rem', p_content r esc chs rev c cur' x rem'.
Proof.
  induction 1 as [|r esc chs rev c cur x rem cs rem' P T IH]; intros y; [intros []|]. intros [<-|I]; eauto.
Qed.
Lemma containers_in r esc chs rev l cur es rem : p_containers r esc chs rev l cur es rem ->
  forall e c x, In e es -> el_grammar e = Some c -> In x (el_contents e) ->
  exists d min max cur' rem', c = CElement d min max /\ In c l /\ p_content r esc chs rev d cur' x rem'.
Proof.
  induction 1 as [r esc chs rev cur|r esc chs rev d mi ma l cur cs cur' es rem T M X C IH]; intros e c x; [intros []|].
  assert (R : In e es -> el_grammar e = Some c -> In x (el_contents e) ->
    exists d0 min max cur'' rem'', c = CElement d0 min max /\ In c (CElement d mi ma :: l) /\ p_content r esc chs rev d0 cur'' x rem'').
  { intros I G Ix. destruct (IH _ _ _ I G Ix) as (d0 & a & b & cu & re & Ec & Ic & P). exists d0, a, b, cu, re. repeat split; auto. now right. }
  destruct cs as [|y cs]; [exact R|]. intros [<-|I] G Ix; [|auto]. cbn [el_grammar] in G. injection G as <-. cbn [el_contents] in Ix.
  destruct (times_in _ _ _ _ _ _ _ _ T _ Ix) as (cu & re & P). exists d, mi, ma, cu, re. repeat split; auto. now left.
Qed.

Lemma aligned_tree : forall n x, tree_size x <= n -> forall r esc chs t cur, p_token r esc chs false t cur x -> within r t ->
  every_container present r -> forall nm i j v, located (t_name t) x nm i j v ->
  exists u, within r u /\ t_name u = nm /\ element_at u i j v.
Proof.
  induction n as [|n IH]; intros x Sz r esc chs t cur P W Ev nm i j v L; [destruct x; cbn [tree_size] in Sz; lia|].
  inversion P as [r0 esc0 chs0 t0 k l acc tl cur0 rem sfx rem' En Pl Ok' Fa Rc Ps|r0 esc0 chs0 t0 acc cur0 sfx rem' Na Fa Ps|]; subst.
  2:{ inversion L as [? ? l0 ? ? ? E1|? ? l0 ? ? ? ? ? ? ? E1]; subst; cbn [tr_block] in E1; rewrite successful_none in E1 by auto; discriminate. }
  assert (Es : successful (tr_block (Tree t (acc ++ [tl]) sfx rem')) = Some tl) by (cbn [tr_block]; now apply successful_last).
  inversion Pl as [r1 esc1 chs1 rev1 l1 cur1 i1 es rem1 Pc]; subst.
  assert (Fl : Forall present l).
  { apply Forall_forall. intros c Ic. apply (Ev t l c W); auto. eapply nth_error_In; eauto. }
  inversion L as [name0 t0 l0 j0 e c E1 E2 E3|name0 t0 l0 e c u n0 i0 j0 v0 E1 E2 E3 E4 L']; subst.
  - rewrite Es in E1. injection E1 as <-. cbn [l_index l_elements] in *. exists t. repeat split; auto.
    destruct (containers_nth _ _ _ _ _ _ _ _ Pc Fl _ _ _ E2 E3) as (Nj & d & mi & ma & ->). exists d, mi, ma. unfold container_at. rewrite En. auto.
  - assert (Su := tree_size_content _ _ _ _ (successful_in _ _ E1) E2 E4). rewrite Es in E1. injection E1 as <-. cbn [l_index l_elements] in *.
    destruct (containers_in _ _ _ _ _ _ _ _ Pc _ _ _ E2 E3 E4) as (d & mi & ma & cu & re & -> & Ic & P'). cbn [c_name] in L'.
    inversion P' as [|r2 e2 c2 v2 n2 root2 chs2 cu2 t2 Ne2 Pt2 S2|r2 e2 c2 v2 u2 cu2 t2 W2 Pt2 S2|r2 e2 c2 v2 u2 cu2 t2 W2 Pt2 S2|r2 e2 c2 v2 n2 u2 es2 cu2 t2 W2 We2 Pt2 S2]; subst.
    + rewrite Forall_forall in Fl. destruct (Fl _ Ic) as [_ []].
    + cbn [e_name] in L'. eapply (IH u); eauto. lia.
    + cbn [e_name] in L'. eapply (IH u); eauto. lia.
    + exfalso. cbn [negb] in Pt2. inversion Pt2 as [| |r3 esc3 chs3 t3 i3 l3 cs3 cur3 rem3 sfx3 rem3' En3 Pu3 Nc3 Ps3]; subst.
      inversion L' as [? ? l4 j4 e4 c4 F1 F2 F3|? ? l4 e4 c4 u4 ? ? ? ? F1 F2 F3 F4 L4]; subst; cbn [tr_block] in F1;
        apply successful_in in F1; destruct F1 as [<-|[]]; cbn [l_elements] in F2.
      * destruct j as [|[|]]; try discriminate. injection F2 as <-. discriminate.
      * destruct F2 as [<-|[]]. discriminate.
Qed.

Lemma covered_aligned fuel g l m n i j v : cards_ok g -> no_optional g -> no_external g -> coverages fuel g = Ok l -> covered l = Ok m ->
  cget m (n, i, j) = Some v -> exists u chs, part_of g u chs /\ t_name u = n /\ element_at u i j v.
Proof.
  intros Co No Ne E Ec Hv. apply (covered_entries l m n i j Ec) in Hv. destruct Hv as (c & s & t & Ic & Is & L).
  apply coverages_entries in E. rewrite Forall_forall in E. destruct (E _ Ic) as (chs & (root & U & W) & _ & _ & F).
  rewrite Forall_forall in F. specialize (F _ Is). cbn [fst] in F. unfold suite_run in F. destruct s as [b vs].
  destruct (snd (token_run fuel (cv_token c) [] None chs false [] (compose_bytes vs))) as [tr| | |] eqn:Et; try discriminate. injection F as ->.
  assert (P : p_token (cv_token c) None chs false (cv_token c) (compose_bytes vs) t) by (eapply execute_trace; exact Et).
  destruct (aligned_tree (tree_size t) t (le_n _) _ _ _ _ _ P (within_refl _)) with (nm := n) (i := i) (j := j) (v := v) as (u & Wu & Nu & El); auto.
  { intros t' l' c' W' Il Ic'. assert (W2 : within root t') by (eapply within_trans; eauto). split; [apply (Co _ _ U t' l' c'); auto|].
    pose proof (No _ _ U t' l' c' W2 Il Ic') as A. pose proof (Ne _ _ U t' l' c' W2 Il Ic') as B. destruct c' as [[| | | |] ? ?|]; auto. }
  exists u, chs. repeat split; auto. exists root. split; auto. eapply within_trans; eauto.
Qed.

(** ** Fetch *)
Section Fetch.
  Variable name : bytes.
  Variable index : nat.
  Fixpoint fetch_elements (es : list telement) (cpt : nat) : option fetched :=
    match es with
    | [] => None
    | e :: es' =>
      match fetch_el name index e with
      | None => fetch_elements es' cpt
      | Some x => if index <=? cpt then Some x else fetch_elements es' (S cpt)
      end
    end.
  Fixpoint fetch_contents (cs : list tcontent) : option fetched :=
    match cs with
    | [] => None
    | x :: cs' => match fetch_content name index x with Some r => Some r | None => fetch_contents cs' end
    end.

  Lemma fetch_tree_eq t : fetch_tree name index t =
    if bytes_eqb (t_name (tr_grammar t)) name then Some (FTree t)
    else match successful (tr_block t) with None => None | Some l => fetch_elements (l_elements l) 0 end.
  Proof.
    destruct t as [g b s r]. cbn [tr_block tr_grammar].
    transitivity (if bytes_eqb (t_name g) name then Some (FTree (Tree g b s r)) else
      (fix first (b : list tline) : option fetched :=
        match b with [] => None | l :: b' => if line_ok l then fetch_line name index l else first b' end) b); [reflexivity|].
    destruct (bytes_eqb (t_name g) name); auto. unfold successful. induction b as [|l b IH]; [reflexivity|]. cbn [find].
    destruct (line_ok l); [|exact IH]. destruct l. reflexivity.
  Qed.
  Lemma fetch_el_eq e : fetch_el name index e = if has_name name (FElement e) then Some (FElement e) else fetch_contents (el_contents e).
  Proof. destruct e as [g cs]. reflexivity. Qed.
End Fetch.

Lemma items_eq t : items t = FTree t :: match successful (tr_block t) with None => [] | Some l => flat_map element_items (l_elements l) end.
Proof.
  destruct t as [g b s r]. cbn [tr_block].
  transitivity (FTree (Tree g b s r) :: (fix first (b : list tline) : list fetched :=
    match b with [] => [] | l :: b' => if line_ok l then line_items l else first b' end) b); [reflexivity|].
  f_equal. unfold successful. induction b as [|l b IH]; [reflexivity|]. cbn [find].
  destruct (line_ok l); [|exact IH]. destruct l. reflexivity.
Qed.
Lemma element_items_eq e : element_items e = FElement e :: flat_map content_items (el_contents e).
Proof. destruct e. reflexivity. Qed.

Lemma fetch_sound name index : forall n t, tree_size t <= n -> forall x, fetch_tree name index t = Some x -> In x (items t) /\ has_name name x = true.
Proof.
  induction n as [|n IH]; intros t Sz x; [destruct t; cbn [tree_size] in Sz; lia|].
  rewrite fetch_tree_eq, items_eq. destruct (bytes_eqb (t_name (tr_grammar t)) name) eqn:En.
  { intros [= <-]. split; auto. now left. }
  destruct (successful (tr_block t)) as [l|] eqn:El; [|discriminate].
  assert (S1 : forall e u, In e (l_elements l) -> In (TTree u) (el_contents e) -> tree_size u <= n).
  { intros e u Ie Iu. pose proof (tree_size_content t l e u (successful_in _ _ El) Ie Iu). lia. }
  assert (E : forall e y, In e (l_elements l) -> fetch_el name index e = Some y -> In y (element_items e) /\ has_name name y = true).
  { intros e y Ie. rewrite fetch_el_eq, element_items_eq. destruct (has_name name (FElement e)) eqn:Hn.
    - intros [= <-]. split; auto. now left.
    - assert (C : forall cs, incl cs (el_contents e) -> fetch_contents name index cs = Some y -> In y (flat_map content_items cs) /\ has_name name y = true).
      { induction cs as [|c cs IHc]; intros Inc; cbn [fetch_contents flat_map]; [discriminate|].
        destruct (fetch_content name index c) as [z|] eqn:Ez.
        - intros [= ->]. destruct c as [b p|u]; [discriminate|]. destruct (IH u) with (x := y) as [A B]; auto.
          { eapply S1; eauto. apply Inc. now left. } split; auto. apply in_app_iff. now left.
        - intros H. destruct IHc as [A B]; auto. { intros q Hq. apply Inc. now right. } split; auto. apply in_app_iff. now right. }
      intros H. destruct (C _ (incl_refl _) H). split; auto. now right. }
  assert (G : forall es cpt, incl es (l_elements l) -> fetch_elements name index es cpt = Some x -> In x (flat_map element_items es) /\ has_name name x = true).
  { induction es as [|e es IHe]; intros cpt Inc; cbn [fetch_elements flat_map]; [discriminate|].
    assert (Inc' : incl es (l_elements l)) by (intros q Hq; apply Inc; now right).
    destruct (fetch_el name index e) as [z|] eqn:Ez.
    - destruct (index <=? cpt).
      + intros [= ->]. destruct (E e x) as [A B]; auto. { apply Inc. now left. } split; auto. apply in_app_iff. now left.
      + intros H. destruct (IHe _ Inc' H). split; auto. apply in_app_iff. now right.
    - intros H. destruct (IHe _ Inc' H). split; auto. apply in_app_iff. now right. }
  intros H. destruct (G _ _ (incl_refl _) H). split; auto. now right.
Qed.

Lemma find_app A (p : A -> bool) a b : find p (a ++ b) = match find p a with Some x => Some x | None => find p b end.
Proof. induction a as [|x a IH]; cbn; auto. now destruct (p x). Qed.

Lemma fetch_first name : forall n t, tree_size t <= n -> fetch_tree name 0 t = find (has_name name) (items t).
Proof.
  induction n as [|n IH]; intros t Sz; [destruct t; cbn [tree_size] in Sz; lia|].
  rewrite fetch_tree_eq, items_eq. cbn [find has_name]. destruct (bytes_eqb (t_name (tr_grammar t)) name) eqn:En; auto.
  destruct (successful (tr_block t)) as [l|] eqn:El; auto.
  assert (S1 : forall e u, In e (l_elements l) -> In (TTree u) (el_contents e) -> tree_size u <= n).
  { intros e u Ie Iu. pose proof (tree_size_content t l e u (successful_in _ _ El) Ie Iu). lia. }
  generalize 0 at 2 as cpt. assert (Inc := incl_refl (l_elements l)). revert Inc. generalize (l_elements l) at 1 3 4 as es.
  induction es as [|e es IHe]; intros Inc cpt; cbn [fetch_elements flat_map]; auto.
  assert (Ie : In e (l_elements l)) by (apply Inc; now left). rewrite find_app.
  assert (E : fetch_el name 0 e = find (has_name name) (element_items e)).
  { rewrite fetch_el_eq, element_items_eq. cbn [find]. destruct (has_name name (FElement e)) eqn:Hn; auto.
    assert (Inc2 := incl_refl (el_contents e)). revert Inc2. generalize (el_contents e) at 1 3 4 as cs.
    induction cs as [|c cs IHc]; intros Inc2; cbn [fetch_contents flat_map]; auto. rewrite find_app.
    assert (fetch_content name 0 c = find (has_name name) (content_items c)) as ->.
    { destruct c as [b p|u]; auto. cbn [content_items]. apply (IH u). eapply S1; eauto. apply Inc2. now left. }
    destruct (find (has_name name) (content_items c)); auto. apply IHc. intros q Hq. apply Inc2. now right. }
  rewrite E. destruct (find (has_name name) (element_items e)); auto. apply IHe. intros q Hq. apply Inc. now right.
Qed.

Lemma fetch_flat name index t l : t_name (tr_grammar t) <> name -> successful (tr_block t) = Some l ->
  (forall e u, In e (l_elements l) -> ~ In (TTree u) (el_contents e)) ->
  fetch_tree name index t = nth_error (filter (has_name name) (map FElement (l_elements l))) index.
Proof.
  intros Nn El Fl. rewrite fetch_tree_eq, El.
  destruct (bytes_eqb (t_name (tr_grammar t)) name) eqn:En; [apply bytes_eqb_true in En; congruence|].
  assert (E : forall e, In e (l_elements l) -> fetch_el name index e = if has_name name (FElement e) then Some (FElement e) else None).
  { intros e Ie. rewrite fetch_el_eq. destruct (has_name name (FElement e)); auto.
    specialize (Fl e). assert (Fl' : forall u, ~ In (TTree u) (el_contents e)) by (intros u; auto). revert Fl'. generalize (el_contents e) as cs.
    induction cs as [|[b p|u] cs IH]; intros F; cbn [fetch_contents fetch_content]; auto.
    - apply IH. intros u I. apply (F u). now right.
    - destruct (F u). now left. }
  assert (G : forall es cpt, incl es (l_elements l) -> cpt <= index ->
    fetch_elements name index es cpt = nth_error (filter (has_name name) (map FElement es)) (index - cpt)).
  { induction es as [|e es IHe]; intros cpt Inc Lc; cbn [fetch_elements map filter]; [now destruct (index - cpt)|].
    assert (Inc' : incl es (l_elements l)) by (intros q Hq; apply Inc; now right).
    rewrite E by (apply Inc; now left). destruct (has_name name (FElement e)); [|auto].
    destruct (Nat.leb_spec index cpt) as [Q|Q].
    - assert (index = cpt) by lia. subst cpt. now rewrite Nat.sub_diag.
    - rewrite IHe by (auto; lia). now replace (index - cpt) with (S (index - S cpt)) by lia. }
  rewrite G by (auto using incl_refl; lia). now rewrite Nat.sub_0_r.
Qed.
