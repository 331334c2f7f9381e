(** Particular grammars: composes, externals, sequences of values, everythings, diverging recursion. *)
From Coq Require Import List ZArith Lia Bool.
From Coq Require Import Init.Byte Strings.Byte.
From Verif Require Import Base BaseLemmas AstModel SpecAst AstProofs AstTraceProofs AstFuelProofs SpecPeg AstPegProofs AstPanicProofs.
Import ListNotations.

(** ** Every matched tree has bytes *)
Definition has_bytes (t : tree) : Prop := exists l, successful (tr_block t) = Some l /\ forall inc, line_bytes inc l <> [].
Definition full (t : tree) : Prop := forall u, nested t u -> has_bytes u.
Definition content_full (x : tcontent) : Prop := match x with TValue _ p => Forall full p | TTree t => full t end.

Lemma full_intro t : has_bytes t ->
  (forall l e x, successful (tr_block t) = Some l -> In e (l_elements l) -> In x (el_contents e) -> content_full x) ->
  Forall full (tr_suffix t) -> full t.
Proof.
  intros Hs Hc Hf u N. destruct N as [|u v P N]; auto. destruct P as [l e v1 E I Ic|l e b p v1 E I Ic Ip|v1 I].
  - apply (Hc _ _ _ E I Ic _ N).
  - specialize (Hc _ _ _ E I Ic). cbn in Hc. rewrite Forall_forall in Hc. apply (Hc _ Ip _ N).
  - rewrite Forall_forall in Hf. apply (Hf _ I _ N).
Qed.

Lemma app_not_nil {A} (l m : list A) : l <> [] -> l ++ m <> [].
Proof. destruct l; [congruence|discriminate]. Qed.
Lemma has_bytes_bytes t inc : has_bytes t -> tree_bytes inc t <> [].
Proof. intros (l & E & H). destruct t as [g b s r]. rewrite tree_bytes_eq. cbn [tr_block] in E. rewrite E. now apply app_not_nil. Qed.
Lemma content_full_bytes x inc : content_full x -> content_bytes inc x <> [].
Proof.
  destruct x as [b p|t]; cbn [content_full content_bytes]; intros H.
  - intros E. apply app_eq_nil in E as (_ & E). discriminate.
  - apply has_bytes_bytes, H. constructor.
Qed.
Lemma contents_full_bytes cs inc : Forall content_full cs -> cs <> [] -> flat_map (content_bytes inc) cs <> [].
Proof.
  destruct 1 as [|x cs Hx _]; [congruence|]. intros _. cbn [flat_map]. apply app_not_nil. now apply content_full_bytes.
Qed.

Definition elements_full (es : list telement) : Prop :=
  Forall (fun e => el_contents e <> [] /\ Forall content_full (el_contents e)) es.
Lemma elements_full_bytes es inc : elements_full es -> es <> [] -> flat_map (element_bytes inc) es <> [].
Proof.
  destruct 1 as [|[g cs] es (Ne & Hx) _]; [congruence|]. intros _. cbn [el_contents] in *.
  rewrite elements_bytes_cons. apply app_not_nil. now apply contents_full_bytes.
Qed.

Lemma fullness :
  (forall r esc chs rev t cur x, p_token r esc chs rev t cur x -> has_successful x = true -> full x) /\
  (forall r esc chs rev l cur i tl rem, p_line r esc chs rev l cur i tl rem -> elements_full (l_elements tl)) /\
  (forall r esc chs rev l cur es rem, p_containers r esc chs rev l cur es rem -> elements_full es) /\
  (forall r esc chs rev c cur cs rem, p_times r esc chs rev c cur cs rem -> Forall content_full cs) /\
  (forall r esc chs rev c cur x rem, p_content r esc chs rev c cur x rem -> content_full x) /\
  (forall chs cur ts rem, p_skip chs cur ts rem -> Forall full ts) /\
  (forall r esc chs l cur cs rem, p_until r esc chs l cur cs rem -> Forall content_full cs).
Proof.
  apply parse_ind; intros.
  - apply full_intro; cbn [tr_block tr_suffix]; auto.
    + exists tl. cbn [tr_block]. rewrite successful_last by assumption. split; auto. intros inc.
      destruct tl as [i0 g0 r0 es]. cbn [line_bytes l_elements] in *. apply elements_full_bytes; auto.
      pose proof (line_ok_elements _ e0). auto.
    + intros l2 e2 x. rewrite successful_last by assumption. intros [= <-] I Ix.
      unfold elements_full in H. rewrite Forall_forall in H. destruct (H _ I) as (_ & F). rewrite Forall_forall in F. auto.
  - unfold has_successful in *; cbn [tr_block] in *. rewrite successful_none in * by assumption. discriminate.
  - apply full_intro; cbn [tr_block tr_suffix]; auto.
    + eexists. cbn [tr_block]. cbn [successful find line_ok l_elements forallb element_ok el_grammar andb l_reverse orb].
      split; [reflexivity|]. intros inc. cbn [line_bytes]. apply elements_full_bytes; [|discriminate]. constructor; auto.
    + cbn [successful find line_ok l_elements forallb element_ok el_grammar andb l_reverse orb].
      intros l2 e2 x [= <-]. cbn [l_elements In]. intros [<-|[]]. cbn [el_contents]. intros Ix.
      rewrite Forall_forall in H. auto.
  - exact H.
  - constructor.
  - destruct cs as [|x cs]; auto. constructor; auto. split; [discriminate|auto].
  - constructor.
  - constructor; auto.
  - exact H.
  - cbn [content_full]. specialize (H e). intros u N. destruct N as [|u v P N].
    + apply (H t (nested_refl _)).
    + destruct P as [l1 e1 v1 E1 I1 Ic1|l1 e1 b p1 v1 E1 I1 Ic1 Ip|v1 I1]; cbn [tr_block tr_suffix] in *.
      * apply H. eapply nested_step; eauto. eapply part_content; eauto.
      * apply H. eapply nested_step; eauto. eapply part_prefix; eauto.
      * destruct I1.
  - cbn; auto.
  - cbn; auto.
  - cbn; auto.
  - constructor.
  - assert (Ne : tree_bytes true t <> []) by (intros E; rewrite E in *; cbn [length] in *; lia).
    constructor; eauto using tree_bytes_successful.
  - constructor.
  - constructor; auto. cbn. constructor.
  - apply Forall_app. split; auto. apply Forall_forall. intros x I. apply in_map_iff in I as (b & <- & _). cbn. constructor.
Qed.

(** ** Composes *)
Lemma compose_never call bound l s esc chs rev prev0 : forall es prev cur s' o n vs,
  In (CCompose n vs) l -> containers_run call bound l s esc chs rev prev0 es prev cur = (s', o) -> forall a, o <> Ok a.
Proof.
  revert s. induction l as [|[c mi ma|m us] l IH]; intros s es prev cur s' o n vs I; cbn [containers_run].
  - destruct I.
  - destruct I as [I|I]; [discriminate|].
    destruct (repeat_run call bound bound c ma s esc chs rev [] prev cur) as [s1 [[[cs prev1] cur1]| | |]]; cbn [sbind];
      try (intros [= <- <-]; discriminate).
    destruct (_ <? _)%Z; [intros [= <- <-]; discriminate|]. intros E. eapply IH; eauto.
  - intros [= <- <-]. destruct (compose_run call bound us chs prev0 cur); cbn [bind]; discriminate.
Qed.

Lemma compose_line call bound l i s esc chs rev prev cur n vs a : In (CCompose n vs) l ->
  snd (line_run call bound l i s esc chs rev prev cur) <> Ok a.
Proof.
  intros I. unfold line_run. destruct (containers_run call bound l s esc chs rev prev [] prev cur) as [s1 o] eqn:E.
  assert (X := compose_never _ _ _ _ _ _ _ _ _ _ _ _ _ _ _ I E). destruct o; cbn [sbind snd]; try discriminate. now destruct (X a0).
Qed.

Lemma compose_block call bound t esc chs : forall ls i s prev cur, (forall l, In l ls -> exists n vs, In (CCompose n vs) l) ->
  forall b rem, snd (block_run call bound t ls i s esc chs false [] prev cur) = Ok (b, rem) -> b = [].
Proof.
  induction ls as [|l ls IH]; intros i s prev cur H b rem; cbn [block_run].
  - cbn. congruence.
  - destruct (s_visited s (t_name t) i cur); [apply IH; intros; apply H; now right|].
    destruct (H l (or_introl eq_refl)) as (n & vs & I).
    assert (X := fun a => compose_line call bound l i (s_mark s t i cur) esc chs false prev cur n vs a I).
    destruct (line_run call bound l i (s_mark s t i cur) esc chs false prev cur) as [s2 [a| | |]]; cbn [stry snd] in *; try discriminate.
    + now destruct (X a).
    + apply IH. intros; apply H; now right.
Qed.

Lemma compose_execute f root chs data t : (forall l, In l (t_lines root) -> exists n vs, In (CCompose n vs) l) ->
  execute f (Grammar root chs) data <> Ok t.
Proof.
  intros H. unfold execute. destruct f as [|f]; cbn [token_run]; [discriminate|]. unfold token_step.
  assert (X := compose_block (token_run f) f root None chs (t_lines root) 0 (s_enter [] root) [] data H).
  destruct (block_run (token_run f) f root (t_lines root) 0 (s_enter [] root) None chs false [] [] data) as [s1 o].
  destruct o as [[b rem]| | |]; try discriminate. cbn [snd] in X. rewrite (X b rem eq_refl). discriminate.
Qed.

(** ** Externals *)
Lemma skip_empty chs ts rem : p_skip chs [] ts rem -> rem = [].
Proof. intros H. apply skip_eats in H as (w & E & _). symmetry in E. now apply app_eq_nil in E as (_ & E). Qed.
Lemma times_empty r esc chs rev c cs rem : p_times r esc chs rev c [] cs rem -> cs = [] /\ rem = [].
Proof.
  intros H. apply times_eats in H as (w & E & L). symmetry in E. apply app_eq_nil in E as (-> & ->).
  destruct cs; cbn [length] in L; [auto|lia].
Qed.

Lemma external_times r esc chs rev n g cur cs rem : p_times r esc chs rev (EExternal n g) cur cs rem -> cs <> [] -> rem = [].
Proof.
  intros H Ne. inversion H; subst; [congruence|]. match goal with P : p_content _ _ _ _ _ _ _ _ |- _ => inversion P; subst end.
  match goal with P : p_times _ _ _ _ _ [] _ _ |- _ => now apply times_empty in P end.
Qed.

Lemma containers_empty r esc chs rev l es rem : p_containers r esc chs rev l [] es rem -> rem = [] /\
  forall c mi ma, In (CElement c mi ma) l -> (i64 mi <= 0)%Z.
Proof.
  revert es. induction l as [|[c mi ma|n vs] l IH]; intros es H; inversion H; subst.
  - split; auto. intros c mi ma [].
  - match goal with P : p_times _ _ _ _ _ [] _ _ |- _ => apply times_empty in P as (-> & ->) end.
    match goal with P : p_containers _ _ _ _ l [] _ _ |- _ => destruct (IH _ P) as (-> & X) end.
    split; auto. intros c' mi' ma' [[= -> -> ->]|I]; eauto.
Qed.

Lemma external_containers r esc chs rev l cur es rem : p_containers r esc chs rev l cur es rem ->
  (forall e n g mi ma, In e es -> el_grammar e = Some (CElement (EExternal n g) mi ma) -> rem = []).
Proof.
  revert cur es. induction l as [|[c mi ma|n vs] l IH]; intros cur es H; inversion H; subst.
  - intros e n g mi ma [].
  - intros e n g mi' ma' I Eg.
    match goal with P : p_containers _ _ _ _ l _ _ _ |- _ => rename P into Pc end.
    match goal with P : p_times _ _ _ _ _ _ _ _ |- _ => rename P into Pt end.
    destruct cs as [|x cs]; [eapply IH; eauto|]. destruct I as [<-|I]; [|eapply IH; eauto].
    cbn [el_grammar] in Eg. injection Eg as -> -> ->. apply external_times in Pt as ->; [|discriminate].
    now apply containers_empty in Pc as (-> & _).
Qed.

Lemma external_required r esc chs rev l1 n g mi ma l2 cur es rem c mi' ma' :
  p_containers r esc chs rev (l1 ++ CElement (EExternal n g) mi ma :: l2) cur es rem ->
  In (CElement c mi' ma') l2 -> (1 <= i64 mi)%Z -> (1 <= i64 mi')%Z -> False.
Proof.
  revert cur es. induction l1 as [|[d md xd|m vs] l1 IH]; intros cur es H I M M'; cbn [app] in H; inversion H; subst; eauto.
  match goal with P : p_times _ _ _ _ _ _ _ _ |- _ => apply external_times in P as -> end.
  - match goal with P : p_containers _ _ _ _ l2 _ _ _ |- _ => destruct (containers_empty _ _ _ _ _ _ _ P) as (_ & X) end.
    specialize (X _ _ _ I). lia.
  - intros ->. unfold zlen in *. cbn [length] in *. lia.
Qed.

(** ** Sequences of values, without channels *)
Definition vline (l : list (bytes * byte)) : list container := map (fun x => CElement (EValue (fst x) (snd x)) 1 (Some 1%Z)) l.
Definition velements (l : list (bytes * byte)) : list telement :=
  map (fun x => TElement (Some (CElement (EValue (fst x) (snd x)) 1 (Some 1%Z))) [TValue (snd x) []]) l.

Lemma value_repeat call bound f n b s esc rev prev cur :
  repeat_run call bound (S f) (EValue n b) (Some 1%Z) s esc [] rev [] prev cur =
  match cur with
  | x :: rem => if Byte.eqb b x then (s, Ok ([TValue b []], cur, rem)) else (s, Ok ([], prev, cur))
  | [] => (s, Ok ([], prev, []))
  end.
Proof.
  destruct cur as [|x rem]; [reflexivity|]. cbn [repeat_run]. change (1 <=? zlen (@nil tcontent))%Z with false. cbv iota.
  cbn [element_run element_value channels_try bind fst snd]. destruct (Byte.eqb b x) eqn:E; cbn [bind stry]; [|reflexivity].
  cbn [app]. apply byte_eqb_true in E as <-.
  destruct f as [|f]; cbn [repeat_run]; change (1 <=? zlen [TValue b []])%Z with true; destruct rem; reflexivity.
Qed.

Lemma value_containers call bound rev esc prev0 : 1 <= bound -> forall l s es prev cur,
  (forall rest, cur = map snd l ++ rest ->
    containers_run call bound (vline l) s esc [] rev prev0 es prev cur = (s, Ok (es ++ velements l, rest))) /\
  ((forall rest, cur <> map snd l ++ rest) ->
    containers_run call bound (vline l) s esc [] rev prev0 es prev cur = (s, Err)).
Proof.
  intros B. destruct bound as [|f]; [lia|]. clear B.
  induction l as [|[n b] l IH]; intros s es prev cur; cbn [vline map containers_run fst snd].
  - split.
    + intros rest ->. now rewrite app_nil_r.
    + intros H. now destruct (H cur).
  - rewrite value_repeat. split.
    + intros rest ->. cbn [app]. rewrite (proj2 (byte_eqb_true b b) eq_refl). cbn [sbind].
      change (zlen [TValue b []] <? i64 1)%Z with false. cbv iota.
      destruct (IH s (es ++ [TElement (Some (CElement (EValue n b) 1 (Some 1%Z))) [TValue b []]]) (b :: map snd l ++ rest) (map snd l ++ rest)) as (X & _).
      cbn [fst snd]. fold (vline l). rewrite (X rest eq_refl). cbn [velements map fst snd]. now rewrite <- app_assoc.
    + intros H. destruct cur as [|x cur].
      * cbn [sbind]. reflexivity.
      * destruct (Byte.eqb b x) eqn:E; cbn [sbind].
        -- change (zlen [TValue b []] <? i64 1)%Z with false. cbv iota. apply byte_eqb_true in E as <-. fold (vline l). apply IH.
           intros rest ->. now apply (H rest).
        -- reflexivity.
Qed.

Lemma velements_ok l : forallb element_ok (velements l) = true.
Proof. induction l as [|x l IH]; cbn [velements map forallb]; auto. Qed.
Lemma velements_amount l e : In e (velements l) -> amount e = 1%Z.
Proof. intros I. apply in_map_iff in I as (x & <- & _). reflexivity. Qed.

Lemma vline_ok i l : l <> [] -> line_ok (TLine i (vline l) false (velements l)) = true.
Proof.
  intros Ne. unfold line_ok. cbn [l_elements l_reverse l_grammar orb].
  enough (E : forallb element_ok (velements l) && forallb (container_ok (velements l)) (vline l) = true)
    by (destruct l; [congruence|exact E]).
  rewrite velements_ok. cbn [andb]. apply forallb_forall. intros c I. apply in_map_iff in I as ([n b] & <- & I).
  cbn [container_ok fst snd e_name]. change (1 <=? 0)%Z with false. cbv iota.
  destruct (fetch_element (velements l) n) as [x|] eqn:E.
  - unfold fetch_element in E. apply find_some in E as (Ix & _). apply in_rev in Ix. now rewrite (velements_amount _ _ Ix).
  - unfold fetch_element in E. eapply find_none in E; [|apply in_rev; rewrite rev_involutive; apply in_map_iff; exists (n, b); split; [reflexivity|exact I]].
    cbn [el_grammar c_name e_name fst] in E. now rewrite bytes_eqb_refl in E.
Qed.

Lemma value_line call bound rev esc l i s prev cur : 1 <= bound ->
  (forall rest, cur = map snd l ++ rest ->
    line_run call bound (vline l) i s esc [] rev prev cur = (s, Ok (TLine i (vline l) false (velements l), rest))) /\
  ((forall rest, cur <> map snd l ++ rest) -> line_run call bound (vline l) i s esc [] rev prev cur = (s, Err)).
Proof.
  intros B. unfold line_run. destruct (value_containers call bound rev esc prev B l s [] prev cur) as (A & C). split.
  - intros rest E. now rewrite (A rest E).
  - intros E. now rewrite (C E).
Qed.

(** No line from [i] on was tried. *)
Definition untried (s : smap) (n : bytes) (i : nat) : Prop :=
  forall t ls j d, s_get s n = Some (t, ls) -> line_get ls j = Some d -> j < i.

Lemma untried_visited s n i d : untried s n i -> s_visited s n i d = false.
Proof.
  intros U. unfold s_visited. destruct (s_get s n) as [[t ls]|] eqn:E; auto. destruct (line_get ls i) eqn:El; auto.
  specialize (U _ _ _ _ E El). lia.
Qed.
Lemma untried_mark s t i d : untried s (t_name t) i -> untried (s_mark s t i d) (t_name t) (S i).
Proof.
  intros U t' ls j x. unfold s_mark. destruct (s_get s (t_name t)) as [[t2 l2]|] eqn:E; rewrite s_get_set, bytes_eqb_refl;
    intros [= <- <-]; cbn [line_get]; destruct (Nat.eqb_spec i j); try lia; intros El; [|discriminate].
  specialize (U _ _ _ _ E El). lia.
Qed.

Lemma value_block call bound t prev : 1 <= bound -> forall ls i s cur, untried s (t_name t) i -> Forall (fun l => l <> []) ls ->
  (forall k l rest, nth_error ls k = Some l -> cur = map snd l ++ rest ->
    (forall j l' r, j < k -> nth_error ls j = Some l' -> cur <> map snd l' ++ r) ->
    snd (block_run call bound t (map vline ls) i s None [] false [] prev cur) = Ok ([TLine (i + k) (vline l) false (velements l)], rest)) /\
  ((forall l r, In l ls -> cur <> map snd l ++ r) -> snd (block_run call bound t (map vline ls) i s None [] false [] prev cur) = Ok ([], cur)).
Proof.
  intros B. induction ls as [|l0 ls IH]; intros i s cur U F; cbn [map block_run].
  - split; [intros [|k] l rest; discriminate|auto].
  - inversion F as [|? ? Ne F']; subst. rewrite (untried_visited _ _ _ cur U).
    destruct (value_line call bound false None l0 i (s_mark s t i cur) prev cur B) as (A & C).
    destruct (IH (S i) (s_mark s t i cur) cur) as (D & G); [now apply untried_mark|auto|]. split.
    + intros [|k] l rest En Ec Hj; cbn [nth_error] in En.
      * injection En as ->. rewrite (A rest Ec). cbn [stry]. rewrite vline_ok by assumption. cbn [snd app]. now rewrite Nat.add_0_r.
      * rewrite C by (intros r; apply (Hj 0 l0 r); [lia|reflexivity]). cbn [stry].
        rewrite (D k l rest En Ec); [do 3 f_equal; f_equal; lia|]. intros j l' r Lj En'. apply (Hj (S j)); [lia|exact En'].
    + intros H. rewrite C by (intros r; apply H; now left). cbn [stry]. apply G. intros l r I. apply H. now right.
Qed.

Lemma untried_enter t : untried (s_enter [] t) (t_name t) 0.
Proof. intros t' ls j x. unfold s_enter. cbn [s_get]. rewrite s_get_set, bytes_eqb_refl. intros [= <- <-]. discriminate. Qed.

Lemma value_execute f n ls su data : 2 <= f -> Forall (fun l => l <> []) ls ->
  (forall k l rest, nth_error ls k = Some l -> data = map snd l ++ rest ->
    (forall j l' r, j < k -> nth_error ls j = Some l' -> data <> map snd l' ++ r) ->
    execute f (Grammar (Token n (map vline ls) su) []) data =
      Ok (Tree (Token n (map vline ls) su) [TLine k (vline l) false (velements l)] [] rest)) /\
  ((forall l r, In l ls -> data <> map snd l ++ r) -> execute f (Grammar (Token n (map vline ls) su) []) data = Err).
Proof.
  intros L F. destruct f as [|f]; [lia|]. unfold execute. cbn [token_run]. unfold token_step. cbn [t_lines].
  set (t := Token n (map vline ls) su).
  destruct (value_block (token_run f) f t [] ltac:(lia) ls 0 (s_enter [] t) data (untried_enter t) F) as (A & C).
  destruct (block_run (token_run f) f t (map vline ls) 0 (s_enter [] t) None [] false [] [] data) as [s1 o]. cbn [snd] in *. split.
  - intros k l rest En Ed H. rewrite (A k l rest En Ed H). reflexivity.
  - intros H. rewrite (C H). reflexivity.
Qed.

(** ** Diverging recursion *)
(** [name] with lines @name, @name, 'b'. *)
Definition twice (n m : bytes) (b : byte) (su : list suite) : token :=
  Token n [[CElement (ERecursive n) 1 (Some 1%Z)]; [CElement (ERecursive n) 1 (Some 1%Z)]; [CElement (EValue m b) 1 (Some 1%Z)]] su.

Section Twice.
  Variables (n m : bytes) (b x : byte) (su : list suite) (rest : bytes).
  Hypothesis Hx : Byte.eqb b x = false.
  Let t := twice n m b su.
  Let d : bytes := x :: rest.

  Definition lines_tried (l : list (nat * bytes)) : smap := [(n, (t, l))].

  Lemma get_tried l : s_get (lines_tried l) n = Some (t, l).
  Proof. cbn. now rewrite bytes_eqb_refl. Qed.
  Lemma enter_tried l : s_enter (lines_tried l) t = lines_tried l.
  Proof. unfold s_enter. change (t_name t) with n. now rewrite get_tried. Qed.
  Lemma visited_tried l i : s_visited (lines_tried l) n i d = match line_get l i with Some d' => bytes_eqb d d' | None => false end.
  Proof. unfold s_visited. now rewrite get_tried. Qed.
  Lemma mark_tried l i e : s_mark (lines_tried l) t i e = lines_tried ((i, e) :: l).
  Proof. unfold s_mark. change (t_name t) with n. rewrite get_tried. unfold s_set, lines_tried. cbn. now rewrite bytes_eqb_refl. Qed.
  Lemma mark_nil i e : s_mark [] t i e = lines_tried [(i, e)].
  Proof. reflexivity. Qed.
  Lemma del_tried l : s_del (lines_tried l) n = [].
  Proof. unfold s_del, lines_tried. cbn. now rewrite bytes_eqb_refl. Qed.

  (** Both recursive lines were tried: an error, with nothing left in the map. *)
  Lemma twice_both f prev l : line_get l 0 = Some d -> line_get l 1 = Some d -> line_get l 2 = None ->
    token_run f t (lines_tried l) None [] false prev d = ([], Err) \/ snd (token_run f t (lines_tried l) None [] false prev d) = Fuel.
  Proof.
    intros E0 E1 E2. destruct f as [|f]; [now right|]. cbn [token_run]. unfold token_step. rewrite enter_tried. cbn [t_lines t twice block_run].
    fold t. change (t_name t) with n. rewrite !visited_tried, E0, E1, E2, bytes_eqb_refl. cbv iota.
    destruct f as [|f].
    - right. cbn [line_run]. rewrite mark_tried. unfold line_run. cbn [containers_run repeat_run]. reflexivity.
    - left. rewrite mark_tried. unfold line_run. cbn [containers_run]. rewrite value_repeat. unfold d. rewrite Hx. cbn [sbind stry].
      change (zlen (@nil tcontent) <? i64 1)%Z with true. cbv iota. cbn [sbind stry block_run]. change (t_name t) with n. now rewrite del_tried.
  Qed.

  Lemma recursive_line f s l prev i : s_get s n = Some (t, l) ->
    (snd (token_run f t s None [] false prev d) = Fuel ->
     snd (line_run (token_run f) f [CElement (ERecursive n) 1 (Some 1%Z)] i s None [] false prev d) = Fuel) /\
    (token_run f t s None [] false prev d = ([], Err) ->
     line_run (token_run f) f [CElement (ERecursive n) 1 (Some 1%Z)] i s None [] false prev d = ([], Err)).
  Proof.
    intros G. unfold line_run. cbn [containers_run]. destruct f as [|f]; [split; [reflexivity|discriminate]|].
    cbn [repeat_run]. subst d. cbv iota. change (1 <=? zlen (@nil tcontent))%Z with false. cbv iota.
    cbn [element_run]. rewrite G. destruct (token_run (S f) t s None [] false prev (x :: rest)) as [s' o]. cbn [snd].
    split; [intros ->; reflexivity|intros [= -> ->]; reflexivity].
  Qed.

  Lemma twice_loops : forall f prev, snd (token_run f t (lines_tried [(1, d)]) None [] false prev d) = Fuel.
  Proof.
    induction f as [|f IH]; intros prev; cbn [token_run]; [reflexivity|]. unfold token_step. rewrite enter_tried.
    cbn [t_lines t twice block_run]. fold t. change (t_name t) with n. rewrite visited_tried. cbn [line_get Nat.eqb]. rewrite mark_tried.
    destruct (recursive_line f (lines_tried [(0, d); (1, d)]) _ prev 0 (get_tried _)) as (A & B).
    destruct (twice_both f prev [(0, d); (1, d)]) as [E|E]; auto.
    - rewrite (B E). cbn [stry]. cbn [s_visited s_get]. rewrite mark_nil.
      destruct (recursive_line f (lines_tried [(1, d)]) _ prev 1 (get_tried _)) as (A' & _). specialize (A' (IH prev)).
      destruct (line_run (token_run f) f [CElement (ERecursive n) 1 (Some 1%Z)] 1 (lines_tried [(1, d)]) None [] false prev d) as [s' o].
      cbn [snd] in A'. subst o. reflexivity.
    - specialize (A E).
      destruct (line_run (token_run f) f [CElement (ERecursive n) 1 (Some 1%Z)] 0 (lines_tried [(0, d); (1, d)]) None [] false prev d) as [s' o].
      cbn [snd] in A. subst o. reflexivity.
  Qed.

  (** With one line tried and the other one not. *)
  Lemma twice_one f prev : token_run f t (lines_tried [(0, d)]) None [] false prev d = ([], Err) \/
    snd (token_run f t (lines_tried [(0, d)]) None [] false prev d) = Fuel.
  Proof.
    destruct f as [|f]; [now right|]. cbn [token_run]. unfold token_step. rewrite enter_tried.
    cbn [t_lines t twice block_run]. fold t. change (t_name t) with n. rewrite !visited_tried. cbn [line_get Nat.eqb].
    rewrite bytes_eqb_refl, mark_tried.
    destruct (recursive_line f (lines_tried [(1, d); (0, d)]) _ prev 1 (get_tried _)) as (A & B).
    destruct (twice_both f prev [(1, d); (0, d)]) as [E|E]; auto.
    - rewrite (B E). cbn [stry]. cbn [s_visited s_get]. rewrite mark_nil. destruct f as [|f].
      + right. reflexivity.
      + left. unfold line_run. cbn [containers_run]. rewrite value_repeat. unfold d. rewrite Hx. cbn [sbind stry].
        change (zlen (@nil tcontent) <? i64 1)%Z with true. cbv iota. cbn [sbind stry block_run]. change (t_name t) with n. now rewrite del_tried.
    - right. specialize (A E).
      destruct (line_run (token_run f) f [CElement (ERecursive n) 1 (Some 1%Z)] 1 (lines_tried [(1, d); (0, d)]) None [] false prev d) as [s' o].
      cbn [snd] in A. subst o. reflexivity.
  Qed.

  Lemma twice_diverges f : execute f (Grammar t []) d = Fuel.
  Proof.
    unfold execute. destruct f as [|f]; cbn [token_run]; [reflexivity|]. unfold token_step.
    change (s_enter [] t) with (lines_tried []).
    cbn [t_lines t twice block_run]. fold t. change (t_name t) with n. rewrite visited_tried. cbn [line_get]. rewrite mark_tried.
    destruct (recursive_line f (lines_tried [(0, d)]) _ [] 0 (get_tried _)) as (A & B).
    destruct (twice_one f []) as [E|E].
    - rewrite (B E). cbn [stry]. cbn [s_visited s_get]. rewrite mark_nil.
      destruct (recursive_line f (lines_tried [(1, d)]) _ [] 1 (get_tried _)) as (A' & _). specialize (A' (twice_loops f [])).
      destruct (line_run (token_run f) f [CElement (ERecursive n) 1 (Some 1%Z)] 1 (lines_tried [(1, d)]) None [] false [] d) as [s' o].
      cbn [snd] in A'. subst o. reflexivity.
    - specialize (A E).
      destruct (line_run (token_run f) f [CElement (ERecursive n) 1 (Some 1%Z)] 0 (lines_tried [(0, d)]) None [] false [] d) as [s' o].
      cbn [snd] in A. subst o. reflexivity.
  Qed.
End Twice.
