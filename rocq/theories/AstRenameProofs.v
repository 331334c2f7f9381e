(** The parser commutes with changing names, bytes and suites. *)
From Coq Require Import List ZArith Lia Bool.
From Coq Require Import Init.Byte Strings.Byte.
From Verif Require Import Base BaseLemmas AstModel SpecAst AstProofs AstTraceProofs SpecRename.
Import ListNotations.

Section Rename.
  Variable fn : bytes -> bytes.
  Variable fb : byte -> byte.
  Variable fs : list suite -> list suite.
  Hypothesis fn_inj : forall a b, fn a = fn b -> a = b.
  Hypothesis fb_inj : forall a b, fb a = fb b -> a = b.

  Notation mt := (map_token fn fb fs).
  Notation mc := (map_container fn fb fs).
  Notation me := (map_content fn fb fs).
  Notation mg := (map_grammar fn fb fs).
  Notation mch := (map_channel fn fb fs).
  Notation mtr := (map_tree fn fb fs).
  Notation mtl := (map_tline fn fb fs).
  Notation mte := (map_telement fn fb fs).
  Notation mtc := (map_tcontent fn fb fs).
  Notation mb := (map fb).
  Definition mo (o : option token) : option token := match o with Some u => Some (mt u) | None => None end.

  Lemma eqb_fn : forall a b, bytes_eqb (fn a) (fn b) = bytes_eqb a b.
  Proof.
    intros a b. apply eq_true_iff_eq. rewrite !bytes_eqb_true. split; [apply fn_inj|now intros ->].
  Qed.
  Lemma eqb_fb : forall a b, Byte.eqb (fb a) (fb b) = Byte.eqb a b.
  Proof.
    intros a b. destruct (Byte.eqb a b) eqn:E.
    - apply Byte.byte_dec_bl in E as ->. apply Byte.byte_dec_lb. reflexivity.
    - destruct (Byte.eqb (fb a) (fb b)) eqn:E2; [|reflexivity]. apply Byte.byte_dec_bl in E2. apply fb_inj in E2 as ->.
      rewrite (Byte.byte_dec_lb (eq_refl b)) in E. discriminate.
  Qed.
  Lemma eqb_mb : forall a b, bytes_eqb (mb a) (mb b) = bytes_eqb a b.
  Proof.
    intros a b. apply eq_true_iff_eq. rewrite !bytes_eqb_true. split; [|now intros ->]. revert b.
    induction a as [|x a IH]; intros [|y b]; cbn; try discriminate; auto. intros [= E1 E2]. apply fb_inj in E1 as ->. f_equal. auto.
  Qed.

  Lemma t_name_map : forall t, t_name (mt t) = fn (t_name t).
  Proof. now intros []. Qed.
  Lemma e_name_map : forall e, e_name (me e) = fn (e_name e).
  Proof. intros []; cbn; auto. apply t_name_map. Qed.
  Lemma c_name_map : forall c, c_name (mc c) = fn (c_name c).
  Proof. intros []; cbn; auto. apply e_name_map. Qed.
  Lemma t_lines_map : forall t, t_lines (mt t) = map (map mc) (t_lines t).
  Proof. now intros []. Qed.
  Lemma t_suites_map : forall t, t_suites (mt t) = fs (t_suites t).
  Proof. now intros []. Qed.

  Lemma zlen_map : forall A B (f : A -> B) l, zlen (map f l) = zlen l.
  Proof. intros. unfold zlen. now rewrite map_length. Qed.
  Lemma amount_map : forall e, amount (mte e) = amount e.
  Proof. intros []. unfold amount. cbn. apply zlen_map. Qed.
  Lemma occurrences_map : forall l : list (byte * Z), occurrences (map (fun x => (fb (fst x), snd x)) l) = occurrences l.
  Proof.
    intros l. unfold occurrences. generalize 0%Z. induction l as [|x l IH]; intros z; cbn [map fold_left snd]; auto.
  Qed.
  Lemma element_ok_map : forall e, element_ok (mte e) = element_ok e.
  Proof.
    intros e. unfold element_ok. rewrite amount_map. destruct e as [[[c mi ma|n l]|] cs]; cbn [map_telement el_grammar map_container]; auto.
    now rewrite occurrences_map.
  Qed.
  Lemma fetch_map : forall es n, fetch_element (map mte es) (fn n) = option_map mte (fetch_element es n).
  Proof.
    intros es n. unfold fetch_element. rewrite <- map_rev. induction (rev es) as [|e l IH]; [reflexivity|]. cbn [map find].
    destruct e as [[c|] cs]; cbn [map_telement el_grammar]; [|exact IH]. rewrite c_name_map, eqb_fn. now destruct (bytes_eqb _ _).
  Qed.
  Lemma container_ok_map : forall es c, container_ok (map mte es) (mc c) = container_ok es c.
  Proof.
    intros es [e mi ma|n l]; cbn [map_container container_ok].
    - destruct (mi <=? 0)%Z; [reflexivity|]. rewrite e_name_map, fetch_map. destruct (fetch_element es (e_name e)); cbn; [|reflexivity].
      now rewrite amount_map.
    - rewrite fetch_map, occurrences_map. destruct (fetch_element es n); cbn; [|reflexivity]. now rewrite amount_map.
  Qed.
  Lemma forallb_map_ : forall A B (f : A -> B) (p : B -> bool) l, forallb p (map f l) = forallb (fun x => p (f x)) l.
  Proof. intros A B f p. induction l as [|x l IH]; cbn; [reflexivity|]. now rewrite IH. Qed.
  Lemma forallb_same : forall A (p q : A -> bool) l, (forall x, p x = q x) -> forallb p l = forallb q l.
  Proof. intros A p q l E. induction l as [|x l IH]; cbn; [reflexivity|]. now rewrite IH, E. Qed.
  Lemma line_ok_map : forall l, line_ok (mtl l) = line_ok l.
  Proof.
    intros [i g r es]. destruct es as [|e es]; [reflexivity|].
    change (forallb element_ok (map mte (e :: es)) && (r || forallb (container_ok (map mte (e :: es))) (map mc g)) =
            forallb element_ok (e :: es) && (r || forallb (container_ok (e :: es)) g)).
    rewrite !forallb_map_. rewrite (forallb_same _ _ element_ok) by (intros; apply element_ok_map).
    rewrite (forallb_same _ _ (container_ok (e :: es))) by (intros; apply container_ok_map). reflexivity.
  Qed.
  Lemma successful_map : forall b, successful (map mtl b) = option_map mtl (successful b).
  Proof.
    unfold successful. induction b as [|l b IH]; [reflexivity|]. cbn [map find]. rewrite line_ok_map. now destruct (line_ok l).
  Qed.
  Lemma has_successful_map : forall t, has_successful (mtr t) = has_successful t.
  Proof. intros [g b s r]. unfold has_successful. cbn [map_tree tr_block]. rewrite successful_map. now destruct (successful b). Qed.

  Fixpoint tree_bytes_map (inc : bool) (t : tree) : tree_bytes inc (mtr t) = mb (tree_bytes inc t)
  with line_bytes_map (inc : bool) (l : tline) : line_bytes inc (mtl l) = mb (line_bytes inc l)
  with element_bytes_map (inc : bool) (e : telement) : element_bytes inc (mte e) = mb (element_bytes inc e)
  with content_bytes_map (inc : bool) (c : tcontent) : content_bytes inc (mtc c) = mb (content_bytes inc c).
  Proof.
    - destruct t as [g b s r]. cbn [map_tree].
      assert (E1 : flat_map (tree_bytes inc) (map mtr s) = mb (flat_map (tree_bytes inc) s)).
      { clear -tree_bytes_map. revert s. fix go 1. intros [|u s]; [reflexivity|]. cbn [map flat_map]. rewrite map_app. f_equal; [apply tree_bytes_map|apply go]. }
      assert (E2 : forall l, successful b = Some l -> line_bytes inc (mtl l) = mb (line_bytes inc l)).
      { clear -line_bytes_map. revert b. fix go 1. intros [|l b] l0; unfold successful; cbn [find]; [discriminate|].
        destruct (line_ok l); [intros [= <-]; apply line_bytes_map|apply go]. }
      rewrite !tree_bytes_eq, successful_map. destruct (successful b) as [l|]; cbn [option_map]; [|reflexivity].
      rewrite map_app, E2 by reflexivity. f_equal. destruct inc; [exact E1|reflexivity].
    - destruct l as [i g r es]. cbn [map_tline line_bytes]. clear -element_bytes_map. revert es. fix go 1.
      intros [|e es]; [reflexivity|]. cbn [map flat_map]. rewrite map_app. f_equal; [apply element_bytes_map|apply go].
    - destruct e as [g cs]. cbn [map_telement element_bytes]. clear -content_bytes_map. revert cs. fix go 1.
      intros [|c cs]; [reflexivity|]. cbn [map flat_map]. rewrite map_app. f_equal; [apply content_bytes_map|apply go].
    - destruct c as [b p|t]; cbn [map_tcontent content_bytes]; [|apply tree_bytes_map].
      rewrite map_app. f_equal. destruct inc; [|reflexivity]. clear -tree_bytes_map. revert p. fix go 1.
      intros [|u p]; [reflexivity|]. cbn [map flat_map]. rewrite map_app. f_equal; [apply tree_bytes_map|apply go].
  Qed.

  (** The stack. *)
  Definition me1 (x : nat * bytes) : nat * bytes := (fst x, mb (snd x)).
  Definition ment (x : token * list (nat * bytes)) : token * list (nat * bytes) := (mt (fst x), map me1 (snd x)).
  Definition ms (s : smap) : smap := map (fun x => (fn (fst x), ment (snd x))) s.

  Lemma s_get_map : forall s n, s_get (ms s) (fn n) = option_map ment (s_get s n).
  Proof.
    induction s as [|[m x] s IH]; intros n; [reflexivity|]. cbn [ms map s_get fst snd]. rewrite eqb_fn.
    destruct (bytes_eqb m n); [reflexivity|apply IH].
  Qed.
  Lemma s_del_map : forall s n, s_del (ms s) (fn n) = ms (s_del s n).
  Proof.
    induction s as [|[m x] s IH]; intros n; [reflexivity|]. unfold s_del in *. cbn [ms map filter fst snd]. rewrite eqb_fn.
    destruct (bytes_eqb m n); cbn [negb]; [apply IH|]. cbn [ms map fst snd]. f_equal. apply IH.
  Qed.
  Lemma s_set_map : forall s n x, s_set (ms s) (fn n) (ment x) = ms (s_set s n x).
  Proof. intros. unfold s_set. rewrite s_del_map. reflexivity. Qed.
  Lemma s_enter_map : forall s t, s_enter (ms s) (mt t) = ms (s_enter s t).
  Proof.
    intros. unfold s_enter. rewrite t_name_map, s_get_map. destruct (s_get s (t_name t)); [reflexivity|].
    cbn [option_map]. apply (s_set_map s (t_name t) (t, [])).
  Qed.
  Lemma line_get_map : forall l i, line_get (map me1 l) i = option_map mb (line_get l i).
  Proof. induction l as [|[j d] l IH]; intros i; [reflexivity|]. cbn. now destruct (Nat.eqb j i). Qed.
  Lemma s_visited_map : forall s n i d, s_visited (ms s) (fn n) i (mb d) = s_visited s n i d.
  Proof.
    intros. unfold s_visited. rewrite s_get_map. destruct (s_get s n) as [[t ls]|]; [|reflexivity]. cbn [option_map ment fst snd].
    rewrite line_get_map. destruct (line_get ls i); [|reflexivity]. cbn [option_map]. apply eqb_mb.
  Qed.
  Lemma s_mark_map : forall s t i d, s_mark (ms s) (mt t) i (mb d) = ms (s_mark s t i d).
  Proof.
    intros. unfold s_mark. rewrite t_name_map, s_get_map. destruct (s_get s (t_name t)) as [[u ls]|]; cbn [option_map ment fst snd].
    - apply (s_set_map s (t_name t) (u, (i, d) :: ls)).
    - apply (s_set_map s (t_name t) (t, [(i, d)])).
  Qed.

  (** Results. *)
  Definition mr {A B} (f : A -> B) (r : smap * outcome A) : smap * outcome B := (ms (fst r), map_outcome f (snd r)).

  Lemma bind_map : forall A B A' B' (f : A -> A') (h : B -> B') (m : outcome A) (k : A -> outcome B) (k' : A' -> outcome B'),
    (forall a, k' (f a) = map_outcome h (k a)) -> bind (map_outcome f m) k' = map_outcome h (bind m k).
  Proof. intros. destruct m; cbn; auto. Qed.
  Lemma sbind_map : forall A B A' B' (f : A -> A') (h : B -> B') (m : smap * outcome A) (k : smap -> A -> smap * outcome B)
    (k' : smap -> A' -> smap * outcome B'),
    (forall s a, k' (ms s) (f a) = mr h (k s a)) -> sbind (mr f m) k' = mr h (sbind m k).
  Proof. intros. destruct m as [s []]; cbn; auto. Qed.
  Lemma stry_map : forall A B A' B' (f : A -> A') (h : B -> B') (m : smap * outcome A) (k : smap -> option A -> smap * outcome B)
    (k' : smap -> option A' -> smap * outcome B'),
    (forall s o, k' (ms s) (option_map f o) = mr h (k s o)) -> stry (mr f m) k' = mr h (stry m k).
  Proof.
    intros A B A' B' f h m k k' E. destruct m as [s []]; cbn [mr fst snd map_outcome stry]; auto; [apply (E s (Some a))|apply (E s None)].
  Qed.

  Section Step.
    Variables call call' : call_t.
    Variable bound : nat.
    Hypothesis Hc : forall t s esc chs rev prev cur,
      call' (mt t) (ms s) (mo esc) (map mch chs) rev (mb prev) (mb cur) = mr mtr (call t s esc chs rev prev cur).

    Definition hc0 t s rev prev cur := Hc t s None [] rev prev cur.
    Lemma hc_plain : forall t rev prev cur, snd (call' (mt t) [] None [] rev (mb prev) (mb cur)) = map_outcome mtr (snd (call t [] None [] rev prev cur)).
    Proof. intros. now rewrite (Hc t [] None [] rev prev cur : call' (mt t) [] None [] rev (mb prev) (mb cur) = _). Qed.

    Lemma tr_remaining_map : forall t, tr_remaining (mtr t) = mb (tr_remaining t).
    Proof. now intros []. Qed.

    Lemma channel_condition_map : forall a b prev next,
      channel_condition call' (mo a, mo b) (mb prev) (mb next) = channel_condition call (a, b) prev next.
    Proof.
      intros a b prev next. unfold channel_condition. cbn [fst snd].
      assert (X : forall o d, match mo o with None => Ok tt | Some t => do _ <- snd (call' t [] None [] false [] (mb d)); Ok tt end =
                              match o with None => Ok tt | Some t => do _ <- snd (call t [] None [] false [] d); Ok tt end).
      { intros [t|] d; cbn [mo]; [|reflexivity]. pose proof (hc_plain t false [] d) as E. cbn [map] in E. rewrite E.
        now destruct (snd (call t [] None [] false [] d)). }
      rewrite (X a prev), (X b next). reflexivity.
    Qed.
    Lemma channel_run_map : forall c prev cur, channel_run call' (mch c) (mb prev) (mb cur) = map_outcome mtr (channel_run call c prev cur).
    Proof.
      intros [t cond] prev cur. destruct cond as [[a b]|].
      - change (channel_run call' (Channel (mt t) (Some (mo a, mo b))) (mb prev) (mb cur) = map_outcome mtr (channel_run call (Channel t (Some (a, b))) prev cur)).
        unfold channel_run. rewrite hc_plain. apply bind_map. intros tr. rewrite tr_remaining_map, channel_condition_map.
        now destruct (channel_condition call (a, b) prev (tr_remaining tr)).
      - change (channel_run call' (Channel (mt t) None) (mb prev) (mb cur) = map_outcome mtr (channel_run call (Channel t None) prev cur)).
        unfold channel_run. rewrite hc_plain. now apply bind_map.
    Qed.
    Definition mst (st : list tree * bytes * bytes) : list tree * bytes * bytes :=
      (map mtr (fst (fst st)), mb (snd (fst st)), mb (snd st)).
    Lemma channels_round_map : forall l st, channels_round call' (map mch l) (mst st) = map_outcome mst (channels_round call l st).
    Proof.
      induction l as [|c l IH]; intros [[ts prev] rem]; [reflexivity|]. cbn [map channels_round mst fst snd].
      rewrite channel_run_map. destruct (channel_run call c prev rem) as [t| | |]; cbn [map_outcome]; [| |reflexivity|reflexivity].
      - rewrite tree_bytes_map, !map_length. destruct (_ <? _); [reflexivity|]. destruct (_ =? _); [apply (IH (ts, prev, rem))|].
        rewrite skipn_map. rewrite <- (IH (ts ++ [t], rem, skipn (length (tree_bytes true t)) rem)). f_equal. unfold mst. cbn [fst snd]. now rewrite map_app.
      - apply (IH (ts, prev, rem)).
    Qed.
    Lemma channels_loop_map : forall f l st, channels_loop call' f (map mch l) (mst st) = map_outcome mst (channels_loop call f l st).
    Proof.
      induction f as [|f IH]; intros l st; [reflexivity|]. cbn [channels_loop]. rewrite channels_round_map. apply bind_map. intros st'.
      unfold mst at 1 2. cbn [fst snd]. rewrite !map_length. destruct (_ =? _); [reflexivity|apply IH].
    Qed.
    Definition mpr (p : list tree * bytes) : list tree * bytes := (map mtr (fst p), mb (snd p)).
    Lemma channels_run_map : forall l prev cur, channels_run call' bound (map mch l) (mb prev) (mb cur) = map_outcome mpr (channels_run call bound l prev cur).
    Proof.
      intros. unfold channels_run. change ([], mb prev, mb cur) with (mst ([], prev, cur)). rewrite channels_loop_map.
      apply bind_map. intros [[[|t ts] p] r]; reflexivity.
    Qed.
    Lemma channels_try_map : forall l prev cur, channels_try call' bound (map mch l) (mb prev) (mb cur) = map_outcome mpr (channels_try call bound l prev cur).
    Proof.
      intros [|c l] prev cur; [reflexivity|]. unfold channels_try. cbn [map]. change (mch c :: map mch l) with (map mch (c :: l)).
      rewrite channels_run_map. now destruct (channels_run call bound (c :: l) prev cur).
    Qed.
    Definition mcr (p : tcontent * bytes) : tcontent * bytes := (mtc (fst p), mb (snd p)).
    Lemma element_value_map : forall n chs prev cur,
      element_value call' bound (fb n) (map mch chs) (mb prev) (mb cur) = map_outcome (option_map mcr) (element_value call bound n chs prev cur).
    Proof.
      intros. unfold element_value. rewrite channels_try_map. apply bind_map. intros [ts [|b rem]]; cbn [mpr fst snd map]; [reflexivity|].
      rewrite eqb_fb. now destruct (Byte.eqb n b).
    Qed.
    Lemma found_map : forall t rem, found (mtr t) (mb rem) = map_outcome mcr (found t rem).
    Proof. intros. unfold found. rewrite has_successful_map. now destruct (has_successful t). Qed.
    Lemma external_run_map : forall n g rev prev cur,
      external_run call' (fn n) (mg g) rev (mb prev) (mb cur) = map_outcome mtr (external_run call n g rev prev cur).
    Proof.
      intros n [root chs] rev prev cur. change (mg (Grammar root chs)) with (Grammar (mt root) (map mch chs)). unfold external_run.
      rewrite (Hc root [] None chs rev prev cur : call' (mt root) [] None (map mch chs) rev (mb prev) (mb cur) = _).
      cbn [mr snd]. apply bind_map. intros [g b s r]. cbn [map_tree tr_block map_outcome]. rewrite t_lines_map, t_suites_map. reflexivity.
    Qed.
    Lemma found_rem_map : forall tr, found (mtr tr) (tr_remaining (mtr tr)) = map_outcome mcr (found tr (tr_remaining tr)).
    Proof. intros. rewrite tr_remaining_map. apply found_map. Qed.
    Lemma element_run_map : forall c s esc chs rev prev cur,
      element_run call' bound (me c) (ms s) (mo esc) (map mch chs) rev (mb prev) (mb cur) = mr mcr (element_run call bound c s esc chs rev prev cur).
    Proof.
      intros c s esc chs rev prev [|x cur]; [reflexivity|]. unfold element_run. change (mb (x :: cur)) with (fb x :: mb cur). cbv iota.
      change (fb x :: mb cur) with (mb (x :: cur)). destruct c as [n b|n g|t|n t esc'|n].
      - change (me (EValue n b)) with (EValue (fn n) (fb b)). unfold mr. cbn [fst snd]. f_equal. rewrite element_value_map. apply bind_map. now intros [r|].
      - change (me (EExternal n g)) with (EExternal (fn n) (mg g)). unfold mr. cbn [fst snd]. f_equal. rewrite external_run_map. apply bind_map. intros t. apply (found_map t []).
      - change (me (EToken t)) with (EToken (mt t)). cbv iota. rewrite Hc. apply sbind_map. intros s' tr. unfold mr. cbn [fst snd]. now rewrite found_rem_map.
      - change (me (EEverything n t esc')) with (EEverything (fn n) (mt t) (mo esc')). cbv iota.
        rewrite (Hc t s esc' [] (negb rev) prev (x :: cur) : call' (mt t) (ms s) (mo esc') [] (negb rev) (mb prev) (mb (x :: cur)) = _).
        apply sbind_map. intros s' tr. unfold mr. cbn [fst snd]. now rewrite found_rem_map.
      - change (me (ERecursive n)) with (ERecursive (fn n)). cbv iota. rewrite s_get_map. destruct (s_get s n) as [[t l]|]; cbn [option_map ment fst snd]; [|reflexivity].
        rewrite Hc. apply sbind_map. intros s' tr. unfold mr. cbn [fst snd]. now rewrite found_rem_map.
    Qed.
    Definition mrr (p : list tcontent * bytes * bytes) : list tcontent * bytes * bytes :=
      (map mtc (fst (fst p)), mb (snd (fst p)), mb (snd p)).
    Lemma repeat_run_map : forall f c max s esc chs rev cs prev cur,
      repeat_run call' bound f (me c) max (ms s) (mo esc) (map mch chs) rev (map mtc cs) (mb prev) (mb cur) =
      mr mrr (repeat_run call bound f c max s esc chs rev cs prev cur).
    Proof.
      induction f as [|f IH]; intros c max s esc chs rev cs prev [|x cur]; try reflexivity; cbn [repeat_run map];
        rewrite zlen_map; (destruct (match max with Some m => (m <=? zlen cs)%Z | None => false end); [reflexivity|]); [reflexivity|].
      change (fb x :: mb cur) with (mb (x :: cur)). rewrite element_run_map. apply stry_map. intros s' [[y rem]|]; [|reflexivity].
      cbn [option_map mcr fst snd]. rewrite <- IH. now rewrite map_app.
    Qed.
    Lemma compose_run_map : forall l chs prev cur,
      compose_run call' bound (map (fun x : byte * Z => (fb (fst x), snd x)) l) (map mch chs) (mb prev) (mb cur) =
      map_outcome mb (compose_run call bound l chs prev cur).
    Proof.
      induction l as [|[b k] l IH]; intros chs prev cur; [reflexivity|]. cbn [map compose_run fst snd]. rewrite element_value_map.
      apply bind_map. intros [[y rem]|]; [|reflexivity]. cbn [option_map mcr fst snd]. apply IH.
    Qed.
    Definition mer (p : list telement * bytes) : list telement * bytes := (map mte (fst p), mb (snd p)).
    Lemma containers_run_map : forall l s esc chs rev prev0 es prev cur,
      containers_run call' bound (map mc l) (ms s) (mo esc) (map mch chs) rev (mb prev0) (map mte es) (mb prev) (mb cur) =
      mr mer (containers_run call bound l s esc chs rev prev0 es prev cur).
    Proof.
      induction l as [|[c mi ma|n vs] l IH]; intros s esc chs rev prev0 es prev cur; [reflexivity| |]; cbn [map].
      - change (mc (CElement c mi ma)) with (CElement (me c) mi ma). cbn [containers_run].
        pose proof (repeat_run_map bound c ma s esc chs rev [] prev cur) as R. cbn [map] in R. rewrite R. apply sbind_map.
        intros s' [[cs p'] c']. cbn [mrr fst snd]. rewrite zlen_map. destruct (zlen cs <? i64 mi)%Z; [reflexivity|]. rewrite <- IH. f_equal.
        destruct cs as [|y cs]; [reflexivity|]. cbn [map]. now rewrite map_app.
      - change (mc (CCompose n vs)) with (CCompose (fn n) (map (fun x : byte * Z => (fb (fst x), snd x)) vs)). cbn [containers_run].
        unfold mr. cbn [fst snd]. f_equal. rewrite compose_run_map. apply bind_map. reflexivity.
    Qed.
    Definition mlr (p : tline * bytes) : tline * bytes := (mtl (fst p), mb (snd p)).
    Lemma line_run_map : forall l i s esc chs rev prev cur,
      line_run call' bound (map mc l) i (ms s) (mo esc) (map mch chs) rev (mb prev) (mb cur) = mr mlr (line_run call bound l i s esc chs rev prev cur).
    Proof.
      intros. unfold line_run. rewrite (containers_run_map l s esc chs rev prev [] prev cur : containers_run call' bound (map mc l) (ms s) (mo esc) (map mch chs) rev (mb prev) [] (mb prev) (mb cur) = _).
      apply sbind_map. intros s' r. reflexivity.
    Qed.
    Lemma values_map : forall d : bytes, map (fun b => TValue b []) (mb d) = map mtc (map (fun b => TValue b []) d).
    Proof. intros d. rewrite !map_map. reflexivity. Qed.
    Lemma escape_run_map : forall l i s esc chs cs prev cur,
      escape_run call' bound (map mc l) i (ms s) (mo esc) (map mch chs) (map mtc cs) (mb prev) (mb cur) =
      mr mrr (escape_run call bound l i s esc chs cs prev cur).
    Proof.
      intros l i s [e|] chs cs prev cur; [|reflexivity]. unfold escape_run. cbn [mo].
      rewrite (Hc e s None chs false prev cur : call' (mt e) (ms s) None (map mch chs) false (mb prev) (mb cur) = _). apply stry_map.
      intros s1 [t|]; cbn [option_map]; [|reflexivity]. rewrite has_successful_map. destruct (has_successful t); [|reflexivity].
      rewrite tr_remaining_map. destruct (tr_remaining t) as [|x er]; [reflexivity|]. cbn [map]. change (fb x :: mb er) with (mb (x :: er)).
      change (Some (mt e)) with (mo (Some e)). rewrite line_run_map. apply stry_map. intros s2 [[tl rem]|]; [|reflexivity].
      cbn [option_map mlr fst snd]. rewrite line_ok_map. destruct (line_ok tl); [|reflexivity]. rewrite !map_length.
      destruct (_ <? _); [reflexivity|]. unfold mr, mrr. cbn [fst snd map_outcome]. rewrite firstn_map, skipn_map, values_map, map_app. reflexivity.
    Qed.
    Definition mrl (p : list tcontent * bytes) : list tcontent * bytes := (map mtc (fst p), mb (snd p)).
    Lemma reverse_loop_map : forall f l i s esc chs cs prev cur,
      reverse_loop call' bound f (map mc l) i (ms s) (mo esc) (map mch chs) (map mtc cs) (mb prev) (mb cur) =
      mr mrl (reverse_loop call bound f l i s esc chs cs prev cur).
    Proof.
      induction f as [|f IH]; intros l i s esc chs cs prev [|x cur]; try reflexivity. cbn [reverse_loop map].
      change (fb x :: mb cur) with (mb (x :: cur)). rewrite escape_run_map. apply sbind_map. intros s1 [[cs1 p1] c1]. cbn [mrr fst snd].
      rewrite line_run_map. apply stry_map. intros s2 [[tl rem]|]; cbn [option_map]; [reflexivity|].
      destruct c1 as [|y c2]; [reflexivity|]. cbn [map]. rewrite <- IH. rewrite map_app. reflexivity.
    Qed.
    Definition mbr (p : list tline * bytes) : list tline * bytes := (map mtl (fst p), mb (snd p)).
    Lemma block_run_map : forall t ls i s esc chs rev acc prev cur,
      block_run call' bound (mt t) (map (map mc) ls) i (ms s) (mo esc) (map mch chs) rev (map mtl acc) (mb prev) (mb cur) =
      mr mbr (block_run call bound t ls i s esc chs rev acc prev cur).
    Proof.
      induction ls as [|l ls IH]; intros i s esc chs rev acc prev cur; [reflexivity|]. cbn [map block_run].
      rewrite t_name_map, s_visited_map. destruct (s_visited s (t_name t) i cur); [apply IH|]. rewrite s_mark_map. destruct rev.
      - rewrite (reverse_loop_map bound l i (s_mark s t i cur) esc chs [] prev cur : reverse_loop call' bound bound (map mc l) i (ms (s_mark s t i cur)) (mo esc) (map mch chs) [] (mb prev) (mb cur) = _).
        apply sbind_map. intros s2 [[|c cs] r]; [reflexivity|]. unfold mr, mbr. cbn [fst snd map_outcome mrl map]. rewrite map_app. reflexivity.
      - rewrite line_run_map. apply stry_map. intros s2 [[tl rem]|]; cbn [option_map mlr fst snd]; [|apply IH]. rewrite line_ok_map.
        destruct (line_ok tl).
        + unfold mr, mbr. cbn [fst snd map_outcome]. now rewrite map_app.
        + rewrite <- IH. now rewrite map_app.
    Qed.
    Lemma token_step_map : forall t s esc chs rev prev cur,
      token_step call' bound (mt t) (ms s) (mo esc) (map mch chs) rev (mb prev) (mb cur) = mr mtr (token_step call bound t s esc chs rev prev cur).
    Proof.
      intros. unfold token_step. rewrite s_enter_map, t_lines_map.
      rewrite (block_run_map t (t_lines t) 0 (s_enter s t) esc chs rev [] prev cur :
        block_run call' bound (mt t) (map (map mc) (t_lines t)) 0 (ms (s_enter s t)) (mo esc) (map mch chs) rev [] (mb prev) (mb cur) = _).
      destruct (block_run call bound t (t_lines t) 0 (s_enter s t) esc chs rev [] prev cur) as [s1 o]. unfold mr at 1. cbn [fst snd].
      rewrite t_name_map, s_del_map. destruct o as [[[|l b] rem]| | |]; cbn [map_outcome mbr fst snd map]; try reflexivity.
      unfold mr. cbn [fst snd]. f_equal. rewrite channels_try_map. apply bind_map. intros sf. reflexivity.
    Qed.
  End Step.

  Theorem token_run_map : forall fuel t s esc chs rev prev cur,
    token_run fuel (mt t) (ms s) (mo esc) (map mch chs) rev (mb prev) (mb cur) = mr mtr (token_run fuel t s esc chs rev prev cur).
  Proof.
    induction fuel as [|f IH]; intros; [reflexivity|]. cbn [token_run]. apply token_step_map. exact IH.
  Qed.
  Theorem execute_map : forall fuel g data, execute fuel (mg g) (mb data) = map_outcome mtr (execute fuel g data).
  Proof.
    intros fuel [root chs] data. change (mg (Grammar root chs)) with (Grammar (mt root) (map mch chs)). unfold execute.
    rewrite (token_run_map fuel root [] None chs false [] data : token_run fuel (mt root) [] None (map mch chs) false [] (mb data) = _). reflexivity.
  Qed.
End Rename.
