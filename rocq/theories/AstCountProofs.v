(** Counting the calls of the parser does not change what it does. *)
From Coq Require Import List ZArith Lia Bool.
From Coq Require Import Init.Byte Strings.Byte.
From Verif Require Import Base BaseLemmas AstModel SpecAst AstProofs SpecCount.
Import ListNotations.

Lemma neq_eqb (a b : bytes) : a <> b -> bytes_eqb a b = false.
Proof. intros N. destruct (bytes_eqb a b) eqn:E; [|reflexivity]. apply bytes_eqb_true in E. contradiction. Qed.

Section Same.
  Variable k : bytes.
  Variable r : token.
  Hypothesis Hn : forall t, within r t -> t_name t <> k.
  Hypothesis Hr : every_container (fun c => match c with
                              | CElement (EExternal _ _) _ _ => False
                              | CElement (ERecursive n) _ _ => n <> k
                              | _ => True
                              end) r.

  Notation del s := (s_del s k).
  Definition tidy (s : smap) : Prop := forall n t ls, n <> k -> s_get s n = Some (t, ls) -> within r t.

  Lemma get_del s n : n <> k -> s_get (del s) n = s_get s n.
  Proof. intros N. rewrite s_get_del, neq_eqb; auto. Qed.
  Lemma del_del s n : s_del (del s) n = del (s_del s n).
  Proof.
    unfold s_del. induction s as [|x s IH]; cbn [filter]; [reflexivity|].
    destruct (bytes_eqb (fst x) k) eqn:E1; destruct (bytes_eqb (fst x) n) eqn:E2; cbn [negb filter]; rewrite ?E1, ?E2; cbn [negb]; auto.
    now f_equal.
  Qed.
  Lemma set_del s n x : n <> k -> s_set (del s) n x = del (s_set s n x).
  Proof. intros N. unfold s_set. rewrite del_del. unfold s_del at 3. cbn [filter fst]. now rewrite (neq_eqb n k N). Qed.
  Lemma enter_del s t : t_name t <> k -> s_enter (del s) t = del (s_enter s t).
  Proof. intros N. unfold s_enter. rewrite get_del by auto. destruct (s_get s (t_name t)); auto. now apply set_del. Qed.
  Lemma mark_del s t i d : t_name t <> k -> s_mark (del s) t i d = del (s_mark s t i d).
  Proof. intros N. unfold s_mark. rewrite get_del by auto. destruct (s_get s (t_name t)) as [[u ls]|]; now apply set_del. Qed.
  Lemma visited_del s n i d : n <> k -> s_visited (del s) n i d = s_visited s n i d.
  Proof. intros N. unfold s_visited. now rewrite get_del. Qed.
  Lemma del_idem s : del (del s) = del s.
  Proof.
    unfold s_del. induction s as [|x s IH]; cbn [filter]; [reflexivity|].
    destruct (bytes_eqb (fst x) k) eqn:E; cbn [negb filter]; rewrite ?E; cbn [negb]; auto. now f_equal.
  Qed.
  Lemma del_tick s : del (tick k s) = del s.
  Proof.
    unfold tick, s_set. unfold s_del at 1. cbn [filter fst]. rewrite bytes_eqb_refl. cbn [negb]. apply del_idem.
  Qed.
  Lemma tidy_tick s : tidy s -> tidy (tick k s).
  Proof.
    intros T n t ls N. unfold tick. rewrite s_get_set. rewrite (neq_eqb k n) by congruence. apply T, N.
  Qed.
  Lemma tidy_del s n : tidy s -> tidy (s_del s n).
  Proof. intros T m t ls N. rewrite s_get_del. destruct (bytes_eqb n m); [discriminate|]. apply T, N. Qed.
  Lemma tidy_set s n t ls : tidy s -> within r t -> tidy (s_set s n (t, ls)).
  Proof. intros T W m u us N. rewrite s_get_set. destruct (bytes_eqb n m); [intros [= <- <-]; auto|]. apply T, N. Qed.
  Lemma tidy_enter s t : tidy s -> within r t -> tidy (s_enter s t).
  Proof. intros T W. unfold s_enter. destruct (s_get s (t_name t)); auto. now apply tidy_set. Qed.
  Lemma tidy_mark s t i d : tidy s -> within r t -> tidy (s_mark s t i d).
  Proof.
    intros T W. unfold s_mark. destruct (s_get s (t_name t)) as [[u ls]|] eqn:G; apply tidy_set; auto.
    eapply T; [|exact G]. now apply Hn.
  Qed.
  Lemma tidy_nil : tidy [].
  Proof. intros n t ls _. discriminate. Qed.

  (** The second result is the first, but for the count. *)
  Definition like {A} (m1 m2 : smap * outcome A) : Prop := tidy (fst m1) /\ m2 = (del (fst m1), snd m1).
  Lemma like_pair A s (o : outcome A) : tidy s -> like (s, o) (del s, o).
  Proof. intros T. split; auto. Qed.
  Lemma like_bind A B (m1 m2 : smap * outcome A) (k1 k2 : smap -> A -> smap * outcome B) :
    like m1 m2 -> (forall s a, tidy s -> like (k1 s a) (k2 (del s) a)) -> like (sbind m1 k1) (sbind m2 k2).
  Proof. intros [T ->] K. destruct m1 as [s [a| | |]]; cbn [fst snd sbind] in *; auto using like_pair. Qed.
  Lemma like_try A B (m1 m2 : smap * outcome A) (k1 k2 : smap -> option A -> smap * outcome B) :
    like m1 m2 -> (forall s a, tidy s -> like (k1 s a) (k2 (del s) a)) -> like (stry m1 k1) (stry m2 k2).
  Proof. intros [T ->] K. destruct m1 as [s [a| | |]]; cbn [fst snd stry] in *; auto using like_pair. Qed.

  Definition inner_esc (esc : option token) : Prop := match esc with Some e => within r e | None => True end.
  (** What the elements of lines are. *)
  Definition inner_content (c : econtent) : Prop :=
    match c with
    | EValue _ _ => True
    | EExternal _ _ => False
    | EToken t => within r t
    | EEverything _ t e => within r t /\ inner_esc e
    | ERecursive n => n <> k
    end.
  Definition inner_line (l : list container) : Prop := forall c min max, In (CElement c min max) l -> inner_content c.

  Lemma lines_inner t l : within r t -> In l (t_lines t) -> inner_line l.
  Proof.
    intros W I c min max Ic. pose proof (Hr t l _ W I Ic) as P. destruct c; cbn in *; auto.
    - eapply within_step; [exact W|]. eapply child_token; eauto.
    - split; [eapply within_step; [exact W|]; eapply child_exception; eauto|]. destruct escape; cbn; auto.
      eapply within_step; [exact W|]. eapply child_escape; eauto.
  Qed.

  Section Step.
    Variables c1 c2 : call_t.
    Variable b : nat.
    Hypothesis Hc : forall t s esc rev prev cur, within r t -> inner_esc esc -> tidy s ->
      like (c1 t s esc [] rev prev cur) (c2 t (del s) esc [] rev prev cur).

    Lemma element_run_like c s esc rev prev cur : inner_content c -> inner_esc esc -> tidy s ->
      like (element_run c1 b c s esc [] rev prev cur) (element_run c2 b c (del s) esc [] rev prev cur).
    Proof.
      intros I Ie T. unfold element_run. destruct cur as [|x cur]; [now apply like_pair|]. destruct c; cbn [inner_content] in I.
      - unfold element_value, channels_try. cbn [bind snd fst]. now apply like_pair.
      - destruct I.
      - apply like_bind; [now apply Hc|]. intros. now apply like_pair.
      - apply like_bind; [now apply Hc|]. intros. now apply like_pair.
      - rewrite get_del by auto. destruct (s_get s name) as [[t ls]|] eqn:G; [|now apply like_pair].
        apply like_bind; [apply Hc; auto; eapply T; eauto|]. intros. now apply like_pair.
    Qed.
    Lemma repeat_run_like c max esc rev : inner_content c -> inner_esc esc -> forall f s cs prev cur, tidy s ->
      like (repeat_run c1 b f c max s esc [] rev cs prev cur) (repeat_run c2 b f c max (del s) esc [] rev cs prev cur).
    Proof.
      intros I Ie. induction f as [|f IH]; intros s cs prev cur T; cbn [repeat_run]; (destruct cur as [|x cur]; [now apply like_pair|]);
        (destruct (match max with Some m => _ | None => _ end); [now apply like_pair|]); [now apply like_pair|].
      apply like_try; [now apply element_run_like|]. intros s' [[y rem]|] T'; [now apply IH|now apply like_pair].
    Qed.
    Lemma compose_run_same prev : forall l cur, compose_run c1 b l [] prev cur = compose_run c2 b l [] prev cur.
    Proof.
      induction l as [|[v z] l IH]; intros cur; cbn [compose_run]; [reflexivity|]. unfold element_value, channels_try. cbn [bind snd fst].
      destruct cur as [|x cur]; [reflexivity|]. destruct (Byte.eqb v x); cbn [bind]; auto.
    Qed.
    Lemma containers_run_like esc rev prev0 : inner_esc esc -> forall l s es prev cur, inner_line l -> tidy s ->
      like (containers_run c1 b l s esc [] rev prev0 es prev cur) (containers_run c2 b l (del s) esc [] rev prev0 es prev cur).
    Proof.
      intros Ie. induction l as [|[c min max|n vs] l IH]; intros s es prev cur I T; cbn [containers_run]; [now apply like_pair| |].
      - apply like_bind; [apply repeat_run_like; auto; apply (I c min max); now left|]. intros s' [[cs prev'] cur'] T'.
        destruct (_ <? _)%Z; [now apply like_pair|]. apply IH; auto. intros c' mi ma Ic. apply (I c' mi ma). now right.
      - rewrite compose_run_same. now apply like_pair.
    Qed.
    Lemma line_run_like l i s esc rev prev cur : inner_esc esc -> inner_line l -> tidy s ->
      like (line_run c1 b l i s esc [] rev prev cur) (line_run c2 b l i (del s) esc [] rev prev cur).
    Proof. intros Ie I T. unfold line_run. apply like_bind; [now apply containers_run_like|]. intros. now apply like_pair. Qed.
    Lemma escape_run_like l i s esc cs prev cur : inner_esc esc -> inner_line l -> tidy s ->
      like (escape_run c1 b l i s esc [] cs prev cur) (escape_run c2 b l i (del s) esc [] cs prev cur).
    Proof.
      intros Ie I T. unfold escape_run. destruct esc as [e|]; [|now apply like_pair]. apply like_try; [now apply Hc|].
      intros s1 [t|] T1; [|now apply like_pair]. destruct (has_successful t); [|now apply like_pair].
      destruct (tr_remaining t) as [|x er]; [now apply like_pair|]. apply like_try; [now apply line_run_like|].
      intros s2 [[tl rem]|] T2; [|now apply like_pair]. destruct (line_ok tl); [|now apply like_pair].
      destruct (_ <? _); now apply like_pair.
    Qed.
    Lemma reverse_loop_like l i esc : inner_esc esc -> inner_line l -> forall f s cs prev cur, tidy s ->
      like (reverse_loop c1 b f l i s esc [] cs prev cur) (reverse_loop c2 b f l i (del s) esc [] cs prev cur).
    Proof.
      intros Ie I. induction f as [|f IH]; intros s cs prev cur T; cbn [reverse_loop]; (destruct cur as [|x cur]; [now apply like_pair|]);
        [now apply like_pair|].
      apply like_bind; [now apply escape_run_like|]. intros s1 [[cs1 prev1] cur1] T1.
      apply like_try; [now apply line_run_like|]. intros s2 [[tl rem]|] T2; [now apply like_pair|].
      destruct cur1; [now apply like_pair|now apply IH].
    Qed.
    Lemma block_run_like t esc rev : within r t -> inner_esc esc -> forall ls i s acc prev cur,
      (forall l, In l ls -> inner_line l) -> tidy s ->
      like (block_run c1 b t ls i s esc [] rev acc prev cur) (block_run c2 b t ls i (del s) esc [] rev acc prev cur).
    Proof.
      intros W Ie. induction ls as [|l ls IH]; intros i s acc prev cur I T; cbn [block_run]; [now apply like_pair|].
      assert (I0 : inner_line l) by (apply I; now left). assert (I1 : forall l, In l ls -> inner_line l) by (intros; apply I; now right).
      rewrite visited_del by auto. destruct (s_visited s (t_name t) i cur); [now apply IH|]. rewrite mark_del by auto.
      assert (T1 : tidy (s_mark s t i cur)) by now apply tidy_mark. destruct rev.
      - apply like_bind; [now apply reverse_loop_like|]. intros s2 [cs rem] T2. cbn [fst]. destruct cs; now apply like_pair.
      - apply like_try; [now apply line_run_like|]. intros s2 [[tl rem]|] T2; [|now apply IH]. destruct (line_ok tl); [now apply like_pair|now apply IH].
    Qed.
    Lemma token_step_like t s esc rev prev cur : within r t -> inner_esc esc -> tidy s ->
      like (token_step c1 b t s esc [] rev prev cur) (token_step c2 b t (del s) esc [] rev prev cur).
    Proof.
      intros W Ie T. unfold token_step. rewrite enter_del by auto.
      destruct (block_run_like t esc rev W Ie (t_lines t) 0 (s_enter s t) [] prev cur) as [T1 E].
      { intros l. now apply lines_inner. } { now apply tidy_enter. }
      rewrite E. destruct (block_run c1 b t (t_lines t) 0 (s_enter s t) esc [] rev [] prev cur) as [s1 o]. cbn [fst snd] in *.
      rewrite del_del. pose proof (tidy_del s1 (t_name t) T1) as T2.
      destruct o as [[[|x bl] rem]| | |]; now apply like_pair.
    Qed.
  End Step.

  Theorem counted_like : forall fuel t s esc rev prev cur, within r t -> inner_esc esc -> tidy s ->
    like (counted_run k fuel t s esc [] rev prev cur) (token_run fuel t (del s) esc [] rev prev cur).
  Proof.
    induction fuel as [|f IH]; intros t s esc rev prev cur W Ie T; cbn [counted_run token_run]; [now apply like_pair|].
    rewrite <- (del_tick s). apply token_step_like; auto. now apply tidy_tick.
  Qed.
End Same.

Lemma counted_same : forall k fuel g data, counts_all k g -> snd (counted_execute k fuel g data) = execute fuel g data.
Proof.
  intros k fuel [root chs] data (-> & Hn & Hr). unfold counted_execute, execute. cbn [snd].
  destruct (counted_like k root Hn Hr fuel root [] None false [] data (within_refl root) I (tidy_nil k root)) as [_ E].
  change (token_run fuel root [] None [] false [] data) with (token_run fuel root (s_del [] k) None [] false [] data). now rewrite E.
Qed.

(** ** A token that is tried twice on the same data, at each depth *)
Section Twice.
  Variable k : bytes.
  Notation n := [x41].
  Hypothesis Hk : n <> k.

  Lemma deep_succ m rest : deep (S m) rest = x28 :: deep m (x79 :: rest).
  Proof.
    unfold deep. cbn [repeat app]. do 2 f_equal. clear. f_equal. induction m as [|m IH]; cbn [repeat app]; [reflexivity|]. now f_equal.
  Qed.
  Lemma deep_length m rest : length (deep m rest) = S (2 * m + length rest).
  Proof. unfold deep. rewrite app_length. cbn [length]. rewrite app_length, !repeat_length. lia. Qed.

  (** The lines tried so far, from line [i0] on, were tried on more data. *)
  Definition longer (i0 : nat) (s : smap) (cur : bytes) : Prop :=
    match s_get s n with
    | Some (t, ls) => t = twice /\ forall i d, i0 <= i -> line_get ls i = Some d -> length cur < length d
    | None => True
    end.
  Lemma longer_visited i0 s i cur : longer i0 s cur -> i0 <= i -> s_visited s n i cur = false.
  Proof.
    unfold longer, s_visited. destruct (s_get s n) as [[t ls]|]; auto. intros [_ L] I. destruct (line_get ls i) as [d|] eqn:E; auto.
    apply L in E; auto. destruct (bytes_eqb cur d) eqn:B; auto. apply bytes_eqb_true in B as ->. lia.
  Qed.
  Lemma longer_enter s cur : longer 0 s cur -> longer 0 (s_enter s twice) cur.
  Proof.
    unfold longer, s_enter. cbn [twice t_name]. destruct (s_get s n) as [[t ls]|] eqn:G.
    - rewrite G. auto.
    - intros _. rewrite s_get_set, bytes_eqb_refl. split; auto. intros i d. discriminate.
  Qed.
  Lemma longer_mark s i cur cur' : longer 0 s cur -> length cur' < length cur ->
    longer 0 (s_mark s twice i cur) cur' /\ exists ls, s_get (s_mark s twice i cur) n = Some (twice, ls).
  Proof.
    unfold longer, s_mark. cbn [twice t_name]. intros L C. destruct (s_get s n) as [[t ls]|] eqn:G; rewrite s_get_set, bytes_eqb_refl.
    - destruct L as [-> L]. split; [|eauto]. split; auto. intros j d _. cbn [line_get]. destruct (Nat.eqb i j); [intros [= <-]; auto|].
      intros E. apply L in E; lia.
    - split; [|eauto]. split; auto. intros j d _. cbn [line_get]. destruct (Nat.eqb i j); [intros [= <-]; auto|discriminate].
  Qed.
  Lemma longer_next s i cur : longer i s cur -> longer (S i) (s_mark s twice i cur) cur.
  Proof.
    unfold longer, s_mark. cbn [twice t_name]. intros L. destruct (s_get s n) as [[t ls]|] eqn:G; rewrite s_get_set, bytes_eqb_refl.
    - destruct L as [-> L]. split; auto. intros j d I. cbn [line_get]. destruct (Nat.eqb i j) eqn:E; [apply Nat.eqb_eq in E; lia|].
      apply L. lia.
    - split; auto. intros j d I. cbn [line_get]. destruct (Nat.eqb i j) eqn:E; [apply Nat.eqb_eq in E; lia|discriminate].
  Qed.
  Lemma longer_none i0 s cur : s_get s n = None -> longer i0 s cur.
  Proof. unfold longer. now intros ->. Qed.

  Lemma count_del s : count k (s_del s n) = count k s.
  Proof. unfold count. rewrite s_get_del, neq_eqb; auto. Qed.
  Lemma count_set s v : count k (s_set s n v) = count k s.
  Proof. unfold count. rewrite s_get_set, neq_eqb; auto. Qed.
  Lemma count_enter s : count k (s_enter s twice) = count k s.
  Proof. unfold s_enter. cbn [twice t_name]. destruct (s_get s n); auto. apply count_set. Qed.
  Lemma count_mark s i d : count k (s_mark s twice i d) = count k s.
  Proof. unfold s_mark. cbn [twice t_name]. destruct (s_get s n) as [[u ls]|]; apply count_set. Qed.
  Lemma count_tick s : count k (tick k s) = S (count k s).
  Proof. unfold count, tick. rewrite s_get_set, bytes_eqb_refl. cbn [length]. now destruct (s_get s k) as [[u l]|]. Qed.
  Lemma longer_tick s cur : longer 0 s cur -> longer 0 (tick k s) cur.
  Proof. unfold longer, tick. rewrite s_get_set. rewrite (neq_eqb k n) by congruence. auto. Qed.

  Section Step.
    Variable call : call_t.
    Variable b0 : nat.
    Notation b := (S b0).

    Lemma repeat_value f v w s prev cur :
      repeat_run call b (S f) (EValue [v] v) (Some 1%Z) s None [] false [] prev (w :: cur) =
      if Byte.eqb v w then (s, Ok ([TValue w []], w :: cur, cur)) else (s, Ok ([], prev, w :: cur)).
    Proof.
      cbn [repeat_run]. change (1 <=? zlen (@nil tcontent))%Z with false. cbv iota. cbn [element_run element_value channels_try bind fst snd].
      destruct (Byte.eqb v w); cbn [bind stry]; [|reflexivity]. cbn [app].
      destruct f; cbn [repeat_run]; destruct cur; try reflexivity.
    Qed.
    Lemma repeat_self f s s' ls t prev cur : cur <> [] -> s_get s n = Some (twice, ls) ->
      call twice s None [] false prev cur = (s', Ok t) -> has_successful t = true ->
      repeat_run call b (S f) (ERecursive n) (Some 1%Z) s None [] false [] prev cur = (s', Ok ([TTree t], cur, tr_remaining t)).
    Proof.
      intros N G E Hs. destruct cur as [|w cur]; [contradiction|].
      cbn [repeat_run]. change (1 <=? zlen (@nil tcontent))%Z with false. cbv iota. cbn [element_run]. rewrite G, E. cbn [sbind].
      unfold found. rewrite Hs. cbn [stry app]. destruct f; cbn [repeat_run]; destruct (tr_remaining t); reflexivity.
    Qed.
    (** A line with brackets, on its data: the part after it is read up to its last byte. *)
    Lemma line_step v i s s' ls t prev m rest : s_get s n = Some (twice, ls) ->
      call twice s None [] false (x28 :: deep m (x79 :: rest)) (deep m (x79 :: rest)) = (s', Ok t) -> has_successful t = true -> tr_remaining t = x79 :: rest ->
      line_run call b [one_byte x28; itself; one_byte v] i s None [] false prev (deep (S m) rest) =
      if Byte.eqb v x79
      then (s', Ok (TLine i [one_byte x28; itself; one_byte v] false [TElement (Some (one_byte x28)) [TValue x28 []]; TElement (Some itself) [TTree t];
                                                     TElement (Some (one_byte v)) [TValue x79 []]], rest))
      else (s', Err).
    Proof.
      intros G E Hs R. unfold line_run. rewrite deep_succ. cbn [one_byte itself containers_run]. rewrite repeat_value.
      change (Byte.eqb x28 x28) with true. cbv iota. cbn [sbind]. change (zlen [TValue x28 []] <? i64 1)%Z with false. cbv iota.
      cbn [app containers_run].
      assert (Nn : deep m (x79 :: rest) <> []) by (unfold deep; destruct m; discriminate).
      rewrite (repeat_self _ _ _ _ _ _ _ Nn G E Hs). cbn [sbind].
      change (zlen [TTree t] <? i64 1)%Z with false. cbv iota. cbn [app containers_run]. rewrite R, repeat_value.
      destruct (Byte.eqb v x79); cbn [sbind].
      - change (zlen [TValue x79 []] <? i64 1)%Z with false. cbv iota. reflexivity.
      - change (zlen (@nil tcontent) <? i64 1)%Z with true. reflexivity.
    Qed.
    Lemma line_fail v i s prev w cur : Byte.eqb v w = false -> forall l,
      line_run call b (one_byte v :: l) i s None [] false prev (w :: cur) = (s, Err).
    Proof.
      intros E l. unfold line_run. cbn [one_byte containers_run]. rewrite repeat_value, E. cbn [sbind].
      change (zlen (@nil tcontent) <? i64 1)%Z with true. reflexivity.
    Qed.
    Lemma line_last v i s prev cur :
      line_run call b [one_byte v] i s None [] false prev (v :: cur) = (s, Ok (TLine i [one_byte v] false [TElement (Some (one_byte v)) [TValue v []]], cur)).
    Proof.
      unfold line_run. cbn [one_byte containers_run]. rewrite repeat_value. assert (E : Byte.eqb v v = true) by now destruct v.
      rewrite E. cbn [sbind]. change (zlen [TValue v []] <? i64 1)%Z with false. reflexivity.
    Qed.
  End Step.

  Lemma twice_run : forall m f s rest prev, m <= f -> longer 0 s (deep m rest) ->
    exists s' t, counted_run k (S (S f)) twice s None [] false prev (deep m rest) = (s', Ok t) /\
      has_successful t = true /\ tr_remaining t = rest /\ S (count k s') = count k s + 2 ^ S m /\ s_get s' n = None.
  Proof.
    induction m as [|m IH]; intros f s rest prev L Hl.
    - change (deep 0 rest) with (x7a :: rest) in *. cbn [counted_run].
      set (call := fun t0 s0 => token_step (counted_run k f) f t0 (tick k s0)). clearbody call.
      apply longer_tick in Hl. pose proof (count_tick s) as Ct. generalize dependent (tick k s). intros s1 Hl Ct.
      unfold token_step. apply longer_enter in Hl. rewrite <- count_enter in Ct. generalize dependent (s_enter s1 twice).
      intros s2 Hl Ct. cbn [twice t_lines t_name block_run]. fold twice.
      rewrite (longer_visited 0) by auto. rewrite line_fail by reflexivity. cbn [stry]. apply longer_next in Hl.
      rewrite <- (count_mark s2 0 (x7a :: rest)) in Ct. generalize dependent (s_mark s2 twice 0 (x7a :: rest)). intros s3 Hl Ct.
      rewrite (longer_visited 1) by auto. rewrite line_fail by reflexivity. cbn [stry]. apply longer_next in Hl.
      rewrite <- (count_mark s3 1 (x7a :: rest)) in Ct. generalize dependent (s_mark s3 twice 1 (x7a :: rest)). intros s4 Hl Ct.
      rewrite (longer_visited 2) by auto. rewrite line_last. cbn [stry].
      rewrite <- (count_mark s4 2 (x7a :: rest)) in Ct. generalize dependent (s_mark s4 twice 2 (x7a :: rest)). intros s5 Ct.
      change (line_ok (TLine 2 [one_byte x7a] false [TElement (Some (one_byte x7a)) [TValue x7a []]])) with true. cbv iota.
      cbn [app channels_try bind fst snd]. eexists _, _. split; [reflexivity|]. split; [reflexivity|]. split; [reflexivity|].
      split; [rewrite count_del, Ct; cbn; lia|]. now rewrite s_get_del.
    - destruct f as [|f]; [lia|].
      assert (Hd : length (deep m (x79 :: rest)) < length (deep (S m) rest)) by (rewrite !deep_length; cbn [length]; lia).
      assert (Hd2 : length (deep (S m) rest) = S (length (deep m (x79 :: rest)))) by (rewrite deep_succ; reflexivity).
      change (counted_run k (S (S (S f)))) with (fun t0 s0 => token_step (counted_run k (S (S f))) (S (S f)) t0 (tick k s0)). cbv beta.
      assert (X : forall s0, longer 0 s0 (deep m (x79 :: rest)) -> exists s' t,
        counted_run k (S (S f)) twice s0 None [] false (x28 :: deep m (x79 :: rest)) (deep m (x79 :: rest)) = (s', Ok t) /\
        has_successful t = true /\ tr_remaining t = x79 :: rest /\ S (count k s') = count k s0 + 2 ^ S m /\ s_get s' n = None).
      { intros s0 Hs0. apply IH; [lia|exact Hs0]. }
      clear IH. generalize dependent (counted_run k (S (S f))). intros call X.
      apply longer_tick in Hl. pose proof (count_tick s) as Ct. generalize dependent (tick k s). intros s1 Hl Ct.
      unfold token_step. apply longer_enter in Hl. rewrite <- count_enter in Ct. generalize dependent (s_enter s1 twice).
      intros s2 Hl Ct. cbn [twice t_lines t_name block_run]. fold twice.
      rewrite (longer_visited 0) by auto.
      destruct (longer_mark s2 0 _ _ Hl Hd) as [Hm (ls & G)]. rewrite <- (count_mark s2 0 (deep (S m) rest)) in Ct.
      generalize dependent (s_mark s2 twice 0 (deep (S m) rest)). intros s3 Ct Hm G.
      destruct (X s3 Hm) as (s4 & t & E & Hs & R & C & N).
      rewrite (line_step call (S f) x78 0 s3 s4 ls t prev m rest G E Hs R). change (Byte.eqb x78 x79) with false. cbv iota. cbn [stry].
      rewrite (longer_visited 0) by (auto using longer_none).
      destruct (longer_mark s4 1 (deep (S m) rest) _ (longer_none 0 s4 _ N) Hd) as [Hm' (ls' & G')].
      pose proof (count_mark s4 1 (deep (S m) rest)) as Ct'.
      generalize dependent (s_mark s4 twice 1 (deep (S m) rest)). intros s5 Hm' G' Ct'.
      destruct (X s5 Hm') as (s6 & t' & E' & Hs' & R' & C' & N').
      rewrite (line_step call (S f) x79 1 s5 s6 ls' t' prev m rest G' E' Hs' R'). change (Byte.eqb x79 x79) with true. cbv iota. cbn [stry].
      match goal with |- context [line_ok ?l] => change (line_ok l) with true end. cbv iota.
      cbn [app channels_try bind fst snd]. eexists _, _. split; [reflexivity|]. split; [reflexivity|]. split; [reflexivity|].
      split; [rewrite count_del; cbn [Nat.pow] in *; lia|]. now rewrite s_get_del.
  Qed.
End Twice.

Lemma within_twice t : within twice t -> t = twice.
Proof.
  intros W. induction W as [|t u W IH C]; auto. subst t. exfalso.
  destruct C as [l u mi ma I Ic|l n u e mi ma I Ic|l n u e mi ma I Ic]; cbn in I; destruct I as [<-|[<-|[<-|[]]]]; cbn in Ic;
    repeat (destruct Ic as [Ic|Ic]; [discriminate|]); destruct Ic.
Qed.
Lemma twice_counts_all k : k <> [x41] -> counts_all k (Grammar twice []).
Proof.
  intros N. split; [reflexivity|]. split.
  - intros t W. rewrite (within_twice t W). cbn. congruence.
  - intros t l c W I Ic. rewrite (within_twice t W) in I. cbn in I. destruct I as [<-|[<-|[<-|[]]]]; cbn in Ic;
      repeat (destruct Ic as [<-|Ic]; [cbn; auto|]); destruct Ic.
Qed.
Lemma uses_twice g : uses (Grammar twice []) g -> g = Grammar twice [].
Proof.
  induction 1 as [|root chs t l n g' mi ma U IH W I Ic|root chs t cond U IH I|root chs t b a U IH I|root chs t b a U IH I]; auto;
    injection IH as -> ->; try solve [destruct I]. rewrite (within_twice t W) in I. cbn in I. destruct I as [<-|[<-|[<-|[]]]]; cbn in Ic;
    repeat (destruct Ic as [Ic|Ic]; [discriminate|]); destruct Ic.
Qed.
Lemma twice_guarded : guarded (Grammar twice []).
Proof.
  intros root chs t l U W I. apply uses_twice in U. injection U as -> ->. rewrite (within_twice t W) in I.
  assert (X : forall v, guarded_line [one_byte x28; itself; one_byte v]).
  { intros v l1 l2 n mi ma E. destruct l1 as [|c l1]; [discriminate|]. injection E as <- _. exists (EValue [x28] x28), 1%Z, (Some 1%Z).
    split; [now left|]. unfold two63. lia. }
  cbn in I. destruct I as [<-|[<-|[<-|[]]]]; try apply X.
  intros l1 l2 n mi ma E. destruct l1 as [|c [|c' l1]]; discriminate.
Qed.

(** Powers of two outgrow any polynomial. *)
Lemma exponential_wins c d : exists m, c * (2 * m + 2) ^ d + 1 < 2 ^ (m + 1).
Proof.
  assert (G : forall x, x < 2 ^ x) by (intros; apply Nat.pow_gt_lin_r; lia).
  set (i := 2 * d + (c + d + 2)). set (j := 2 * i).
  assert (A : c + S j * d + 1 < 2 ^ j).
  { subst j. replace (2 * i) with (i + i) by lia. rewrite Nat.pow_add_r. pose proof (G i) as Gi.
    apply Nat.lt_le_trans with (i * i); [|apply Nat.mul_le_mono; lia]. subst i. nia. }
  exists (2 ^ j - 1). pose proof (G j) as Gj. replace (2 ^ j - 1 + 1) with (2 ^ j) by lia.
  replace (2 * (2 ^ j - 1) + 2) with (2 ^ S j) by (cbn [Nat.pow]; lia). rewrite <- Nat.pow_mul_r.
  apply Nat.lt_le_trans with (2 ^ (c + S j * d + 1) + 1).
  - assert (c * 2 ^ (S j * d) < 2 ^ (c + S j * d + 1)); [|lia]. rewrite !Nat.pow_add_r. cbn [Nat.pow].
    pose proof (G c) as Gc. pose proof (G (S j * d)) as Gd. set (p := 2 ^ c) in *. set (q := 2 ^ (S j * d)) in *. clearbody p q. nia.
  - assert (2 ^ (c + S j * d + 1) < 2 ^ (2 ^ j)) by (apply Nat.pow_lt_mono_r; lia). lia.
Qed.
