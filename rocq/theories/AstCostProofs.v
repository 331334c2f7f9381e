(** How many calls the parser makes for grammars without recursion. *)
From Coq Require Import List Arith ZArith Lia Bool.
From Coq Require Import Init.Byte Strings.Byte.
From Verif Require Import Base BaseLemmas AstModel SpecAst AstProofs AstTraceProofs AstFuelProofs SpecCount AstCountProofs.
Import ListNotations.

Lemma Forall_snoc A (P : A -> Prop) l x : Forall P l -> P x -> Forall P (l ++ [x]).
Proof. intros F Px. apply Forall_app. split; [exact F|]. constructor; [exact Px|constructor]. Qed.

(** ** Matches take bytes, whatever the map *)
Definition takes (call : call_t) : Prop := forall t s esc rev prev cur s' tr, call t s esc [] rev prev cur = (s', Ok tr) ->
  length (tr_remaining tr) <= length cur /\ (has_successful tr = true -> length (tr_remaining tr) < length cur).

Lemma sbind_ok A B (m : smap * outcome A) (f : smap -> A -> smap * outcome B) s' v : sbind m f = (s', Ok v) ->
  exists s a, m = (s, Ok a) /\ f s a = (s', Ok v).
Proof. destruct m as [s [a| | |]]; cbn [sbind]; try discriminate. eauto. Qed.
Lemma stry_ok A B (m : smap * outcome A) (f : smap -> option A -> smap * outcome B) s' v : stry m f = (s', Ok v) ->
  (exists s a, m = (s, Ok a) /\ f s (Some a) = (s', Ok v)) \/ (exists s, m = (s, Err) /\ f s None = (s', Ok v)).
Proof. destruct m as [s [a| | |]]; cbn [stry]; try discriminate; eauto. Qed.

Section Takes.
  Variable call : call_t.
  Variable b : nat.
  Hypothesis Hc : takes call.

  Lemma found_ok tr rem x rem' : found tr rem = Ok (x, rem') -> has_successful tr = true /\ rem' = rem.
  Proof. unfold found. destruct (has_successful tr); [|discriminate]. intros [= <- <-]. auto. Qed.
  Lemma element_takes c s esc rev prev cur s' x rem : element_run call b c s esc [] rev prev cur = (s', Ok (x, rem)) -> length rem < length cur.
  Proof.
    unfold element_run. destruct cur as [|v cur]; [discriminate|]. destruct c.
    - cbn [element_value channels_try bind fst snd]. destruct (Byte.eqb number v); cbn [bind]; [|discriminate]. intros [= <- <- <-]. cbn. lia.
    - intros E. injection E as <- E. destruct (external_run call name g rev prev (v :: cur)); cbn [bind] in E; try discriminate.
      apply found_ok in E as [_ ->]. cbn. lia.
    - intros E. apply sbind_ok in E as (s1 & tr & E1 & [= <- E2]). apply found_ok in E2 as [Hs ->]. apply Hc in E1. now apply E1.
    - intros E. apply sbind_ok in E as (s1 & tr & E1 & [= <- E2]). apply found_ok in E2 as [Hs ->]. apply Hc in E1. now apply E1.
    - destruct (s_get s name) as [[t ls]|]; [|discriminate]. intros E. apply sbind_ok in E as (s1 & tr & E1 & [= <- E2]).
      apply found_ok in E2 as [Hs ->]. apply Hc in E1. now apply E1.
  Qed.
  Lemma repeat_takes c max esc rev : forall f s cs prev cur s' cs' prev' cur',
    repeat_run call b f c max s esc [] rev cs prev cur = (s', Ok (cs', prev', cur')) -> length cs' + length cur' <= length cs + length cur.
  Proof.
    induction f as [|f IH]; intros s cs prev cur s' cs' prev' cur'; cbn [repeat_run]; (destruct cur as [|v cur]; [intros [= <- <- <- <-]; lia|]);
      (destruct (match max with Some m => _ | None => _ end); [intros [= <- <- <- <-]; lia|]); [discriminate|].
    intros E. apply stry_ok in E as [(s1 & [x rem] & E1 & E2)|(s1 & E1 & E2)].
    - apply element_takes in E1. apply IH in E2. rewrite app_length in E2. cbn [length] in *. lia.
    - injection E2 as <- <- <- <-. lia.
  Qed.
  Lemma containers_takes esc rev prev0 : forall l s es prev cur s' es' rem,
    containers_run call b l s esc [] rev prev0 es prev cur = (s', Ok (es', rem)) -> length rem <= length cur /\ (es' = es \/ length rem < length cur).
  Proof.
    induction l as [|[c min max|n vs] l IH]; intros s es prev cur s' es' rem; cbn [containers_run].
    - intros [= <- <- <-]. auto.
    - intros E. apply sbind_ok in E as (s1 & [[cs prev1] cur1] & E1 & E2). apply repeat_takes in E1. cbn [length] in E1.
      destruct (_ <? _)%Z; [discriminate|]. apply IH in E2 as [L D]. split; [lia|]. destruct cs as [|x cs]; [destruct D; [auto|right; lia]|].
      cbn [length] in E1. right. lia.
    - intros E. injection E as <- E. destruct (compose_run call b vs [] prev0 cur); discriminate.
  Qed.
  Lemma line_takes l i s esc rev prev cur s' tl rem : line_run call b l i s esc [] rev prev cur = (s', Ok (tl, rem)) ->
    length rem <= length cur /\ (line_ok tl = true -> length rem < length cur).
  Proof.
    unfold line_run. intros E. apply sbind_ok in E as (s1 & [es rem1] & E1 & E2). injection E2 as <- <- <-. apply containers_takes in E1 as [L D].
    cbn [fst snd] in *. split; [exact L|]. intros O. destruct D as [->|D]; [discriminate O|exact D].
  Qed.
  Lemma escape_takes l i s esc cs prev cur s' cs' prev' cur' :
    escape_run call b l i s esc [] cs prev cur = (s', Ok (cs', prev', cur')) -> length cs' + length cur' <= length cs + length cur.
  Proof.
    unfold escape_run. destruct esc as [e|]; [|intros [= <- <- <- <-]; lia].
    intros E. apply stry_ok in E as [(s1 & t & E1 & E2)|(s1 & E1 & E2)]; [|injection E2 as <- <- <- <-; lia].
    apply Hc in E1 as [L1 L2]. destruct (has_successful t); [|injection E2 as <- <- <- <-; lia].
    destruct (tr_remaining t) as [|x er] eqn:R; [injection E2 as <- <- <- <-; lia|].
    apply stry_ok in E2 as [(s2 & [tl rem] & E2 & E3)|(s2 & E2 & E3)]; [|injection E3 as <- <- <- <-; lia].
    destruct (line_ok tl); [|injection E3 as <- <- <- <-; lia].
    set (er' := x :: er) in *. clearbody er'. destruct (_ <? _); [discriminate|]. injection E3 as _ <- _ <-.
    rewrite app_length, map_length, firstn_length, skipn_length. lia.
  Qed.
  Lemma reverse_takes l i esc : forall f s cs prev cur s' cs' rem,
    reverse_loop call b f l i s esc [] cs prev cur = (s', Ok (cs', rem)) -> length cs' + length rem <= length cs + length cur.
  Proof.
    induction f as [|f IH]; intros s cs prev cur s' cs' rem; cbn [reverse_loop]; (destruct cur as [|v cur]; [intros [= <- <- <-]; lia|]); [discriminate|].
    intros E. apply sbind_ok in E as (s1 & [[cs1 prev1] cur1] & E1 & E2). apply escape_takes in E1.
    apply stry_ok in E2 as [(s2 & [tl rem1] & E2 & E3)|(s2 & E2 & E3)].
    - injection E3 as <- <- <-. exact E1.
    - destruct cur1 as [|w cur2]; [discriminate|]. apply IH in E3. rewrite app_length in E3. cbn [length] in *. lia.
  Qed.
  Lemma block_takes t esc rev : forall ls i s acc prev cur s' bl rem, Forall (fun x => line_ok x = false) acc ->
    block_run call b t ls i s esc [] rev acc prev cur = (s', Ok (bl, rem)) ->
    length rem <= length cur /\ (successful bl <> None -> length rem < length cur).
  Proof.
    induction ls as [|l ls IH]; intros i s acc prev cur s' bl rem F; cbn [block_run].
    - intros [= <- <- <-]. split; [lia|]. now rewrite successful_none.
    - destruct (s_visited s (t_name t) i cur); [now apply IH|]. destruct rev.
      + intros E. apply sbind_ok in E as (s2 & [cs rem1] & E1 & E2). cbn [fst snd] in E2. apply reverse_takes in E1. cbn [length] in E1.
        destruct cs as [|x cs]; [discriminate|]. injection E2 as <- <- <-. cbn [length] in E1. split; intros; lia.
      + intros E. apply stry_ok in E as [(s2 & [tl rem1] & E1 & E2)|(s2 & E1 & E2)]; [|now apply IH in E2].
        apply line_takes in E1 as [L1 L2]. destruct (line_ok tl) eqn:O.
        * injection E2 as <- <- <-. auto.
        * apply IH in E2; auto. now apply Forall_snoc.
  Qed.
  Lemma step_takes : takes (token_step call b).
  Proof.
    intros t s esc rev prev cur s' tr. unfold token_step.
    destruct (block_run call b t (t_lines t) 0 (s_enter s t) esc [] rev [] prev cur) as [s1 o] eqn:E.
    destruct o as [[[|x bl] rem]| | |]; try discriminate. cbn [channels_try bind fst snd]. intros [= <- <-].
    apply block_takes in E as [L1 L2]; [|constructor]. cbn [tr_remaining]. split; auto. unfold has_successful. cbn [tr_block].
    destruct (successful (x :: bl)); [intros _; apply L2; discriminate|discriminate].
  Qed.
End Takes.

Lemma counted_takes k : forall fuel, takes (counted_run k fuel).
Proof.
  induction fuel as [|f IH]; intros t s esc rev prev cur s' tr; cbn [counted_run]; [discriminate|]. now apply step_takes.
Qed.

(** ** The number of calls *)
(** The number of containers of a token, at any depth. *)
Fixpoint weight (t : token) : nat :=
  let 'Token _ ls _ := t in list_sum (map (fun l => list_sum (map (fun c => S (cont_weight c)) l)) ls)
with cont_weight (c : container) : nat :=
  match c with CElement e _ _ => econ_weight e | CCompose _ _ => 0 end
with econ_weight (e : econtent) : nat :=
  match e with
  | EToken t => weight t
  | EEverything _ t o => weight t + match o with Some e => weight e | None => 0 end
  | _ => 0
  end.
Lemma weight_container t l c : In l (t_lines t) -> In c l -> cont_weight c < weight t.
Proof.
  destruct t as [n ls su]. cbn [t_lines]. intros I Ic.
  pose proof (list_sum_in _ _ (in_map (fun l => list_sum (map (fun c => S (cont_weight c)) l)) _ _ I)) as A. cbn beta in A.
  pose proof (list_sum_in _ _ (in_map (fun c => S (cont_weight c)) _ _ Ic)) as B. cbn beta in B. exact (Nat.le_trans _ _ _ B A).
Qed.
Lemma weight_child t u : child t u -> weight u <= weight t.
Proof. destruct 1 as [l u mi ma I Ic|l n u e mi ma I Ic|l n u e mi ma I Ic]; pose proof (weight_container _ _ _ I Ic) as L; cbn in L; lia. Qed.
Lemma weight_within r t : within r t -> weight t <= weight r.
Proof. induction 1 as [|t u W IH C]; auto. apply weight_child in C. lia. Qed.
Lemma line_weight (l : list container) : length l <= list_sum (map (fun c => S (cont_weight c)) l).
Proof. induction l as [|c l IH]; [apply le_n|]. change (S (length l) <= S (cont_weight c) + list_sum (map (fun c => S (cont_weight c)) l)). lia. Qed.
Lemma weight_lines t : list_sum (map (@length container) (t_lines t)) <= weight t.
Proof.
  destruct t as [n ls su]. change (weight (Token n ls su)) with (list_sum (map (fun l => list_sum (map (fun c => S (cont_weight c)) l)) ls)).
  cbn [t_lines]. induction ls as [|l ls IH]; [apply le_n|].
  change (length l + list_sum (map (@length container) ls) <= list_sum (map (fun c => S (cont_weight c)) l) +
    list_sum (map (fun l => list_sum (map (fun c => S (cont_weight c)) l)) ls)).
  apply Nat.add_le_mono; [apply line_weight|exact IH].
Qed.

(** The depth. *)
Fixpoint tall (h : nat) (t : token) : Prop :=
  match h with O => False | S h' => forall u, child t u -> tall h' u end.
Lemma tall_enough : forall h t, tok_size t <= h -> tall h t.
Proof.
  induction h as [|h IH]; intros t L; [pose proof (tok_size_pos t); lia|]. intros u C. apply IH. apply child_size in C. lia.
Qed.

(** A bound: [w] containers, [n] bytes, depth [h], and [e] for an escape. *)
Fixpoint most (w n h e : nat) : nat :=
  match h with
  | O => 0
  | S h' => 1 + S n * (e + 2 * (w * (S n * most w n h' (e + most w n h' 0))))
  end.
Lemma most_mono w n : forall h e e', e <= e' -> most w n h e <= most w n h e'.
Proof.
  induction h as [|h IH]; intros e e' L; cbn [most]; [lia|].
  assert (A : most w n h (e + most w n h 0) <= most w n h (e' + most w n h 0)) by (apply IH; lia).
  apply le_n_S, Nat.mul_le_mono_l, Nat.add_le_mono; [exact L|]. do 3 apply Nat.mul_le_mono_l. exact A.
Qed.

Section Cost.
  Variable k : bytes.
  Variable r : token.
  Hypothesis Hn : forall t, within r t -> t_name t <> k.
  Hypothesis Hr : every_container (fun c => match c with
                              | CElement (EExternal _ _) _ _ => False
                              | CElement (ERecursive n) _ _ => False
                              | _ => True
                              end) r.
  Variable n : nat.
  Notation cnt := (count k).

  Definition adds {A} (s : smap) (m : smap * outcome A) (c : nat) : Prop := cnt (fst m) <= cnt s + c.
  Lemma adds_same A s (o : outcome A) c : adds s (s, o) c.
  Proof. unfold adds. cbn. lia. Qed.
  Lemma adds_weaken A s (m : smap * outcome A) c c' : adds s m c -> c <= c' -> adds s m c'.
  Proof. unfold adds. lia. Qed.
  Lemma adds_bind A B s (m : smap * outcome A) (f : smap -> A -> smap * outcome B) c1 c2 :
    adds s m c1 -> (forall s' a, m = (s', Ok a) -> adds s' (f s' a) c2) -> adds s (sbind m f) (c1 + c2).
  Proof.
    unfold adds. intros A1 A2. destruct m as [s1 [a| | |]]; cbn [sbind fst] in *; try lia. specialize (A2 s1 a eq_refl). lia.
  Qed.
  Lemma adds_try A B s (m : smap * outcome A) (f : smap -> option A -> smap * outcome B) c1 c2 :
    adds s m c1 -> (forall s' a, m = (s', Ok a) -> adds s' (f s' (Some a)) c2) -> (forall s', m = (s', Err) -> adds s' (f s' None) c2) ->
    adds s (stry m f) (c1 + c2).
  Proof.
    unfold adds. intros A1 A2 A3. destruct m as [s1 [a| | |]]; cbn [stry fst] in *; try lia; [specialize (A2 s1 a eq_refl)|specialize (A3 s1 eq_refl)]; lia.
  Qed.

  Lemma cnt_set s m v : m <> k -> cnt (s_set s m v) = cnt s.
  Proof. intros N. unfold count. rewrite s_get_set, neq_eqb; auto. Qed.
  Lemma cnt_del s m : m <> k -> cnt (s_del s m) = cnt s.
  Proof. intros N. unfold count. rewrite s_get_del, neq_eqb; auto. Qed.
  Lemma cnt_enter s t : t_name t <> k -> cnt (s_enter s t) = cnt s.
  Proof. intros N. unfold s_enter. destruct (s_get s (t_name t)); auto. now apply cnt_set. Qed.
  Lemma cnt_mark s t i d : t_name t <> k -> cnt (s_mark s t i d) = cnt s.
  Proof. intros N. unfold s_mark. destruct (s_get s (t_name t)) as [[u ls]|]; now apply cnt_set. Qed.

  Section Step.
    Variable call : call_t.
    Variable b : nat.
    Hypothesis Ht : takes call.
    (** Elements of lines cost at most [B], the escape [E]. *)
    Variables B E : nat.
    Definition cheap (esc : option token) (rev : bool) (c : econtent) : Prop := forall s prev cur, length cur <= n ->
      adds s (element_run call b c s esc [] rev prev cur) B.
    Definition cheap_line (esc : option token) (rev : bool) (l : list container) : Prop :=
      forall c mi ma, In (CElement c mi ma) l -> cheap esc rev c.
    Definition cheap_esc (esc : option token) : Prop := forall e, esc = Some e -> forall s prev cur, length cur <= n ->
      adds s (call e s None [] false prev cur) E.

    Lemma repeat_cost c max esc rev : cheap esc rev c -> forall f s cs prev cur, length cur <= n ->
      adds s (repeat_run call b f c max s esc [] rev cs prev cur) (S (length cur) * B).
    Proof.
      intros C. induction f as [|f IH]; intros s cs prev cur L; cbn [repeat_run]; (destruct cur as [|v cur]; [apply adds_same|]);
        (destruct (match max with Some m => _ | None => _ end); [apply adds_same|]); [apply adds_same|].
      change (S (length (v :: cur)) * B) with (B + S (length cur) * B). apply adds_try; [now apply C| |].
      - intros s1 [x rem] E1. apply element_takes in E1; auto. cbn [length] in *. eapply adds_weaken; [apply IH; lia|].
        apply Nat.mul_le_mono_r. lia.
      - intros s1 _. apply adds_same.
    Qed.
    Lemma containers_cost esc rev prev0 : forall l s es prev cur, cheap_line esc rev l -> length cur <= n ->
      adds s (containers_run call b l s esc [] rev prev0 es prev cur) (length l * (S n * B)).
    Proof.
      induction l as [|[c min max|m vs] l IH]; intros s es prev cur C L; cbn [containers_run length]; [apply adds_same| |apply adds_same].
      change (S (length l) * (S n * B)) with (S n * B + length l * (S n * B)). apply adds_bind.
      - eapply adds_weaken; [apply repeat_cost; [apply (C c min max); now left|exact L]|]. apply Nat.mul_le_mono_r. lia.
      - intros s1 [[cs prev1] cur1] E1. apply repeat_takes in E1; auto. cbn [length] in E1. destruct (_ <? _)%Z; [apply adds_same|].
        apply IH; [|lia]. intros c' mi ma I. apply (C c' mi ma). now right.
    Qed.
    Lemma line_cost l i s esc rev prev cur : cheap_line esc rev l -> length cur <= n ->
      adds s (line_run call b l i s esc [] rev prev cur) (length l * (S n * B)).
    Proof.
      intros C L. unfold line_run. rewrite <- (Nat.add_0_r (length l * _)). apply adds_bind; [now apply containers_cost|].
      intros. apply adds_same.
    Qed.
    Lemma escape_cost l i s esc cs prev cur : cheap_esc esc -> cheap_line esc true l -> length cur <= n ->
      adds s (escape_run call b l i s esc [] cs prev cur) (E + length l * (S n * B)).
    Proof.
      intros Ce C L. unfold escape_run. destruct esc as [e|]; [|apply adds_same]. apply adds_try; [now apply Ce| |intros; apply adds_same].
      intros s1 t E1. apply Ht in E1 as [L1 _]. destruct (has_successful t); [|apply adds_same].
      destruct (tr_remaining t) as [|x er] eqn:R; [apply adds_same|]. rewrite <- (Nat.add_0_r (length l * _)).
      apply adds_try; [apply line_cost; auto; lia| |intros; apply adds_same].
      intros s2 [tl rem] _. destruct (line_ok tl); [|apply adds_same]. destruct (_ <? _); apply adds_same.
    Qed.
    Lemma reverse_cost l i esc : cheap_esc esc -> cheap_line esc true l -> forall f s cs prev cur, length cur <= n ->
      adds s (reverse_loop call b f l i s esc [] cs prev cur) (length cur * (E + 2 * (length l * (S n * B)))).
    Proof.
      intros Ce C. set (X := length l * (S n * B)) in *. induction f as [|f IH]; intros s cs prev cur L; cbn [reverse_loop];
        (destruct cur as [|v cur]; [apply adds_same|]); [apply adds_same|].
      set (cur0 := v :: cur) in *. apply adds_weaken with (c := (E + X) + (X + (length cur0 - 1) * (E + 2 * X))).
      2: { subst cur0. cbn [length]. replace (S (length cur) - 1) with (length cur) by lia. cbn [Nat.mul]. lia. }
      apply adds_bind; [now apply escape_cost|]. intros s1 [[cs1 prev1] cur1] E1.
      assert (L1 : length cur1 <= length cur0).
      { clear -E1 Ht. unfold escape_run in E1. destruct esc as [e|]; [|injection E1 as _ _ _ <-; lia].
        apply stry_ok in E1 as [(s2 & t & E1 & E2)|(s2 & E1 & E2)]; [|injection E2 as _ _ _ <-; lia].
        apply Ht in E1 as [L1 L2]. destruct (has_successful t); [|injection E2 as _ _ _ <-; lia].
        destruct (tr_remaining t) as [|x er] eqn:R; [injection E2 as _ _ _ <-; lia|].
        apply stry_ok in E2 as [(s3 & [tl rem] & E2 & E3)|(s3 & E2 & E3)]; [|injection E3 as _ _ _ <-; lia].
        destruct (line_ok tl); [|injection E3 as _ _ _ <-; lia].
        set (er' := x :: er) in *. clearbody er'. destruct (_ <? _); [discriminate|]. injection E3 as _ _ _ <-. rewrite skipn_length. lia. }
      apply adds_try; [apply line_cost; auto; lia|intros; apply adds_same|]. intros s2 _. destruct cur1 as [|w cur2]; [apply adds_same|].
      cbn [length] in L1. eapply adds_weaken; [apply IH; lia|]. apply Nat.mul_le_mono_r. lia.
    Qed.
    Lemma block_cost t esc rev : t_name t <> k -> cheap_esc esc -> forall ls i s acc prev cur,
      (forall l, In l ls -> cheap_line esc rev l) -> length cur <= n ->
      adds s (block_run call b t ls i s esc [] rev acc prev cur) (S n * (E + 2 * (list_sum (map (@length container) ls) * (S n * B)))).
    Proof.
      intros N Ce. induction ls as [|l ls IH]; intros i s acc prev cur C L; cbn [block_run map list_sum fold_right]; [apply adds_same|].
      fold (list_sum (map (@length container) ls)). set (Y := S n * B) in *.
      assert (IH' : forall i s acc, adds s (block_run call b t ls i s esc [] rev acc prev cur) (S n * (E + 2 * (list_sum (map (@length container) ls) * Y)))).
      { intros. apply IH; auto. intros l' I. apply C. now right. }
      clear IH. set (Z := list_sum (map (@length container) ls)) in *. assert (C0 : cheap_line esc rev l) by (apply C; now left).
      destruct (s_visited s (t_name t) i cur).
      { eapply adds_weaken; [apply IH'|]. apply Nat.mul_le_mono_l. rewrite Nat.mul_add_distr_r. lia. }
      pose proof (cnt_mark s t i cur N) as M. unfold adds. rewrite <- M. generalize (s_mark s t i cur). intros s1.
      change (adds s1 (if rev then
        sbind (reverse_loop call b b l i s1 esc [] [] prev cur) (fun s2 r =>
            match fst r with
            | [] => (s2, Err)
            | cs => (s2, Ok (acc ++ [TLine i l true [TElement None cs]], snd r))
            end)
        else
          stry (line_run call b l i s1 esc [] false prev cur) (fun s2 o =>
            match o with
            | None => block_run call b t ls (S i) s2 esc [] rev acc prev cur
            | Some (tl, rem) =>
              if line_ok tl then (s2, Ok (acc ++ [tl], rem))
              else block_run call b t ls (S i) s2 esc [] rev (acc ++ [tl]) prev cur
            end)) (S n * (E + 2 * ((length l + Z) * Y)))).
      destruct rev.
      - apply adds_weaken with (c := length cur * (E + 2 * (length l * Y)) + 0).
        + apply adds_bind; [now apply reverse_cost|]. intros s2 [cs rem] _. cbn [fst snd]. destruct cs; apply adds_same.
        + rewrite Nat.add_0_r. apply Nat.mul_le_mono; [lia|]. rewrite Nat.mul_add_distr_r. lia.
      - apply adds_weaken with (c := length l * Y + S n * (E + 2 * (Z * Y))).
        + apply adds_try; [now apply line_cost| |].
          * intros s2 [tl rem] _. destruct (line_ok tl); [apply adds_same|apply IH'].
          * intros s2 _. apply IH'.
        + rewrite (Nat.mul_add_distr_r (length l)), !Nat.mul_add_distr_l. cbn [Nat.mul]. lia.
    Qed.
  End Step.

  Definition cheap_everywhere (E : nat) (e : token) : Prop := forall f s prev cur, length cur <= n ->
    adds s (counted_run k f e s None [] false prev cur) E.

  Lemma run_cost : forall h t E esc, within r t -> tall h t -> (forall e, esc = Some e -> cheap_everywhere E e) ->
    forall f s rev prev cur, length cur <= n -> adds s (counted_run k f t s esc [] rev prev cur) (most (weight r) n h E).
  Proof.
    induction h as [|h IH]; intros t E esc W Ta Ce f s rev prev cur L; [destruct Ta|].
    destruct f as [|f]; cbn [counted_run]; [apply adds_same|].
    unfold adds, token_step. assert (N : t_name t <> k) by now apply Hn.
    set (B := most (weight r) n h (E + most (weight r) n h 0)).
    assert (X : adds (s_enter (tick k s) t) (block_run (counted_run k f) f t (t_lines t) 0 (s_enter (tick k s) t) esc [] rev [] prev cur)
      (S n * (E + 2 * (list_sum (map (@length container) (t_lines t)) * (S n * B))))).
    { apply block_cost; auto.
      - apply counted_takes.
      - intros e Ee s0 p0 c0 L0. now apply (Ce e Ee).
      - intros l Il c mi ma Ic s0 p0 c0 L0. pose proof (Hr t l _ W Il Ic) as P. unfold element_run. destruct c0 as [|v c0]; [apply adds_same|].
        destruct c; cbn in P; try contradiction.
        + apply adds_same.
        + assert (Cu : child t t0) by (eapply child_token; eauto). rewrite <- (Nat.add_0_r B). apply adds_bind; [|intros; apply adds_same].
          eapply adds_weaken; [apply (IH t0 E esc (within_step _ _ _ W Cu) (Ta _ Cu) Ce); exact L0|]. apply most_mono. lia.
        + assert (Cu : child t exception) by (eapply child_exception; eauto). rewrite <- (Nat.add_0_r B).
          apply adds_bind; [|intros; apply adds_same].
          eapply adds_weaken; [apply (IH exception (most (weight r) n h 0) escape (within_step _ _ _ W Cu) (Ta _ Cu)); [|exact L0]|apply most_mono; lia].
          intros e ->. assert (Cv : child t e) by (eapply child_escape; eauto). intros f1 s1 p1 c1 L1.
          apply (IH e 0 None (within_step _ _ _ W Cv) (Ta _ Cv)); [discriminate|exact L1]. }
    unfold adds in X. destruct (block_run (counted_run k f) f t (t_lines t) 0 (s_enter (tick k s) t) esc [] rev [] prev cur) as [s1 o].
    cbn [fst] in X. rewrite cnt_enter, count_tick in X by auto.
    assert (Y : cnt (s_del s1 (t_name t)) <= cnt s + most (weight r) n (S h) E).
    { rewrite cnt_del by auto. eapply Nat.le_trans; [exact X|]. cbn [most]. fold B. rewrite <- plus_n_Sm, <- Nat.add_succ_l.
      cbn [Nat.add]. apply le_n_S, Nat.add_le_mono_l, Nat.mul_le_mono_l, Nat.add_le_mono_l. do 1 apply Nat.mul_le_mono_l.
      apply Nat.mul_le_mono_r. eapply Nat.le_trans; [apply weight_lines|now apply weight_within]. }
    destruct o as [[[|x bl] rem]| | |]; exact Y.
  Qed.
End Cost.

(** ** The bound is a polynomial *)
Lemma pow_pos x d : 1 <= x -> 1 <= x ^ d.
Proof. intros L. pose proof (Nat.pow_nonzero x d). lia. Qed.
Lemma most_poly w : forall h, exists c d, forall n e, most w n h e <= c * (S n * S e) ^ d.
Proof.
  induction h as [|h (c & d & IH)]; [exists 0, 0; intros; cbn; lia|].
  exists (2 + 2 * w * (c * (1 + c) ^ d)), ((d + 1) * d + 2). intros n e. cbn [most].
  set (x := S n). set (y := S e). assert (Hx : 1 <= x) by (subst x; lia). assert (Hy : 1 <= y) by (subst y; lia).
  assert (A : most w n h 0 <= c * x ^ d).
  { eapply Nat.le_trans; [apply IH|]. fold x. rewrite Nat.mul_1_r. lia. }
  assert (Bd : most w n h (e + most w n h 0) <= c * (1 + c) ^ d * (x * y) ^ ((d + 1) * d)).
  { eapply Nat.le_trans; [apply IH|]. fold x. rewrite <- Nat.mul_assoc. apply Nat.mul_le_mono_l.
    rewrite Nat.pow_mul_r, <- Nat.pow_mul_l. apply Nat.pow_le_mono_l.
    rewrite Nat.add_1_r. cbn [Nat.pow]. pose proof (pow_pos x d Hx). pose proof (pow_pos y d Hy).
    assert (S (e + most w n h 0) <= (1 + c) * (y * x ^ d)).
    { apply Nat.le_trans with (y + c * x ^ d); [subst y; lia|]. assert (y * 1 <= y * x ^ d) by (apply Nat.mul_le_mono_l; lia).
      assert (1 * x ^ d <= y * x ^ d) by (apply Nat.mul_le_mono_r; lia). nia. }
    apply Nat.le_trans with (x * ((1 + c) * (y * x ^ d))); [now apply Nat.mul_le_mono_l|].
    rewrite Nat.pow_mul_l. set (p := x ^ d) in *. set (q := y ^ d) in *. 
    apply Nat.le_trans with ((1 + c) * (x * y * (p * 1))); [apply Nat.eq_le_incl; ring|].
    apply Nat.mul_le_mono_l, Nat.mul_le_mono_l, Nat.mul_le_mono_l. lia. }
  set (P := (x * y) ^ ((d + 1) * d)) in *. assert (HP : 1 <= P) by (apply pow_pos; nia).
  rewrite Nat.pow_add_r. fold P. cbn [Nat.pow]. rewrite Nat.mul_1_r.
  set (C := c * (1 + c) ^ d) in *. set (M := most w n h (e + most w n h 0)) in *. clearbody P M.
  assert (Q : 1 <= P * (x * y)) by nia.
  apply Nat.le_trans with (1 + x * (y + 2 * (w * (x * (C * P))))).
  { apply le_n_S, Nat.mul_le_mono_l, Nat.add_le_mono; [subst y; lia|]. do 3 apply Nat.mul_le_mono_l. exact Bd. }
  clear Bd A IH M. clearbody C x y.
  assert (Q1 : x * y <= P * (x * y * (x * y))) by nia.
  assert (Q2 : x * (x * P) <= P * (x * y * (x * y))) by nia.
  assert (Q3 : 1 <= P * (x * y * (x * y))) by nia.
  set (R := P * (x * y * (x * y))) in *. replace (1 + x * (y + 2 * (w * (x * (C * P))))) with (1 + x * y + 2 * w * C * (x * (x * P))) by ring.
  replace ((2 + 2 * w * C) * R) with (R + R + 2 * w * C * R) by ring.
  apply Nat.add_le_mono; [lia|now apply Nat.mul_le_mono_l].
Qed.

Lemma calls_polynomial k g : counts_all k g -> no_recursion g ->
  exists c d, forall fuel data, calls k fuel g data <= c * S (length data) ^ d.
Proof.
  destruct g as [root chs]. intros (-> & Hn & Hr) Nr.
  destruct (most_poly (weight root) (tok_size root)) as (c & d & Hm). exists c, d. intros fuel data.
  unfold calls, counted_execute. cbn [fst].
  assert (X : adds k [] (counted_run k fuel root [] None [] false [] data) (most (weight root) (length data) (tok_size root) 0)).
  { apply (run_cost k root Hn); auto; [|constructor|now apply tall_enough|discriminate].
    intros t l c0 W I Ic. pose proof (Hr t l c0 W I Ic) as P1. pose proof (Nr root [] (uses_refl _) t l c0 W I Ic) as P2.
    destruct c0 as [[] ? ?|? ?]; cbn in *; auto. }
  unfold adds in X. cbn [count s_get] in X. eapply Nat.le_trans; [exact X|]. eapply Nat.le_trans; [apply Hm|]. rewrite Nat.mul_1_r. lia.
Qed.
