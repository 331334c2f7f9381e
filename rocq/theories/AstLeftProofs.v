(** What the parser does with a line that starts with a reference to its own token. *)
From Coq Require Import List ZArith Lia Bool.
From Coq Require Import Init.Byte Strings.Byte.
From Verif Require Import Base BaseLemmas AstModel SpecAst SpecPeg SpecLeft AstProofs AstMoreProofs.
Import ListNotations.

Local Notation left_line := reference_then.
Local Notation first_of := starts_with.
Local Notation none_of := starts_with_none.

Lemma starts_dec (l : list (bytes * byte)) (d : bytes) : (exists r, d = map snd l ++ r) \/ (forall r, d <> map snd l ++ r).
Proof.
  revert d. induction l as [|[n b] l IH]; intros d; cbn [map snd app].
  - left. now exists d.
  - destruct d as [|x d]; [right; discriminate|]. destruct (Byte.eqb b x) eqn:E.
    + apply byte_eqb_true in E as <-. destruct (IH d) as [(r & ->)|N]; [left; now exists r|]. right. intros r [= H]. now apply (N r).
    + right. intros r [= -> _]. rewrite (proj2 (byte_eqb_true b b) eq_refl) in E. discriminate.
Qed.

Lemma first_or_none ls d : (exists k l rest, first_of ls d k l rest) \/ none_of ls d.
Proof.
  induction ls as [|l ls IH]; [right; intros l r []|].
  destruct (starts_dec l d) as [(r & E)|N].
  - left. exists 0, l, r. repeat split; auto. intros j l' r' L. lia.
  - destruct IH as [(k & l' & r & En & Ed & H)|H].
    + left. exists (S k), l', r. repeat split; auto. intros [|j] m q L; cbn [nth_error].
      * intros [= <-]. apply N.
      * intros En'. apply (H j); [lia|exact En'].
    + right. intros m q [<-|I]; [apply N|now apply H].
Qed.

(** Every entry of the map for [n] is for a line tried on [d]; exactly the lines below [k] were tried. *)
Definition tried_below (s : smap) (t : token) (k : nat) (d : bytes) : Prop :=
  exists ls, s_get s (t_name t) = Some (t, ls) /\ forall j, line_get ls j = if j <? k then Some d else None.

Lemma tried_enter t d : tried_below (s_enter [] t) t 0 d.
Proof. exists []. unfold s_enter. cbn [s_get]. rewrite s_get_set, bytes_eqb_refl. split; auto. Qed.
Lemma tried_mark s t k d : tried_below s t k d -> tried_below (s_mark s t k d) t (S k) d.
Proof.
  intros (ls & G & H). exists ((k, d) :: ls). unfold s_mark. rewrite G, s_get_set, bytes_eqb_refl. split; auto.
  intros j. cbn [line_get]. destruct (Nat.eqb_spec k j) as [->|N].
  - now rewrite (proj2 (Nat.ltb_lt j (S j)) (Nat.lt_succ_diag_r j)).
  - rewrite H. destruct (Nat.ltb_spec j k), (Nat.ltb_spec j (S k)); auto; lia.
Qed.
Lemma tried_untried s t k d : tried_below s t k d -> untried s (t_name t) k.
Proof.
  intros (ls & G & H) t' ls' j x G' E. rewrite G in G'. injection G' as <- <-. rewrite H in E.
  destruct (Nat.ltb_spec j k); [auto|discriminate].
Qed.
Lemma tried_visited s t k d j : tried_below s t k d -> j < k -> s_visited s (t_name t) j d = true.
Proof.
  intros (ls & G & H) L. unfold s_visited. rewrite G, H. rewrite (proj2 (Nat.ltb_lt j k) L). apply bytes_eqb_refl.
Qed.

(** Value lines that do not match are passed, each marked. *)
Lemma values_pass call bound t prev tail d : 1 <= bound -> forall ls i s, tried_below s t i d -> none_of ls d ->
  exists s', tried_below s' t (i + length ls) d /\
    block_run call bound t (map vline ls ++ tail) i s None [] false [] prev d =
    block_run call bound t tail (i + length ls) s' None [] false [] prev d.
Proof.
  intros B. induction ls as [|l ls IH]; intros i s T N; cbn [map app length block_run].
  - exists s. now rewrite Nat.add_0_r.
  - rewrite (untried_visited _ _ _ _ (tried_untried _ _ _ _ T)).
    destruct (value_line call bound false None l i (s_mark s t i d) prev d B) as (_ & C).
    rewrite C by (intros r; apply N; now left). cbn [stry].
    destruct (IH (S i) (s_mark s t i d)) as (s' & T' & E); [now apply tried_mark|intros m r I; apply N; now right|].
    exists s'. replace (i + S (length ls)) with (S i + length ls) by lia. auto.
Qed.

(** Tried lines are passed. *)
Lemma tried_pass call bound t prev tail d esc chs rev k s : tried_below s t k d -> forall ls i, i + length ls <= k ->
  block_run call bound t (ls ++ tail) i s esc chs rev [] prev d = block_run call bound t tail (i + length ls) s esc chs rev [] prev d.
Proof.
  intros T. induction ls as [|l ls IH]; intros i L; cbn [app length block_run] in *.
  - now rewrite Nat.add_0_r.
  - rewrite (tried_visited _ _ _ _ i T) by lia. rewrite IH by lia. f_equal. lia.
Qed.

(** The first value line that matches, with other lines behind. *)
Lemma values_match call bound t prev tail d : 1 <= bound -> forall ls i s k l rest, Forall (fun l => l <> []) ls ->
  untried s (t_name t) i -> first_of ls d k l rest ->
  snd (block_run call bound t (map vline ls ++ tail) i s None [] false [] prev d) = Ok ([TLine (i + k) (vline l) false (velements l)], rest).
Proof.
  intros B. induction ls as [|l0 ls IH]; intros i s k l rest F U (En & Ed & H); [destruct k; discriminate|]. unfold spelled in *.
  inversion F as [|? ? Ne F']; subst. cbn [map app block_run]. rewrite (untried_visited _ _ _ _ U).
  destruct (value_line call bound false None l0 i (s_mark s t i (map snd l ++ rest)) prev (map snd l ++ rest) B) as (A & C).
  destruct k as [|k]; cbn [nth_error] in En.
  - injection En as ->. rewrite (A rest eq_refl). cbn [stry]. rewrite vline_ok by assumption. cbn [snd app]. now rewrite Nat.add_0_r.
  - rewrite C by (intros r; apply (H 0 l0 r); [lia|reflexivity]). cbn [stry].
    rewrite (IH (S i) (s_mark s t i (map snd l ++ rest)) k l rest F' (untried_mark _ _ _ _ U)).
    + do 3 f_equal. f_equal. lia.
    + repeat split; auto. intros j l' r Lj En'. apply (H (S j)); [lia|exact En'].
Qed.
Lemma values_fail call bound t prev d : 1 <= bound -> forall ls i s, untried s (t_name t) i -> none_of ls d -> Forall (fun l => l <> []) ls ->
  snd (block_run call bound t (map vline ls) i s None [] false [] prev d) = Ok ([], d).
Proof.
  intros B ls i s U N F. destruct (value_block call bound t prev B ls i s d U F) as (_ & C). now apply C.
Qed.

Section Left.
  Variables (n : bytes) (before after : list (list (bytes * byte))) (xs : list (bytes * byte)) (su : list suite).
  Hypothesis Fb : Forall (fun l => l <> []) before.
  Hypothesis Fa : Forall (fun l => l <> []) after.
  Definition left_token : token := Token n (map vline before ++ left_line n xs :: map vline after) su.
  Let t := left_token.
  Let k := length before.

  (** The reference, when the line it is in was tried on the same data. *)
  Lemma left_inner f s prev d : tried_below s t (S k) d -> none_of before d ->
    exists s', s_get s' n = None /\
    ((forall j l rest, first_of after d j l rest ->
       token_run (S (S f)) t s None [] false prev d = (s', Ok (Tree t [TLine (S k + j) (vline l) false (velements l)] [] rest))) /\
     (none_of after d -> token_run (S (S f)) t s None [] false prev d = (s', Err))).
  Proof.
    intros T N. change (token_run (S (S f)) t s None [] false prev d) with (token_step (token_run (S f)) (S f) t s None [] false prev d). unfold token_step.
    assert (En : s_enter s t = s).
    { destruct T as (ls & G & _). unfold s_enter. now rewrite G. }
    rewrite En. cbn [t_lines t left_token]. fold left_token. fold t.
    replace (map vline before ++ left_line n xs :: map vline after) with ((map vline before ++ [left_line n xs]) ++ map vline after)
      by (now rewrite <- app_assoc).
    rewrite (tried_pass _ _ t prev (map vline after) d None [] false (S k) s T) by (rewrite app_length, map_length; cbn [length]; subst k; lia).
    replace (0 + length (map vline before ++ [left_line n xs])) with (S k) by (rewrite app_length, map_length; cbn [length]; subst k; lia).
    destruct (block_run (token_run (S f)) (S f) t (map vline after) (S k) s None [] false [] prev d) as [s1 o] eqn:E.
    exists (s_del s1 n). split; [now rewrite s_get_del, bytes_eqb_refl|]. split.
    - intros j l rest F. pose proof (values_match (token_run (S f)) (S f) t prev [] d ltac:(lia) after (S k) s j l rest Fa (tried_untried _ _ _ _ T) F) as M.
      rewrite app_nil_r, E in M. cbn [snd] in M. subst o. reflexivity.
    - intros Na. pose proof (values_fail (token_run (S f)) (S f) t prev d ltac:(lia) after (S k) s (tried_untried _ _ _ _ T) Na Fa) as M.
      rewrite E in M. cbn [snd] in M. subst o. reflexivity.
  Qed.

  Definition left_elements (inner : tree) : list telement :=
    TElement (Some (CElement (ERecursive n) 1 (Some 1%Z))) [TTree inner] :: velements xs.

  Lemma left_ok i inner : line_ok (TLine i (left_line n xs) false (left_elements inner)) = true.
  Proof.
    unfold line_ok. cbn [l_elements l_reverse l_grammar orb left_elements].
    change (TElement (Some (CElement (ERecursive n) 1 (Some 1%Z))) [TTree inner] :: velements xs) with (left_elements inner).
    replace (forallb element_ok (left_elements inner)) with true
      by (unfold left_elements; cbn [forallb]; now rewrite velements_ok).
    cbn [andb]. apply forallb_forall. intros c I.
    assert (W : exists e, c = CElement e 1 (Some 1%Z) /\ exists x, In x (left_elements inner) /\ el_grammar x = Some c).
    { destruct I as [<-|I].
      - exists (ERecursive n). split; auto. eexists. split; [left; reflexivity|reflexivity].
      - apply in_map_iff in I as ([m b] & <- & I). exists (EValue m b). split; auto.
        eexists. split; [right; apply in_map_iff; exists (m, b); split; [reflexivity|exact I]|reflexivity]. }
    destruct W as (e & -> & x & Ix & Gx). cbn [container_ok]. change (1 <=? 0)%Z with false. cbv iota.
    destruct (fetch_element (left_elements inner) (e_name e)) as [y|] eqn:E.
    - unfold fetch_element in E. apply find_some in E as (Iy & _). apply in_rev in Iy.
      destruct Iy as [<-|Iy]; [reflexivity|]. now rewrite (velements_amount _ _ Iy).
    - unfold fetch_element in E. eapply find_none in E; [|rewrite <- in_rev; exact Ix].
      rewrite Gx in E. cbn [c_name] in E. now rewrite bytes_eqb_refl in E.
  Qed.

  (** The line that starts with the reference. *)
  Lemma left_line_run f s prev d : tried_below s t (S k) d -> none_of before d ->
    (forall j l rest r, first_of after d j l rest -> rest = map snd xs ++ r -> l <> [] ->
       exists s', line_run (token_run (S (S f))) (S (S f)) (left_line n xs) k s None [] false prev d =
         (s', Ok (TLine k (left_line n xs) false (left_elements (Tree t [TLine (S k + j) (vline l) false (velements l)] [] rest)), r))) /\
    ((none_of after d \/ (exists j l rest, first_of after d j l rest /\ forall r, rest <> map snd xs ++ r)) ->
       exists s', untried s' n (S k) /\ line_run (token_run (S (S f))) (S (S f)) (left_line n xs) k s None [] false prev d = (s', Err)).
  Proof.
    intros T N. destruct (left_inner f s prev d T N) as (s1 & G1 & I1 & I2).
    assert (Gs : exists q, s_get s n = Some (t, q)) by (destruct T as (q & G & _); now exists q).
    destruct Gs as (q & Gs).
    unfold line_run, left_line. cbn [containers_run].
    assert (U1 : untried s1 n (S k)) by (intros t' ls' j x E; congruence).
    split.
    - intros j l rest r F Er Ne.
      assert (Nd : d <> []).
      { destruct F as (_ & -> & _). destruct l as [|[m b] l]; [congruence|]. discriminate. }
      set (inner := Tree t [TLine (S k + j) (vline l) false (velements l)] [] rest) in *.
      assert (R : repeat_run (token_run (S (S f))) (S (S f)) (S (S f)) (ERecursive n) (Some 1%Z) s None [] false [] prev d = (s1, Ok ([TTree inner], d, rest))).
      { pose proof (I1 j l rest F) as E1. fold inner in E1. remember (S (S f)) as ff eqn:Hff. rewrite Hff at 3.
        cbn [repeat_run]. destruct d as [|b d']; [congruence|]. change (1 <=? zlen (@nil tcontent))%Z with false. cbv iota.
        cbn [element_run]. rewrite Gs. rewrite E1. cbn [sbind tr_remaining inner].
        unfold found, has_successful, inner. cbn [tr_block successful find]. rewrite vline_ok by assumption.
        cbn [stry app]. cbn [repeat_run]. destruct rest; change (1 <=? zlen [TTree inner])%Z with true; reflexivity. }
      rewrite R. cbn [sbind]. change (zlen [TTree inner] <? i64 1)%Z with false. cbv iota.
      destruct (value_containers (token_run (S (S f))) (S (S f)) false None prev ltac:(lia) xs s1
        [TElement (Some (CElement (ERecursive n) 1 (Some 1%Z))) [TTree inner]] d rest) as (V & _).
      cbn [app]. change (sequence xs) with (vline xs). rewrite (V r Er). exists s1. reflexivity.
    - intros Bad. destruct d as [|b d'].
      + exists s. split; [exact (tried_untried _ _ _ _ T)|]. cbn [repeat_run sbind]. reflexivity.
      + destruct Bad as [Na|(j & l & rest & F & Nx)].
        * exists s1. split; auto. pose proof (I2 Na) as E1.
          assert (R : repeat_run (token_run (S (S f))) (S (S f)) (S (S f)) (ERecursive n) (Some 1%Z) s None [] false [] prev (b :: d') = (s1, Ok ([], prev, b :: d'))).
          { remember (S (S f)) as ff eqn:Hff. rewrite Hff at 3. cbn [repeat_run]. change (1 <=? zlen (@nil tcontent))%Z with false. cbv iota.
            cbn [element_run]. rewrite Gs, E1. reflexivity. }
          rewrite R. reflexivity.
        * exists s1. split; auto. set (inner := Tree t [TLine (S k + j) (vline l) false (velements l)] [] rest) in *.
          assert (Ne : l <> []).
          { destruct F as (En & _). apply nth_error_In in En. rewrite Forall_forall in Fa. now apply Fa. }
          assert (R : repeat_run (token_run (S (S f))) (S (S f)) (S (S f)) (ERecursive n) (Some 1%Z) s None [] false [] prev (b :: d') = (s1, Ok ([TTree inner], b :: d', rest))).
          { pose proof (I1 j l rest F) as E1. fold inner in E1. remember (S (S f)) as ff eqn:Hff. rewrite Hff at 3.
            cbn [repeat_run]. change (1 <=? zlen (@nil tcontent))%Z with false. cbv iota.
            cbn [element_run]. rewrite Gs. rewrite E1. cbn [sbind tr_remaining inner].
            unfold found, has_successful, inner. cbn [tr_block successful find]. rewrite vline_ok by assumption.
            cbn [stry app]. cbn [repeat_run]. destruct rest; change (1 <=? zlen [TTree inner])%Z with true; reflexivity. }
          rewrite R. cbn [sbind]. change (zlen [TTree inner] <? i64 1)%Z with false. cbv iota.
          destruct (value_containers (token_run (S (S f))) (S (S f)) false None prev ltac:(lia) xs s1
            [TElement (Some (CElement (ERecursive n) 1 (Some 1%Z))) [TTree inner]] (b :: d') rest) as (_ & V).
          cbn [app]. change (sequence xs) with (vline xs). rewrite (V Nx). reflexivity.
  Qed.

  Lemma left_execute f d : 3 <= f ->
    (forall j l rest, first_of before d j l rest ->
       execute f (Grammar t []) d = Ok (Tree t [TLine j (vline l) false (velements l)] [] rest)) /\
    (none_of before d -> forall j l rest, first_of after d j l rest ->
       (forall r, rest = map snd xs ++ r ->
          execute f (Grammar t []) d = Ok (Tree t [TLine k (left_line n xs) false
            (left_elements (Tree t [TLine (S k + j) (vline l) false (velements l)] [] rest))] [] r)) /\
       ((forall r, rest <> map snd xs ++ r) ->
          execute f (Grammar t []) d = Ok (Tree t [TLine (S k + j) (vline l) false (velements l)] [] rest))) /\
    (none_of before d -> none_of after d -> execute f (Grammar t []) d = Err).
  Proof.
    intros L. destruct f as [|[|[|f]]]; try lia. set (ff := S (S f)).
    assert (B : 1 <= ff) by (subst ff; lia).
    unfold execute. change (token_run (S ff) t [] None [] false [] d) with (token_step (token_run ff) ff t [] None [] false [] d).
    unfold token_step. cbn [t_lines t left_token]. fold left_token. fold t.
    split; [|assert (Rest : none_of before d -> exists s, tried_below s t k d /\
        block_run (token_run ff) ff t (map vline before ++ left_line n xs :: map vline after) 0 (s_enter [] t) None [] false [] [] d =
        block_run (token_run ff) ff t (left_line n xs :: map vline after) k s None [] false [] [] d)
      by (intros N; destruct (values_pass (token_run ff) ff t [] (left_line n xs :: map vline after) d B before 0 _ (tried_enter t d) N) as (s & T & E); exists s; auto); split].
    - intros j l rest F.
      pose proof (values_match (token_run ff) ff t [] (left_line n xs :: map vline after) d B before 0 _ j l rest Fb (tried_untried _ _ _ _ (tried_enter t d)) F) as M.
      destruct (block_run (token_run ff) ff t (map vline before ++ left_line n xs :: map vline after) 0 (s_enter [] t) None [] false [] [] d) as [s1 o].
      cbn [snd] in M. subst o. reflexivity.
    - intros N j l rest F. destruct (Rest N) as (s & T & E). rewrite E. cbn [block_run].
      rewrite (untried_visited _ _ _ _ (tried_untried _ _ _ _ T)).
      destruct (left_line_run f (s_mark s t k d) [] d (tried_mark _ _ _ _ T) N) as (A & C). fold ff in A, C.
      assert (Ne : l <> []).
      { destruct F as (En & _). apply nth_error_In in En. rewrite Forall_forall in Fa. now apply Fa. }
      split.
      + intros r Er. destruct (A j l rest r F Er Ne) as (s' & ->). cbn [stry]. rewrite left_ok. reflexivity.
      + intros Nx. destruct C as (s' & U & ->); [right; eauto|]. cbn [stry].
        pose proof (values_match (token_run ff) ff t [] [] d B after (S k) s' j l rest Fa U F) as M. rewrite app_nil_r in M.
        destruct (block_run (token_run ff) ff t (map vline after) (S k) s' None [] false [] [] d) as [s1 o].
        cbn [snd] in M. subst o. reflexivity.
    - intros N Na. destruct (Rest N) as (s & T & E). rewrite E. cbn [block_run].
      rewrite (untried_visited _ _ _ _ (tried_untried _ _ _ _ T)).
      destruct (left_line_run f (s_mark s t k d) [] d (tried_mark _ _ _ _ T) N) as (_ & C). fold ff in C.
      destruct C as (s' & U & ->); [now left|]. cbn [stry].
      pose proof (values_fail (token_run ff) ff t [] d B after (S k) s' U Na Fa) as M.
      destruct (block_run (token_run ff) ff t (map vline after) (S k) s' None [] false [] [] d) as [s1 o].
      cbn [snd] in M. subst o. reflexivity.
  Qed.
End Left.

(** ** Syntax trees *)
Lemma velements_ast l : map element_ast (velements l) = leaves_of l.
Proof. unfold velements, leaves_of. rewrite map_map. now apply map_ext. Qed.

Lemma ast_of_values t j l rest : l <> [] ->
  let tr := Tree t [TLine j (vline l) false (velements l)] [] rest in
  has_successful tr = true /\ tree_ast tr = Node (t_name t) j (leaves_of l) /\ tr_remaining tr = rest.
Proof.
  intros Ne tr. unfold tr, has_successful. cbn [tr_block successful find tree_ast]. rewrite vline_ok by auto.
  cbn [l_index line_ast]. now rewrite velements_ast.
Qed.

Lemma ast_of_left t k j n xs l rest r : l <> [] ->
  let tr := Tree t [TLine k (reference_then n xs) false (left_elements n xs (Tree t [TLine j (vline l) false (velements l)] [] rest))] [] r in
  has_successful tr = true /\ tree_ast tr = Node (t_name t) k ((n, [Node (t_name t) j (leaves_of l)]) :: leaves_of xs) /\ tr_remaining tr = r.
Proof.
  intros Ne tr. destruct (ast_of_values t j l rest Ne) as (_ & E & _).
  unfold tr, has_successful. cbn [tr_block successful find].
  set (inner := Tree t [TLine j (vline l) false (velements l)] [] rest) in *.
  cbn [tree_ast]. rewrite left_ok. cbn [l_index line_ast left_elements map]. rewrite velements_ast.
  cbn [element_ast map content_ast c_name e_name]. rewrite E. auto.
Qed.

(** ** The language *)
Lemma lang_values r chs l : lang_line r chs (sequence l) (spelled l).
Proof.
  induction l as [|[n b] l IH]; cbn [sequence spelled map fst snd]; [constructor|].
  change (b :: map snd l) with ([b] ++ map snd l). apply (lang_cons r chs (EValue n b) 1 (Some 1%Z) _ 1 [b] (map snd l)); [lia|intros m [= <-]; lia| |exact IH].
  change [b] with (([] ++ [b]) ++ []). constructor; [|constructor]. constructor. constructor.
Qed.

Lemma times_end k w : times (S k) w = times k w ++ w.
Proof.
  induction k as [|k IH]; [cbn; now rewrite app_nil_r|]. change (times (S (S k)) w) with (w ++ times (S k) w). rewrite IH at 1.
  cbn [times]. now rewrite app_assoc.
Qed.

Lemma left_language n xs ys su k :
  let t := Token n [reference_then n xs; sequence ys] su in lang_token t [] t (spelled ys ++ times k (spelled xs)).
Proof.
  intros t. induction k as [|k IH].
  - cbn [times]. rewrite app_nil_r. apply (lang_line_of t [] t (sequence ys)); [cbn; auto|]. apply lang_values.
  - rewrite times_end, app_assoc. apply (lang_line_of t [] t (reference_then n xs)); [cbn; auto|].
    apply (lang_cons t [] (ERecursive n) 1 (Some 1%Z) _ 1); [lia|intros m [= <-]; lia| |apply lang_values].
    rewrite <- (app_nil_r (spelled ys ++ times k (spelled xs))).
    apply lang_succ; [|constructor]. rewrite <- (app_nil_r (spelled ys ++ times k (spelled xs))).
    apply (lang_recursive t [] t n); auto; constructor.
Qed.
