(** Everythings, greedy repetitions, and lines that succeed without a match. *)
From Coq Require Import List ZArith Lia Bool.
From Coq Require Import Init.Byte Strings.Byte.
From Verif Require Import Base BaseLemmas AstModel SpecAst AstProofs AstTraceProofs AstFuelProofs AstMoreProofs.
Import ListNotations.

Definition plain (w : bytes) : list tcontent := map (fun b => TValue b []) w.

(** ** Everything up to a sequence of values *)
(** [w] is what comes before the first place where [ex] is, in [w ++ rest]. *)
Definition first_place (ex w rest : bytes) : Prop :=
  (rest = [] \/ exists v, rest = ex ++ v) /\ forall u v, w ++ rest = u ++ ex ++ v -> length w <= length u.

Lemma reverse_values call bound ex i s : 1 <= bound -> ex <> [] -> forall w rest, first_place (map snd ex) w rest ->
  forall f cs prev, length w <= f -> (rest <> [] -> length w < f) ->
  reverse_loop call bound f (vline ex) i s None [] cs prev (w ++ rest) = (s, Ok (cs ++ plain w, rest)).
Proof.
  intros B Ne. induction w as [|b w IH]; intros rest (Hr & Hf) f cs prev L1 L2.
  - cbn [app plain map]. rewrite app_nil_r. destruct Hr as [->|(v & ->)]; [destruct f; reflexivity|].
    destruct f as [|f]; [exfalso; specialize (L2 ltac:(destruct ex; [congruence|discriminate])); cbn in *; lia|].
    destruct (value_line call bound true None ex i s prev (map snd ex ++ v) B) as (A & _).
    cbn [reverse_loop escape_run sbind]. destruct (map snd ex ++ v) eqn:E; [destruct ex; [congruence|discriminate]|].
    rewrite (A v (eq_sym E)). reflexivity.
  - cbn [length] in *. destruct f as [|f]; [lia|]. cbn [app reverse_loop escape_run sbind].
    destruct (value_line call bound true None ex i s prev (b :: w ++ rest) B) as (_ & A).
    rewrite A.
    + cbn [stry]. rewrite IH; [cbn [plain map]; now rewrite <- app_assoc| |lia|intros R; specialize (L2 R); lia].
      split; auto. intros u v E. specialize (Hf (b :: u) v). cbn [app length] in Hf. rewrite E in Hf. specialize (Hf eq_refl). lia.
    + intros r E. specialize (Hf [] r). cbn [app length] in Hf. rewrite E in Hf. specialize (Hf eq_refl). lia.
Qed.

Definition everything_line (m : bytes) (exc : token) : list container := [CElement (EEverything m exc None) 1 (Some 1%Z)].

Lemma bytes_eqb_neq a b : a <> b -> bytes_eqb a b = false.
Proof. intros N. destruct (bytes_eqb a b) eqn:E; auto. apply bytes_eqb_true in E. congruence. Qed.

Section Everything.
  Variables (n m k : bytes) (ex : list (bytes * byte)) (others : list (list container)) (su su' : list suite).
  Hypothesis Hk : k <> n.
  Hypothesis Hex : ex <> [].
  Let exc := Token k (vline ex :: others) su'.
  Let root := Token n [everything_line m exc] su.

  Lemma exception_run call bound s prev w rest : s_get s k = None -> S (length (w ++ rest)) <= bound -> first_place (map snd ex) w rest ->
    exists s', forall o, o = match w with [] => Err | _ => Ok (Tree exc [TLine 0 (vline ex) true [TElement None (plain w)]] [] rest) end ->
    token_step call bound exc s None [] true prev (w ++ rest) = (s', o).
  Proof.
    intros G L F. assert (En : s_enter s exc = s_set s k (exc, [])) by (unfold s_enter; cbn [t_name exc]; now rewrite G).
    assert (Ev : s_visited (s_enter s exc) k 0 (w ++ rest) = false).
    { unfold s_visited. rewrite En, s_get_set, bytes_eqb_refl. reflexivity. }
    unfold token_step. cbn [t_lines exc block_run]. fold exc. change (t_name exc) with k. rewrite Ev.
    rewrite app_length in L.
    rewrite (reverse_values call bound ex 0 (s_mark (s_enter s exc) exc 0 (w ++ rest)) ltac:(lia) Hex w rest F bound [] prev ltac:(lia) ltac:(lia)).
    eexists. intros o ->. cbn [sbind fst snd app]. destruct w as [|b w]; cbn [plain map]; reflexivity.
  Qed.

  Lemma everything_execute_channels f chs data w rest : length data + 3 <= f -> data = w ++ rest -> first_place (map snd ex) w rest ->
    execute f (Grammar root chs) data =
      match w with
      | [] => Err
      | _ => do sf <- channels_try (token_run (Nat.pred f)) (Nat.pred f) chs [] rest;
             Ok (Tree root [TLine 0 (everything_line m exc) false
               [TElement (Some (CElement (EEverything m exc None) 1 (Some 1%Z)))
                  [TTree (Tree exc [TLine 0 (vline ex) true [TElement None (plain w)]] [] rest)]]] (fst sf) (snd sf))
      end.
  Proof.
    intros L -> F. destruct f as [|f]; [lia|]. unfold execute. cbn [token_run]. unfold token_step. cbn [t_lines root block_run]. fold root.
    change (t_name root) with n. change (s_enter [] root) with [(n, (root, @nil (nat * bytes)))].
    replace (s_visited [(n, (root, []))] n 0 (w ++ rest)) with false by (unfold s_visited; cbn [s_get]; now rewrite bytes_eqb_refl).
    set (s1 := s_mark [(n, (root, []))] root 0 (w ++ rest)).
    assert (G1 : s_get s1 k = None).
    { unfold s1, s_mark. cbn [s_get t_name root]. rewrite bytes_eqb_refl, s_get_set, bytes_eqb_neq by congruence. cbn [s_get].
      now rewrite bytes_eqb_neq by congruence. }
    unfold line_run, everything_line. cbn [containers_run].
    destruct f as [|f]; [lia|].
    assert (Er : exists s2, element_run (token_run (S f)) (S f) (EEverything m exc None) s1 None chs false [] (w ++ rest) =
      (s2, match w with [] => Err | _ => Ok (TTree (Tree exc [TLine 0 (vline ex) true [TElement None (plain w)]] [] rest), rest) end)).
    { unfold element_run. destruct (w ++ rest) as [|b0 d0] eqn:Ed.
      - exists s1. apply app_eq_nil in Ed as (-> & ->). reflexivity.
      - rewrite <- Ed in *. cbn [negb token_run].
        destruct (exception_run (token_run f) f s1 [] w rest G1) as (s' & E); [lia|auto|].
        specialize (E _ eq_refl). rewrite E. exists s'. destruct w as [|b w]; [reflexivity|]. cbn [sbind].
        unfold found, has_successful. cbn [tr_block successful find line_ok l_elements forallb element_ok el_grammar andb l_reverse orb].
        reflexivity. }
    destruct Er as (s2 & Er). cbn [repeat_run]. 
    destruct (w ++ rest) as [|b0 d0] eqn:Ed.
    - apply app_eq_nil in Ed as (-> & ->). reflexivity.
    - rewrite <- Ed in *. change (1 <=? zlen (@nil tcontent))%Z with false. cbv iota. rewrite Er. cbn [stry].
      destruct w as [|b w].
      + cbn [sbind]. change (zlen (@nil tcontent) <? i64 1)%Z with true. cbv iota. reflexivity.
      + cbn [app]. set (tc := TTree _).
        assert (Rr : forall s p r, repeat_run (token_run (S f)) (S f) f (EEverything m exc None) (Some 1%Z) s None chs false [tc] p r = (s, Ok ([tc], p, r))).
        { intros s p r. destruct f as [|f']; [lia|]. cbn [repeat_run]. change (1 <=? zlen [tc])%Z with true. destruct r; reflexivity. }
        rewrite Rr. cbn [sbind stry]. change (zlen [tc] <? i64 1)%Z with false. cbv iota. cbn [containers_run sbind stry fst snd app].
        assert (Lo : line_ok (TLine 0 [CElement (EEverything m exc None) 1 (Some 1%Z)] false [TElement (Some (CElement (EEverything m exc None) 1 (Some 1%Z))) [tc]]) = true).
        { unfold line_ok. cbn [l_elements forallb element_ok el_grammar l_reverse l_grammar orb container_ok fetch_element rev app find c_name e_name].
          rewrite bytes_eqb_refl. reflexivity. }
        rewrite Lo. reflexivity.
  Qed.

  Lemma everything_execute f data w rest : length data + 3 <= f -> data = w ++ rest -> first_place (map snd ex) w rest ->
    execute f (Grammar root []) data =
      match w with
      | [] => Err
      | _ => Ok (Tree root [TLine 0 (everything_line m exc) false
               [TElement (Some (CElement (EEverything m exc None) 1 (Some 1%Z)))
                  [TTree (Tree exc [TLine 0 (vline ex) true [TElement None (plain w)]] [] rest)]]] [] rest)
      end.
  Proof. intros L E F. rewrite (everything_execute_channels f [] data w rest L E F). destruct w; reflexivity. Qed.
End Everything.

(** ** Escapes at the end of the input *)
(** An everything up to [x] with escape [e]: it panics on the escaped [x] at the end of the input. *)
Definition escaped (n m k j xn en : bytes) (x e : byte) : token :=
  Token n [[CElement (EEverything m (Token k [[CElement (EValue xn x) 1 (Some 1%Z)]] [])
                        (Some (Token j [[CElement (EValue en e) 1 (Some 1%Z)]] []))) 1 (Some 1%Z)]] [].

Section Escaped.
  Variables (n m k j xn en : bytes) (x e : byte).
  Hypothesis Hkn : k <> n.
  Hypothesis Hjn : j <> n.
  Hypothesis Hjk : j <> k.
  Hypothesis Hxe : x <> e.
  Let exc := Token k [[CElement (EValue xn x) 1 (Some 1%Z)]] [].
  Let esc := Token j [[CElement (EValue en e) 1 (Some 1%Z)]] [].
  Let root := escaped n m k j xn en x e.

  (** The escape alone. *)
  Lemma escape_token call bound s prev b d : s_get s j = None -> 1 <= bound ->
    exists s', s_get s' j = None /\
    token_step call bound esc s None [] false prev (b :: d) =
      (s', if Byte.eqb e b then Ok (Tree esc [TLine 0 (vline [(en, e)]) false (velements [(en, e)])] [] d) else Err).
  Proof.
    intros G B. unfold token_step. cbn [t_lines esc]. fold esc.
    assert (U : untried (s_enter s esc) (t_name esc) 0).
    { intros t' ls j' y. unfold s_enter. change (t_name esc) with j. rewrite G, s_get_set, bytes_eqb_refl. intros [= <- <-]. discriminate. }
    destruct (value_block call bound esc prev B [[(en, e)]] 0 (s_enter s esc) (b :: d) U) as (A & C); [constructor; [discriminate|constructor]|].
    change (map vline [[(en, e)]]) with [[CElement (EValue en e) 1 (Some 1%Z)]] in *.
    destruct (block_run call bound esc [[CElement (EValue en e) 1 (Some 1%Z)]] 0 (s_enter s esc) None [] false [] prev (b :: d)) as [s1 o].
    cbn [snd] in *. exists (s_del s1 (t_name esc)). change (t_name esc) with j. rewrite s_get_del, bytes_eqb_refl. split; auto.
    destruct (Byte.eqb e b) eqn:E.
    - apply byte_eqb_true in E as <-. rewrite (A 0 [(en, e)] d eq_refl eq_refl); [reflexivity|intros; lia].
    - rewrite C; [reflexivity|]. intros l r [<-|[]] [= -> _]. now rewrite (proj2 (byte_eqb_true e e) eq_refl) in E.
  Qed.

  Lemma byte_neq (a b : byte) : a <> b -> Byte.eqb a b = false.
  Proof. intros N. destruct (Byte.eqb a b) eqn:E; auto. apply byte_eqb_true in E. congruence. Qed.

  Lemma reverse_escape fc bound i : 1 <= bound -> 1 <= fc -> forall w, ~ In x w -> ~ In e w -> forall f s cs prev, s_get s j = None -> length w < f ->
    snd (reverse_loop (token_run (S fc)) bound f (vline [(xn, x)]) i s (Some esc) [] cs prev (w ++ [e; x])) = Panic.
  Proof.
    intros B Bc. induction w as [|b w IH]; intros Nx Ne f s cs prev G L; (destruct f as [|f]; [cbn [length] in L; lia|]).
    - cbn [app reverse_loop escape_run token_run].
      destruct (escape_token (token_run fc) fc s prev e [x] G Bc) as (s1 & G1 & ->).
      rewrite (proj2 (byte_eqb_true e e) eq_refl). cbn [stry]. unfold has_successful. cbn [tr_block successful find]. rewrite vline_ok by discriminate.
      cbn [tr_remaining].
      destruct (value_line (token_step (token_run fc) fc) bound true (Some esc) [(xn, x)] i s1 [e; x] [x] B) as (A & _).
      rewrite (A [] eq_refl). cbn [stry]. rewrite vline_ok by discriminate. cbn [length Nat.ltb Nat.leb Nat.sub firstn skipn map app sbind].
      destruct (value_line (token_step (token_run fc) fc) bound true (Some esc) [(xn, x)] i s1 [x] [] B) as (_ & C).
      rewrite C by discriminate. reflexivity.
    - cbn [app reverse_loop escape_run]. 
      assert (Nb : x <> b /\ e <> b) by (split; intros ->; [apply Nx|apply Ne]; now left). destruct Nb as (Nbx & Nbe).
      destruct (escape_token (token_run fc) fc s prev b (w ++ [e; x]) G Bc) as (s1 & G1 & Et).
      change (token_run (S fc)) with (token_step (token_run fc) fc) in *. rewrite Et.
      rewrite (byte_neq e b Nbe). cbn [stry sbind].
      destruct (value_line (token_step (token_run fc) fc) bound true (Some esc) [(xn, x)] i s1 prev (b :: w ++ [e; x]) B) as (_ & C).
      rewrite C by (intros r [= -> _]; congruence). cbn [stry]. apply IH; auto; [intros I; apply Nx; now right|intros I; apply Ne; now right|cbn [length] in L; lia].
  Qed.

  Lemma escape_panics f w : ~ In x w -> ~ In e w -> length w + 5 <= f -> execute f (Grammar root []) (w ++ [e; x]) = Panic.
  Proof.
    intros Nx Ne L. set (data := w ++ [e; x]).
    assert (Dn : exists b0 d0, data = b0 :: d0) by (unfold data; destruct w; eexists; eexists; reflexivity). destruct Dn as (b0 & d0 & Dn).
    destruct f as [|f]; [lia|]. unfold execute. cbn [token_run]. unfold token_step at 1. cbn [t_lines root escaped block_run]. fold exc esc. fold root.
    change (t_name root) with n. change (s_enter [] root) with [(n, (root, @nil (nat * bytes)))].
    replace (s_visited [(n, (root, []))] n 0 data) with false by (unfold s_visited; cbn [s_get]; now rewrite bytes_eqb_refl).
    set (s1 := s_mark [(n, (root, []))] root 0 data).
    assert (G1 : forall y, y <> n -> s_get s1 y = None).
    { intros y Hy. unfold s1, s_mark. change (t_name root) with n. cbn [s_get]. rewrite bytes_eqb_refl, s_get_set, bytes_eqb_neq by congruence. cbn [s_get].
      now rewrite bytes_eqb_neq by congruence. }
    assert (P : snd (token_run f exc s1 (Some esc) [] true [] data) = Panic).
    { destruct f as [|[|f]]; [lia|lia|]. change (token_run (S (S f))) with (token_step (token_run (S f)) (S f)). unfold token_step at 1.
      cbn [t_lines exc block_run]. fold exc. change (t_name exc) with k.
      assert (En : s_enter s1 exc = s_set s1 k (exc, [])) by (unfold s_enter; change (t_name exc) with k; now rewrite G1).
      assert (Ev : s_visited (s_enter s1 exc) k 0 data = false) by (unfold s_visited; rewrite En, s_get_set, bytes_eqb_refl; reflexivity).
      rewrite Ev.
      assert (Gm : s_get (s_mark (s_enter s1 exc) exc 0 data) j = None).
      { unfold s_mark. rewrite En. change (t_name exc) with k. rewrite s_get_set, bytes_eqb_refl, s_get_set, bytes_eqb_neq by congruence.
        rewrite s_get_set, bytes_eqb_neq by congruence. now apply G1. }
      assert (R := reverse_escape f (S f) 0 ltac:(lia) ltac:(lia) w Nx Ne (S f) _ [] [] Gm ltac:(lia)).
      change (vline [(xn, x)]) with [CElement (EValue xn x) 1 (Some 1%Z)] in R. fold data in R.
      match goal with |- context [reverse_loop ?p1 ?p2 ?p3 ?p4 ?p5 ?p6 ?p7 ?p8 ?p9 ?q0 ?q1] =>
        destruct (reverse_loop p1 p2 p3 p4 p5 p6 p7 p8 p9 q0 q1) as [s' o] eqn:Er end.
      cbn [snd] in R. rewrite R. reflexivity. }
    unfold line_run. cbn [containers_run]. destruct f as [|f]; [lia|]. cbn [repeat_run]. rewrite Dn at 1.
    change (1 <=? zlen (@nil tcontent))%Z with false. cbv iota. unfold element_run. rewrite Dn at 1. cbn [negb].
    destruct (token_run (S f) exc s1 (Some esc) [] true [] data) as [s' o]. cbn [snd] in P. rewrite P. reflexivity.
  Qed.
End Escaped.

(** ** Greedy repetitions *)
Lemma value_greedy call bound n b s esc rev : forall k rest f cs prev, (forall r, rest <> b :: r) ->
  S k <= f ->
  exists prev', repeat_run call bound f (EValue n b) None s esc [] rev cs prev (repeat b k ++ rest) =
    (s, Ok (cs ++ repeat (TValue b []) k, prev', rest)).
Proof.
  induction k as [|k IH]; intros rest f cs prev Hr L; cbn [repeat app].
  - rewrite app_nil_r. destruct f as [|f]; [lia|]. destruct rest as [|x rest]; [exists prev; reflexivity|].
    cbn [repeat_run element_run element_value channels_try bind fst snd].
    destruct (Byte.eqb b x) eqn:E; [apply byte_eqb_true in E as <-; now destruct (Hr rest)|]. exists prev. reflexivity.
  - destruct f as [|f]; [lia|]. cbn [repeat_run element_run element_value channels_try bind fst snd].
    rewrite (proj2 (byte_eqb_true b b) eq_refl). cbn [bind stry].
    destruct (IH rest f (cs ++ [TValue b []]) (b :: repeat b k ++ rest) Hr ltac:(lia)) as (p & ->). exists p.
    now rewrite <- app_assoc.
Qed.

Lemma run_of b : forall d : bytes, exists k rest, d = repeat b k ++ rest /\ forall r, rest <> b :: r.
Proof.
  induction d as [|x d (k & rest & -> & H)]; [exists 0, []; split; [reflexivity|discriminate]|].
  destruct (Byte.eqb b x) eqn:E.
  - apply byte_eqb_true in E as <-. exists (S k), rest. auto.
  - exists 0, (x :: repeat b k ++ rest). split; auto. intros r [= -> _]. now rewrite (proj2 (byte_eqb_true b b) eq_refl) in E.
Qed.

Definition greedy (n n1 n2 : bytes) (b : byte) (min : Z) : token :=
  Token n [[CElement (EValue n1 b) min None; CElement (EValue n2 b) 1 (Some 1%Z)]] [].

Lemma greedy_line call bound i s prev cur n1 n2 b mi a : snd (line_run call bound [CElement (EValue n1 b) mi None; CElement (EValue n2 b) 1 (Some 1%Z)] i s None [] false prev cur) <> Ok a.
Proof.
  unfold line_run. cbn [containers_run].
  destruct (run_of b cur) as (k & rest & -> & Hr).
  assert (X : forall f cs prev, (exists p, repeat_run call bound f (EValue n1 b) None s None [] false cs prev (repeat b k ++ rest) =
     (s, Ok (cs ++ repeat (TValue b []) k, p, rest))) \/
    snd (repeat_run call bound f (EValue n1 b) None s None [] false cs prev (repeat b k ++ rest)) = Fuel).
  { intros f. revert k. induction f as [|f IH]; intros k cs p.
    - destruct k as [|k]; cbn [repeat app].
      + destruct rest; [left; exists p; cbn [repeat_run]; now rewrite app_nil_r|right; reflexivity].
      + right; reflexivity.
    - destruct k as [|k]; cbn [repeat app].
      + left. destruct (value_greedy call bound n1 b s None false 0 rest (S f) cs p Hr ltac:(lia)) as (q & E). exists q. exact E.
      + cbn [repeat_run element_run element_value channels_try bind fst snd].
        rewrite (proj2 (byte_eqb_true b b) eq_refl). cbn [bind stry].
        destruct (IH k (cs ++ [TValue b []]) (b :: repeat b k ++ rest)) as [(q & ->)|E]; [left; exists q; now rewrite <- app_assoc|right; exact E]. }
  destruct (X bound [] prev) as [(p & ->)|E].
  - cbn [sbind]. destruct (_ <? _)%Z; [discriminate|]. destruct bound as [|f]; cbn [repeat_run].
    + destruct rest as [|x rest]; cbn [sbind]; discriminate.
    + destruct rest as [|x rest]; [cbn [sbind]; discriminate|]. change (1 <=? zlen (@nil tcontent))%Z with false. cbv iota.
      cbn [element_run element_value channels_try bind fst snd].
      destruct (Byte.eqb b x) eqn:E; [apply byte_eqb_true in E as <-; now destruct (Hr rest)|]. cbn [bind stry sbind]. discriminate.
  - destruct (repeat_run call bound bound (EValue n1 b) None s None [] false [] prev (repeat b k ++ rest)) as [s' o]. cbn [snd] in E. subst o. discriminate.
Qed.

Lemma greedy_execute f n n1 n2 b mi data t : execute f (Grammar (greedy n n1 n2 b mi) []) data <> Ok t.
Proof.
  unfold execute. destruct f as [|f]; cbn [token_run]; [discriminate|]. unfold token_step, greedy. cbn [t_lines block_run].
  set (tk := Token n _ _). change (t_name tk) with n. change (s_enter [] tk) with [(n, (tk, @nil (nat * bytes)))].
  replace (s_visited [(n, (tk, []))] n 0 data) with false by (unfold s_visited; cbn [s_get]; now rewrite bytes_eqb_refl).
  match goal with |- context [line_run ?p1 ?p2 ?p3 ?p4 ?p5 ?p6 ?p7 ?p8 ?p9 ?p0] =>
    assert (X := fun x => greedy_line p1 p2 p4 p5 p9 p0 n1 n2 b mi x); destruct (line_run p1 p2 p3 p4 p5 p6 p7 p8 p9 p0) as [s2 [x| | |]] end.
  all: cbn [stry snd] in *; try discriminate. now destruct (X x).
Qed.

(** ** Trees without a successful line *)
Lemma optional_execute f n m b su x rest : b <> x -> 2 <= f ->
  execute f (Grammar (Token n [[CElement (EValue m b) 0 (Some 1%Z)]] su) []) (x :: rest) =
    Ok (Tree (Token n [[CElement (EValue m b) 0 (Some 1%Z)]] su) [TLine 0 [CElement (EValue m b) 0 (Some 1%Z)] false []] [] (x :: rest)).
Proof.
  intros N L. destruct f as [|[|f]]; [lia|lia|]. unfold execute. cbn [token_run]. unfold token_step at 1. cbn [t_lines block_run].
  set (t := Token n _ su). change (t_name t) with n. change (s_enter [] t) with [(n, (t, @nil (nat * bytes)))].
  replace (s_visited [(n, (t, []))] n 0 (x :: rest)) with false by (unfold s_visited; cbn [s_get]; now rewrite bytes_eqb_refl).
  unfold line_run. cbn [containers_run]. rewrite value_repeat, (byte_neq b x N). reflexivity.
Qed.

Lemma doubled_execute f n m a b su rest : a <> b -> 3 <= f ->
  let l := [CElement (EValue m a) 2 (Some 2%Z); CElement (EValue m b) 1 (Some 1%Z)] in
  exists es, execute f (Grammar (Token n [l] su) []) (a :: a :: b :: rest) =
    Ok (Tree (Token n [l] su) [TLine 0 l false es] [] (a :: a :: b :: rest)) /\ line_ok (TLine 0 l false es) = false.
Proof.
  intros N L l. destruct f as [|[|[|f]]]; [lia|lia|lia|]. unfold execute. cbn [token_run]. unfold token_step at 1. cbn [t_lines block_run].
  set (t := Token n [l] su). change (t_name t) with n. change (s_enter [] t) with [(n, (t, @nil (nat * bytes)))].
  replace (s_visited [(n, (t, []))] n 0 (a :: a :: b :: rest)) with false by (unfold s_visited; cbn [s_get]; now rewrite bytes_eqb_refl).
  unfold line_run, l. cbn [containers_run].
  assert (R : forall call s p, repeat_run call (S (S f)) (S (S f)) (EValue m a) (Some 2%Z) s None [] false [] p (a :: a :: b :: rest) =
    (s, Ok ([TValue a []; TValue a []], a :: b :: rest, b :: rest))).
  { intros call s p. cbn [repeat_run element_run element_value channels_try bind fst snd]. rewrite (proj2 (byte_eqb_true a a) eq_refl).
    change (2 <=? zlen (@nil tcontent))%Z with false. cbn [bind stry app]. change (2 <=? zlen [TValue a []])%Z with false. cbv iota.
    cbn [element_run element_value channels_try bind fst snd]. rewrite (proj2 (byte_eqb_true a a) eq_refl). cbn [bind stry app].
    destruct f as [|f]; cbn [repeat_run]; reflexivity. }
  rewrite R. cbn [sbind]. change (zlen [TValue a []; TValue a []] <? i64 2)%Z with false. cbv iota. rewrite value_repeat.
  rewrite (proj2 (byte_eqb_true b b) eq_refl). cbn [sbind]. change (zlen [TValue b []] <? i64 1)%Z with false. cbv iota. cbn [containers_run sbind stry fst snd app].
  set (es := [TElement _ _; TElement _ _]).
  assert (Lo : line_ok (TLine 0 [CElement (EValue m a) 2 (Some 2%Z); CElement (EValue m b) 1 (Some 1%Z)] false es) = false).
  { unfold es, line_ok. cbn [l_elements forallb element_ok el_grammar l_reverse l_grammar orb container_ok fetch_element rev app find c_name e_name].
    rewrite bytes_eqb_refl. reflexivity. }
  rewrite Lo. exists es. split; [reflexivity|exact Lo].
Qed.
