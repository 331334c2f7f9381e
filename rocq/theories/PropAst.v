(** Property theorems for the parser (C40 - C51, C89 - C95). *)
From Coq Require Import List ZArith Lia Bool.
From Coq Require Import Init.Byte Strings.Byte.
From Verif Require Import Base BaseLemmas AstModel SpecAst AstProofs AstTraceProofs AstFuelProofs SpecPeg AstListProofs AstPegProofs AstVisibleProofs
  AstPanicProofs AstMoreProofs AstEveryProofs.
Import ListNotations.

(** ** A grammar for the examples *)
(** e := '(' @e ')' | 'a', spaces skipped. *)
Definition ex_one (n : bytes) (b : byte) : container := CElement (EValue n b) 1 (Some 1%Z).
Definition ex_expr : token :=
  Token [x65] [[ex_one [x28] x28; CElement (ERecursive [x65]) 1 (Some 1%Z); ex_one [x29] x29]; [ex_one [x61] x61]] [].
Definition ex_space : token := Token [x73] [[ex_one [x20] x20]] [].
Definition ex_g : grammar := Grammar ex_expr [Channel ex_space None].
(** "( (a) )b" *)
Definition ex_data : bytes := [x28; x20; x28; x61; x29; x20; x29; x62].

Lemma ex_space_within t : within ex_space t -> t = ex_space.
Proof.
  induction 1 as [|t u _ -> C]; auto. exfalso. inversion C as [l v mi ma I Ic|l n v e mi ma I Ic|l n v e mi ma I Ic];
    cbn in I; destruct I as [<-|[]]; cbn in Ic; destruct Ic as [Ic|[]]; discriminate.
Qed.
Lemma ex_expr_within t : within ex_expr t -> t = ex_expr.
Proof.
  induction 1 as [|t u _ -> C]; auto. exfalso. inversion C as [l v mi ma I Ic|l n v e mi ma I Ic|l n v e mi ma I Ic];
    cbn in I; destruct I as [<-|[<-|[]]]; cbn in Ic; repeat destruct Ic as [Ic|Ic]; try discriminate; destruct Ic.
Qed.
Lemma ex_g_uses g : uses ex_g g -> g = ex_g \/ g = Grammar ex_space [].
Proof.
  induction 1 as [|root chs t l n g' mi ma _ IH W I Ic|root chs t cond _ IH I|root chs t b a _ IH I|root chs t b a _ IH I]; auto.
  - exfalso. destruct IH as [[= -> ->]|[= -> ->]].
    + apply ex_expr_within in W as ->. cbn in I; destruct I as [<-|[<-|[]]]; cbn in Ic; repeat destruct Ic as [Ic|Ic]; try discriminate; destruct Ic.
    + apply ex_space_within in W as ->. cbn in I; destruct I as [<-|[]]; cbn in Ic; repeat destruct Ic as [Ic|Ic]; try discriminate; destruct Ic.
  - destruct IH as [[= -> ->]|[= -> ->]]; cbn in I; [|destruct I]. destruct I as [[= <- <-]|[]]. auto.
  - exfalso. destruct IH as [[= -> ->]|[= -> ->]]; cbn in I; [|destruct I]. destruct I as [[=]|[]].
  - exfalso. destruct IH as [[= -> ->]|[= -> ->]]; cbn in I; [|destruct I]. destruct I as [[=]|[]].
Qed.
Lemma ex_g_every (P : container -> Prop) : (forall l c, In l (t_lines ex_expr) -> In c l -> P c) -> P (ex_one [x20] x20) ->
  forall root chs, uses ex_g (Grammar root chs) -> every_container P root.
Proof.
  intros A B root chs U t l c W I Ic. apply ex_g_uses in U as [[= -> ->]|[= -> ->]].
  - apply ex_expr_within in W as ->. eauto.
  - apply ex_space_within in W as ->. cbn in I; destruct I as [<-|[]]; cbn in Ic; destruct Ic as [<-|[]]. exact B.
Qed.
Ltac ex_cases := intros ? ? I Ic; cbn in I; destruct I as [<-|[<-|[]]]; cbn in Ic; repeat (destruct Ic as [<-|Ic]; [cbn|]); try destruct Ic.

Lemma ex_g_cards : cards_ok ex_g.
Proof.
  intros root chs. apply ex_g_every; [ex_cases|cbn]; (refine (conj _ _); [refine (conj _ _); [lia|reflexivity]|intros ? [= <-]; lia]).
Qed.
Lemma ex_g_plain : plain_grammar ex_g.
Proof.
  refine (conj _ _).
  - apply (ex_g_every plain_container) with (chs := [Channel ex_space None]); [ex_cases; auto|cbn; auto|constructor].
  - intros t cond [[= <- <-]|[]]. apply (ex_g_every plain_container) with (chs := []); [ex_cases; auto|cbn; auto|].
    eapply uses_channel; [apply uses_refl|left; reflexivity].
Qed.
Lemma ex_g_channels : plain_channels ex_g.
Proof.
  intros root chs t cond U I. apply ex_g_uses in U as [[= -> ->]|[= -> ->]]; [|destruct I]. destruct ex_g_plain as (_ & H). eapply H. exact I.
Qed.
Lemma ex_g_guarded : guarded ex_g.
Proof.
  intros root chs t l U W I l1 l2 n mi ma El. apply ex_g_uses in U as [[= -> ->]|[= -> ->]].
  - apply ex_expr_within in W as ->. cbn in I. destruct I as [<-|[<-|[]]].
    + destruct l1 as [|c1 l1]; [discriminate|]. injection El as <- El. exists (EValue [x28] x28), 1%Z, (Some 1%Z).
      refine (conj (or_introl eq_refl) _). refine (conj _ _); [lia|reflexivity].
    + destruct l1 as [|c1 [|c2 l1]]; discriminate.
  - apply ex_space_within in W as ->. cbn in I. destruct I as [<-|[]]. destruct l1 as [|c1 [|c2 l1]]; discriminate.
Qed.

(** ** C40 *)
Theorem C40_remaining_is_a_suffix : forall fuel g data t,
  execute fuel g data = Ok t -> exists w, data = w ++ tr_remaining t.
Proof.
  intros f [root chs] data t E. apply execute_trace, token_eats in E as (w & -> & _). eauto.
Qed.
Print Assumptions C40_remaining_is_a_suffix.

Example C40_ex : match execute 20 ex_g ex_data with
  | Ok t => tr_remaining t = [x62] /\ has_successful t = true
  | _ => False end.
Proof. vm_compute. auto. Qed.

(** ** C41 *)
(** A successful tree consumed at least one byte for each content of its line, and every tree
    matched inside it, at any depth, has bytes of its own. *)
Theorem C41_matches_consume : forall fuel g data t,
  execute fuel g data = Ok t -> has_successful t = true ->
  length (tr_remaining t) < length data /\
  (forall l, successful (tr_block t) = Some l ->
     list_sum (map (fun e => length (el_contents e)) (l_elements l)) + length (tr_remaining t) <= length data) /\
  forall u, nested t u -> has_successful u = true /\ tree_bytes false u <> [] /\ tree_bytes true u <> [].
Proof.
  intros f [root chs] data t E Hs. apply execute_trace in E. pose proof (token_eats _ _ _ _ _ _ _ E) as (w & -> & L).
  unfold line_count in L. rewrite app_length. refine (conj _ (conj _ _)).
  - unfold has_successful in Hs. destruct (successful (tr_block t)); [lia|discriminate].
  - intros l El. rewrite El in L. unfold n_contents in L. lia.
  - intros u N. pose proof (proj1 fullness _ _ _ _ _ _ _ E Hs u N) as B. destruct B as (l & El & B).
    refine (conj _ _); [unfold has_successful; now rewrite El|]. split; apply has_bytes_bytes; exists l; auto.
Qed.
Print Assumptions C41_matches_consume.

Example C41_ex : match execute 20 ex_g ex_data with
  | Ok t => has_successful t = true /\ length (tr_remaining t) = 1 /\ length ex_data = 8
  | _ => False end.
Proof. vm_compute. auto. Qed.

(** ** C42 *)
(** In a guarded grammar every recursive reference comes after a required element in its line. *)
Theorem C42_guarded_grammars_terminate : forall g data,
  guarded g -> exists n o, o <> Fuel /\ forall fuel, n <= fuel -> execute fuel g data = o.
Proof.
  intros g data G. exists (enough (gram_size g) (length data)), (execute (enough (gram_size g) (length data)) g data).
  assert (N : execute (enough (gram_size g) (length data)) g data <> Fuel) by (apply guarded_terminates; auto).
  split; auto. intros f L. now apply execute_mono.
Qed.
Print Assumptions C42_guarded_grammars_terminate.

Theorem C42_non_recursive_grammars_terminate : forall g data,
  no_recursion g -> exists n o, o <> Fuel /\ forall fuel, n <= fuel -> execute fuel g data = o.
Proof. intros g data N. apply C42_guarded_grammars_terminate. now apply no_recursion_guarded. Qed.
Print Assumptions C42_non_recursive_grammars_terminate.

Example C42_ex : guarded ex_g /\ no_recursion (Grammar ex_space []).
Proof.
  split; [apply ex_g_guarded|]. intros root chs U t l c W I Ic.
  assert (E : Grammar root chs = Grammar ex_space []).
  { assert (U' : uses ex_g (Grammar root chs)).
    { eapply uses_trans; [|exact U]. eapply uses_channel; [apply uses_refl|left; reflexivity]. }
    apply ex_g_uses in U' as [E|E]; auto. exfalso. revert U E. clear. intros U.
    assert (X : forall g, uses (Grammar ex_space []) g -> g = Grammar ex_space []).
    { clear. induction 1 as [|root chs t l n g' mi ma _ IH W I Ic|root chs t cond _ IH I|root chs t b a _ IH I|root chs t b a _ IH I]; auto;
        injection IH as -> ->; try solve [destruct I]. apply ex_space_within in W as ->. cbn in I; destruct I as [<-|[]]; cbn in Ic; destruct Ic as [Ic|[]]. discriminate. }
    apply X in U. rewrite U. discriminate. }
  injection E as -> ->. apply ex_space_within in W as ->. cbn in I; destruct I as [<-|[]]; cbn in Ic; destruct Ic as [<-|[]]. exact Logic.I.
Qed.

(** ** C43 *)
(** [twice]: a token with the lines @itself, @itself, and a byte; any input starting with another byte. *)
Theorem C43_recursion_diverges_refuted : forall n m b su x rest, b <> x ->
  forall fuel, execute fuel (Grammar (twice n m b su) []) (x :: rest) = Fuel.
Proof.
  intros n m b su x rest N f. apply twice_diverges. destruct (Byte.eqb b x) eqn:E; auto. apply byte_eqb_true in E. congruence.
Qed.
Print Assumptions C43_recursion_diverges_refuted.

Example C43_ex : t_lines (twice [x41] [x61] x61 []) =
  [[CElement (ERecursive [x41]) 1 (Some 1%Z)]; [CElement (ERecursive [x41]) 1 (Some 1%Z)]; [ex_one [x61] x61]] /\
  execute 30 (Grammar (twice [x41] [x61] x61 []) []) [x62] = Fuel /\
  match execute 30 (Grammar (twice [x41] [x61] x61 []) []) [x61; x62] with Ok t => tr_remaining t = [x62] | _ => False end.
Proof. vm_compute. auto. Qed.

(** ** C44 *)
Theorem C44_bytes_are_the_input : forall fuel g data t,
  plain_grammar g -> execute fuel g data = Ok t -> has_successful t = true ->
  data = tree_bytes true t ++ tr_remaining t.
Proof.
  intros f [root chs] data t (P & C) E Hs. apply execute_trace in E.
  apply (proj1 fidelity _ _ _ _ _ _ _ E); auto using within_refl.
Qed.
Print Assumptions C44_bytes_are_the_input.

Example C44_ex : plain_grammar ex_g /\
  match execute 20 ex_g ex_data with
  | Ok t => has_successful t = true /\ tree_bytes true t = [x28; x20; x28; x61; x29; x20; x29] /\
            tree_bytes false t = [x28; x28; x61; x29; x29]
  | _ => False end.
Proof. split; [apply ex_g_plain|vm_compute; auto]. Qed.

(** Both exclusions are needed: with an external grammar the bytes after it are lost, with an escape the
    escape byte is. *)
Example C44_external_ex : match execute 20 (Grammar (Token [x72] [[CElement (EExternal [x78] ex_g) 1 (Some 1%Z)]] []) []) ex_data with
  | Ok t => has_successful t = true /\ tree_bytes true t ++ tr_remaining t = [x28; x20; x28; x61; x29; x20; x29]
  | _ => False end.
Proof. vm_compute. auto. Qed.

Example C44_escape_ex : match execute 20 (Grammar (escaped [x72] [x6d] [x6b] [x6a] [x78] [x65] x22 x5c) []) [x61; x5c; x22; x62; x22] with
  | Ok t => has_successful t = true /\ tree_bytes true t ++ tr_remaining t = [x61; x22; x62; x22]
  | _ => False end.
Proof. vm_compute. auto. Qed.

(** ** C45 *)
Theorem C45_cardinalities_hold : forall fuel g data t,
  cards_ok g -> execute fuel g data = Ok t -> has_successful t = true ->
  forall u, nested t u -> shaped u.
Proof.
  intros f [root chs] data t C E Hs u N. apply execute_trace in E. apply cards_ok_split in C as (Ct & Cc).
  destruct (proj1 shapes _ _ _ _ _ _ _ E Ct Cc (within_refl _) Hs) as (A & _). now apply A.
Qed.
Print Assumptions C45_cardinalities_hold.

Example C45_ex : cards_ok ex_g /\
  match execute 20 ex_g ex_data with
  | Ok (Tree _ [TLine 0 _ false [_; TElement _ [TTree (Tree _ [TLine 0 _ false [_; TElement _ [TTree u]; _]] _ _)]; _]] _ _) =>
      has_successful u = true /\ tree_bytes true u = [x61]
  | _ => False end.
Proof. split; [apply ex_g_cards|vm_compute; auto]. Qed.

(** ** C46 *)
Theorem C46_parsing_is_sound : forall fuel g data t,
  plain_channels g -> cards_ok g -> execute fuel g data = Ok t -> has_successful t = true ->
  exists w, data = w ++ tr_remaining t /\ language g w.
Proof.
  intros f [root chs] data t P C E Hs. apply execute_trace in E. apply cards_ok_split in C as (Ct & Cc).
  apply plain_channels_split in P as (Pt & Pc).
  destruct (proj1 soundness _ _ _ _ _ _ _ E eq_refl Pt Pc Ct Cc (within_refl _) Hs) as (v & s & Ed & Lv & Ls).
  exists (v ++ s). rewrite <- app_assoc. split; auto. exists v, s. auto.
Qed.
Print Assumptions C46_parsing_is_sound.

Example C46_ex : plain_channels ex_g /\ cards_ok ex_g /\
  match execute 20 ex_g ex_data with Ok t => has_successful t = true | _ => False end.
Proof. refine (conj ex_g_channels (conj ex_g_cards _)). vm_compute. auto. Qed.

(** ** C47 *)
(** [vline l]: the line of the named bytes [l], each once. *)
Theorem C47_values_match_their_bytes : forall fuel n l su data, 2 <= fuel -> l <> [] ->
  (forall rest, data = map snd l ++ rest ->
     execute fuel (Grammar (Token n [vline l] su) []) data =
       Ok (Tree (Token n [vline l] su) [TLine 0 (vline l) false (velements l)] [] rest)) /\
  ((forall rest, data <> map snd l ++ rest) -> execute fuel (Grammar (Token n [vline l] su) []) data = Err).
Proof.
  intros f n l su data L Ne. destruct (value_execute f n [l] su data L) as (A & C); [constructor; auto|]. split.
  - intros rest E. apply (A 0 l rest eq_refl E). lia.
  - intros H. apply C. intros l' r [<-|[]]. apply H.
Qed.
Print Assumptions C47_values_match_their_bytes.

Example C47_ex : vline [([x6e], x61); ([x6e], x62)] = [ex_one [x6e] x61; ex_one [x6e] x62] /\
  [x61; x62; x63] = map snd [([x6e], x61); ([x6e], x62)] ++ [x63] /\
  forall rest, [x61; x63; x62] <> map snd [([x6e], x61); ([x6e], x62)] ++ rest.
Proof. split; [|split]; try reflexivity. intros rest. discriminate. Qed.

(** ** C48 *)
Theorem C48_the_first_line_that_matches_wins : forall fuel n ls su data, 2 <= fuel -> Forall (fun l => l <> []) ls ->
  (forall k l rest, nth_error ls k = Some l -> data = map snd l ++ rest ->
     (forall j l' r, j < k -> nth_error ls j = Some l' -> data <> map snd l' ++ r) ->
     execute fuel (Grammar (Token n (map vline ls) su) []) data =
       Ok (Tree (Token n (map vline ls) su) [TLine k (vline l) false (velements l)] [] rest)) /\
  ((forall l r, In l ls -> data <> map snd l ++ r) ->
     execute fuel (Grammar (Token n (map vline ls) su) []) data = Err).
Proof. intros f n ls su data L F. now apply value_execute. Qed.
Print Assumptions C48_the_first_line_that_matches_wins.

(** The second line is tried only when the first does not match, even if it would match more. *)
Example C48_ex : match execute 2 (Grammar (Token [x6e] (map vline [[([x61], x61)]; [([x61], x61); ([x62], x62)]; [([x62], x62)]]) []) []) [x61; x62] with
  | Ok t => tr_remaining t = [x62] | _ => False end /\
  match execute 2 (Grammar (Token [x6e] (map vline [[([x61], x61)]; [([x61], x61); ([x62], x62)]; [([x62], x62)]]) []) []) [x62; x61] with
  | Ok (Tree _ [TLine 2 _ _ _] _ r) => r = [x61] | _ => False end.
Proof. vm_compute. auto. Qed.

(** ** C49 *)
Theorem C49_composes_never_match_refuted : forall fuel root chs data t,
  (forall l, In l (t_lines root) -> exists n vs, In (CCompose n vs) l) ->
  execute fuel (Grammar root chs) data <> Ok t.
Proof. intros. now apply compose_execute. Qed.
Print Assumptions C49_composes_never_match_refuted.

Theorem C49_no_matched_line_has_a_compose_refuted : forall fuel g data t,
  cards_ok g -> execute fuel g data = Ok t -> has_successful t = true ->
  forall u l, nested t u -> successful (tr_block u) = Some l -> l_reverse l = false ->
  forall n vs, ~ In (CCompose n vs) (l_grammar l).
Proof.
  intros f g data t C E Hs u l N Es Er n vs I.
  destruct (C45_cardinalities_hold _ _ _ _ C E Hs u N) as (l' & Es' & _ & [(_ & F & _)|(R & _)]); [|congruence].
  rewrite Es in Es'. injection Es' as <-. revert I. clear - F. revert F. generalize (l_elements l), (l_grammar l). intros es0 l0 F.
  induction F as [|c mi ma l1 es M F IH|c mi ma l1 cs es N M X F IH]; intros I; [destruct I| |]; (destruct I as [I|I]; [discriminate|auto]).
Qed.
Print Assumptions C49_no_matched_line_has_a_compose_refuted.

(** The line made of one compose of the bytes "ab", on the input "ab": an error. *)
Example C49_ex : execute 20 (Grammar (Token [x6e] [[CCompose [x63] [(x61, 1%Z); (x62, 1%Z)]]] []) []) [x61; x62] = Err.
Proof. vm_compute. reflexivity. Qed.

(** ** C50 *)
Theorem C50_externals_drop_the_rest_refuted : forall fuel g data t l e n g' mi ma,
  execute fuel g data = Ok t -> successful (tr_block t) = Some l -> In e (l_elements l) ->
  el_grammar e = Some (CElement (EExternal n g') mi ma) -> tr_remaining t = [].
Proof.
  intros f [root chs] data t l e n g' mi ma E Es I Eg. apply execute_trace in E. inversion E; subst.
  - cbn [tr_block tr_remaining] in *. rewrite successful_last in Es by assumption. injection Es as <-.
    match goal with P : p_line _ _ _ _ _ _ _ _ _ |- _ => inversion P; subst end. cbn [l_elements] in I.
    assert (rem = []) as ->. { eapply external_containers; eauto. }
    eapply skip_empty; eauto.
  - cbn [tr_block] in Es. rewrite successful_none in Es by assumption. discriminate.
Qed.
Print Assumptions C50_externals_drop_the_rest_refuted.

(** A token all of whose lines have a required element after a required external never matches. *)
Theorem C50_nothing_matches_after_an_external_refuted : forall fuel root chs data t,
  (forall l, In l (t_lines root) -> exists l1 n g mi ma l2 c mi' ma',
     l = l1 ++ CElement (EExternal n g) mi ma :: l2 /\ In (CElement c mi' ma') l2 /\ (1 <= mi < two63)%Z /\ (1 <= mi' < two63)%Z) ->
  execute fuel (Grammar root chs) data = Ok t -> has_successful t = false.
Proof.
  intros f root chs data t H E. apply execute_trace in E. inversion E; subst.
  - exfalso. match goal with P : p_line _ _ _ _ _ _ _ _ _ |- _ => inversion P; subst end.
    match goal with P : nth_error _ _ = Some _ |- _ => apply nth_error_In in P; apply H in P as (l1 & n & g & mi & ma & l2 & c & mi' & ma' & -> & I & M & M') end.
    eapply external_required; eauto; rewrite i64_small; try lia; rewrite two63_val in *; lia.
  - unfold has_successful. cbn [tr_block]. now rewrite successful_none by assumption.
Qed.
Print Assumptions C50_nothing_matches_after_an_external_refuted.

(** The external matches "(a)" in "(a)b": the 'b' is lost, and a 'b' after the external is never found. *)
Example C50_ex :
  match execute 20 (Grammar (Token [x72] [[CElement (EExternal [x78] ex_g) 1 (Some 1%Z)]] []) []) [x28; x61; x29; x62] with
  | Ok t => has_successful t = true /\ tree_bytes true t = [x28; x61; x29] /\ tr_remaining t = [] | _ => False end /\
  execute 20 (Grammar (Token [x72] [[CElement (EExternal [x78] ex_g) 1 (Some 1%Z); ex_one [x62] x62]] []) []) [x28; x61; x29; x62] = Err.
Proof. vm_compute. auto. Qed.

(** ** C51 *)
Theorem C51_everything_stops_at_the_exception : forall fuel n m k ex others su su' data w rest,
  k <> n -> ex <> [] -> length data + 3 <= fuel ->
  data = w ++ rest -> (rest = [] \/ exists v, rest = map snd ex ++ v) ->
  (forall u v, data = u ++ map snd ex ++ v -> length w <= length u) ->
  let exc := Token k (vline ex :: others) su' in
  let root := Token n [[CElement (EEverything m exc None) 1 (Some 1%Z)]] su in
  (w = [] -> forall chs, execute fuel (Grammar root chs) data = Err) /\
  (w <> [] -> exists t, execute fuel (Grammar root []) data = Ok t /\ has_successful t = true /\
     tree_bytes false t = w /\ tree_bytes true t = w /\ tr_remaining t = rest) /\
  (forall chs t, execute fuel (Grammar root chs) data = Ok t ->
     has_successful t = true /\ tree_bytes false t = w /\ tree_bytes true t = w ++ flat_map (tree_bytes true) (tr_suffix t)).
Proof.
  intros f n m k ex others su su' data w rest Hk Hex L E Hr Hf exc root.
  assert (F : first_place (map snd ex) w rest) by (split; auto; intros u v; rewrite <- E; apply Hf).
  pose proof (fun chs => everything_execute_channels n m k ex others su su' Hk Hex f chs data w rest L E F) as X. unfold everything_line in X. fold exc root in X.
  split; [intros W; subst w; exact X|]. destruct w as [|b w]; [split; [congruence|]; intros chs t Et; rewrite X in Et; discriminate|].
  assert (Lo : line_ok (TLine 0 [CElement (EEverything m exc None) 1 (Some 1%Z)] false
    [TElement (Some (CElement (EEverything m exc None) 1 (Some 1%Z))) [TTree (Tree exc [TLine 0 (vline ex) true [TElement None (plain (b :: w))]] [] rest)]]) = true).
  { unfold line_ok. cbn [l_elements forallb element_ok el_grammar l_reverse l_grammar orb container_ok fetch_element rev app find c_name e_name].
    rewrite bytes_eqb_refl. reflexivity. }
  assert (Pl : forall inc, flat_map (content_bytes inc) (plain (b :: w)) = b :: w).
  { intros inc. generalize (b :: w). induction l as [|x l IH]; cbn [plain map flat_map content_bytes]; auto. fold (plain l). rewrite IH. now destruct inc. }
  assert (Tb : forall inc sf r, tree_bytes inc (Tree root [TLine 0 [CElement (EEverything m exc None) 1 (Some 1%Z)] false
     [TElement (Some (CElement (EEverything m exc None) 1 (Some 1%Z))) [TTree (Tree exc [TLine 0 (vline ex) true [TElement None (plain (b :: w))]] [] rest)]]] sf r) =
     (b :: w) ++ if inc then flat_map (tree_bytes true) sf else []).
  { intros inc sf r. rewrite tree_bytes_eq. cbn [successful find]. rewrite Lo. cbn [line_bytes]. rewrite elements_bytes_cons. cbn [flat_map content_bytes].
    rewrite tree_bytes_eq. cbn [successful find line_ok l_elements forallb element_ok el_grammar andb l_reverse orb].
    cbn [line_bytes]. rewrite elements_bytes_cons, Pl. destruct inc; cbn [flat_map]; now rewrite !app_nil_r. }
  split.
  - intros _. eexists. split; [rewrite X; cbn [channels_try bind fst snd]; reflexivity|].
    split; [unfold has_successful; cbn [tr_block successful find]; now rewrite Lo|].
    rewrite !Tb. cbn [flat_map]. rewrite !app_nil_r. repeat split.
  - intros chs t Et. rewrite X in Et. destruct (channels_try _ _ chs [] rest) as [sf| | |]; try discriminate. cbn [bind] in Et. apply (f_equal (fun o => match o with Ok x => x | _ => t end)) in Et. cbv beta iota in Et. rewrite <- Et.
    split; [unfold has_successful; cbn [tr_block successful find]; now rewrite Lo|].
    rewrite !Tb, app_nil_r. repeat split.
Qed.
Print Assumptions C51_everything_stops_at_the_exception.

(** Everything but "*/" on "a*b*/c". *)
Example C51_ex : [x61; x2a; x62; x2a; x2f; x63] = [x61; x2a; x62] ++ [x2a; x2f; x63] /\
  (exists v, [x2a; x2f; x63] = map snd [([x2a], x2a); ([x2f], x2f)] ++ v) /\
  (forall u v, [x61; x2a; x62; x2a; x2f; x63] = u ++ map snd [([x2a], x2a); ([x2f], x2f)] ++ v -> 3 <= length u).
Proof.
  split; [reflexivity|]. split; [exists [x63]; reflexivity|]. intros u v E.
  destruct u as [|u0 [|u1 [|u2 u]]]; cbn [app map snd] in E; try discriminate. cbn [length]. lia.
Qed.

(** ** C89 *)
(** [peg_of]: what the grammar matches, read as a parsing expression (SpecPeg.v). For [peg_grammar]s the
    parser ends, never panics, and recognises exactly that, with exactly that left over. *)
Theorem C89_parsing_expression : forall g data,
  peg_grammar g ->
  exists n, forall fuel, n <= fuel ->
    match peg_of g data with
    | Some (a, rest) => exists t, execute fuel g data = Ok t /\ has_successful t = true /\ tree_ast t = a /\ tr_remaining t = rest
    | None => execute fuel g data = Err \/ exists t, execute fuel g data = Ok t /\ has_successful t = false
    end.
Proof.
  intros g data P. pose proof (no_recursion_guarded _ (peg_no_recursion _ P)) as G.
  exists (enough (gram_size g) (length data)). intros f L.
  pose proof (execute_peg f g data P (guarded_terminates _ _ G f L)) as A. unfold agrees in A.
  destruct (execute f g data) as [t| | |]; try contradiction.
  - rewrite A. destruct (has_successful t) eqn:Hs; [exists t; auto|right; exists t; auto].
  - rewrite A. now left.
Qed.
Print Assumptions C89_parsing_expression.

(** d{2,3} | e 'x' | '/' '/' everything except a newline | the external e, with e := 'b'+ ;
    spaces are skipped, and so are the comments '#' everything except a newline. *)
Definition ex_e : token := Token [x65] [[CElement (EValue [x62] x62) 1 None]] [].
Definition ex_line : econtent := EEverything [x6c] (Token [x6e] [[ex_one [x0a] x0a]] []) None.
Definition ex_peg : grammar :=
  Grammar (Token [x74] [[CElement (EValue [x64] x64) 2 (Some 3%Z)];
                        [CElement (EToken ex_e) 1 (Some 1%Z); ex_one [x78] x78];
                        [ex_one [x2f] x2f; ex_one [x2f] x2f; CElement ex_line 0 (Some 1%Z)];
                        [CElement (EExternal [x79] (Grammar ex_e [])) 1 (Some 1%Z)]] [])
    [Channel (Token [x73] [[ex_one [x20] x20]] []) None;
     Channel (Token [x63] [[ex_one [x23] x23; CElement ex_line 0 (Some 1%Z)]] []) None].
Example C89_ex : peg_grammar ex_peg /\
  peg_of ex_peg [x20; x64; x20; x23; x61; x20] = None /\                                 (* " d #a " *)
  peg_of ex_peg [x20; x64; x20; x64; x64; x20; x64] =                                    (* " d dd d" *)
    Some (Node [x74] 0 [([x64], [Leaf x64; Leaf x64; Leaf x64])], [x64]) /\
  peg_of ex_peg [x62; x62; x20; x62; x78; x20; x23; x61] =                               (* "bb bx #a" *)
    Some (Node [x74] 1 [([x65], [Node [x65] 0 [([x62], [Leaf x62; Leaf x62; Leaf x62])]]); ([x78], [Leaf x78])], []) /\
  peg_of ex_peg [x20; x2f; x20; x2f; x61; x20; x0a; x20] =                               (* " / /a \n " *)
    Some (Node [x74] 2 [([x2f], [Leaf x2f]); ([x2f], [Leaf x2f]); ([x6c], [Node [x6e] 0 [([], [Leaf x61; Leaf x20])]])], [x0a; x20]) /\
  peg_of ex_peg [x62; x62; x79] =                                                        (* "bby" *)
    Some (Node [x74] 3 [([x79], [Node [x79] 0 [([x62], [Leaf x62; Leaf x62])]])], []).
Proof. refine (conj (check_peg_ok _ _) _); vm_compute; auto 10. Qed.

(** ** C90 *)
(** [greedy]: one line of an unlimited repetition of a byte followed by that byte. *)
Theorem C90_repetitions_never_give_back_refuted : forall fuel n n1 n2 b min data t,
  execute fuel (Grammar (Token n [[CElement (EValue n1 b) min None; CElement (EValue n2 b) 1 (Some 1%Z)]] []) []) data <> Ok t.
Proof. intros. apply greedy_execute. Qed.
Print Assumptions C90_repetitions_never_give_back_refuted.

(** a* a on "aaa": an error, though "aaa" is two times a, and one more. *)
Example C90_ex : execute 20 (Grammar (Token [x6e] [[CElement (EValue [x31] x61) 0 None; ex_one [x32] x61]] []) []) [x61; x61; x61] = Err /\
  language (Grammar (Token [x6e] [[CElement (EValue [x31] x61) 0 None; ex_one [x32] x61]] []) []) [x61; x61; x61].
Proof.
  split; [vm_compute; reflexivity|]. exists [x61; x61; x61], []. split; [reflexivity|]. split; [|constructor].
  econstructor; [left; reflexivity|]. apply (lang_cons _ _ _ 0 None _ 2 [x61; x61] [x61]); [lia|discriminate| |].
  - apply (lang_succ _ _ _ 1 [x61] [x61]); [apply (lang_value _ _ [x31] x61 []); constructor|].
    apply (lang_succ _ _ _ 0 [x61] []); [apply (lang_value _ _ [x31] x61 []); constructor|constructor].
  - apply (lang_cons _ _ _ 1 (Some 1%Z) _ 1 [x61] []); [lia|intros m [= <-]; lia| |constructor].
    apply (lang_succ _ _ _ 0 [x61] []); [apply (lang_value _ _ [x32] x61 []); constructor|constructor].
Qed.

(** ** C91 *)
Theorem C91_one_recursive_match_per_line_refuted : forall fuel g data t,
  cards_ok g -> execute fuel g data = Ok t -> has_successful t = true ->
  forall u l n, nested t u -> successful (tr_block u) = Some l -> recursions n (l_elements l) <= 1.
Proof.
  intros f [root chs] data t C E Hs u l n N Es. apply execute_trace in E. apply cards_ok_split in C as (Ct & Cc).
  destruct (proj1 shapes _ _ _ _ _ _ _ E Ct Cc (within_refl _) Hs) as (A & _). destruct (A u N) as (_ & O). now apply O.
Qed.
Print Assumptions C91_one_recursive_match_per_line_refuted.

(** e := '(' @e{1,2} ')' | 'a': "(a)" is matched, "(aa)" is not. *)
Definition ex_pair : grammar :=
  Grammar (Token [x65] [[ex_one [x28] x28; CElement (ERecursive [x65]) 1 (Some 2%Z); ex_one [x29] x29]; [ex_one [x61] x61]] []) [].
Example C91_ex :
  match execute 20 ex_pair [x28; x61; x29] with
  | Ok (Tree _ [TLine 0 _ _ es] _ _) => recursions [x65] es = 1 | _ => False end /\
  execute 20 ex_pair [x28; x61; x61; x29] = Err.
Proof. vm_compute. auto. Qed.

(** ** C92 *)
(** Two exceptions with the same first line: whatever the other lines are, the same bytes are taken. *)
Theorem C92_only_the_first_line_of_an_exception_counts_refuted : forall fuel n m k ex others others' su su' data,
  k <> n -> ex <> [] -> length data + 3 <= fuel ->
  let g o := Grammar (Token n [[CElement (EEverything m (Token k (vline ex :: o) su') None) 1 (Some 1%Z)]] su) [] in
  (execute fuel (g others) data = Err /\ execute fuel (g others') data = Err) \/
  exists t t', execute fuel (g others) data = Ok t /\ execute fuel (g others') data = Ok t' /\
    has_successful t = true /\ has_successful t' = true /\
    tree_bytes true t = tree_bytes true t' /\ tr_remaining t = tr_remaining t'.
Proof.
  intros f n m k ex others others' su su' data Hk Hex L g.
  assert (Sp : exists w rest, data = w ++ rest /\ (rest = [] \/ exists v, rest = map snd ex ++ v) /\
    forall u v, data = u ++ map snd ex ++ v -> length w <= length u).
  { clear - Hex. assert (Dec : forall a b : bytes, (exists v, b = a ++ v) \/ forall v, b <> a ++ v).
    { induction a as [|x a IH]; intros [|y b]; try (left; eexists; reflexivity); [right; discriminate|].
      destruct (Byte.eqb x y) eqn:E.
      - apply byte_eqb_true in E as <-. destruct (IH b) as [(v & ->)|H]; [left; exists v; reflexivity|right; intros v [= E]; now apply (H v)].
      - right. intros v [= -> _]. now rewrite (proj2 (byte_eqb_true x x) eq_refl) in E. }
    induction data as [|b d (w & rest & -> & Hr & Hf)].
    - exists [], []. split; [reflexivity|]. split; [now left|]. cbn; lia.
    - destruct (Dec (map snd ex) (b :: w ++ rest)) as [(v & E)|H].
      + exists [], (b :: w ++ rest). split; [reflexivity|]. split; [right; eauto|]. cbn; lia.
      + exists (b :: w), rest. split; [reflexivity|]. split; auto. intros [|y u] v E; cbn [app] in E; [now destruct (H v)|].
        injection E as <- E. apply Hf in E. cbn [length]. lia. }
  destruct Sp as (w & rest & Ed & Hr & Hf).
  destruct (C51_everything_stops_at_the_exception f n m k ex others su su' data w rest Hk Hex L Ed Hr Hf) as (A & B & _).
  destruct (C51_everything_stops_at_the_exception f n m k ex others' su su' data w rest Hk Hex L Ed Hr Hf) as (A' & B' & _).
  destruct w as [|b w]; [left; split; [apply A|apply A']; reflexivity|].
  right. destruct B as (t & E1 & E2 & _ & E3 & E4); [discriminate|]. destruct B' as (t' & E1' & E2' & _ & E3' & E4'); [discriminate|].
  exists t, t'. rewrite E3, E3', E4, E4'. repeat (split; auto).
Qed.
Print Assumptions C92_only_the_first_line_of_an_exception_counts_refuted.

(** Everything but 'x' or 'y', on "ayxb": the 'y' is taken. *)
Example C92_ex : match execute 20 (Grammar (Token [x6e] [[CElement (EEverything [x6d] (Token [x6b] [[ex_one [x78] x78]; [ex_one [x79] x79]] []) None) 1 (Some 1%Z)]] []) [])
    [x61; x79; x78; x62] with
  | Ok t => tree_bytes true t = [x61; x79] /\ tr_remaining t = [x78; x62] | _ => False end.
Proof. vm_compute. auto. Qed.

(** ** C93 *)
Theorem C93_no_panic_without_escapes : forall fuel g data, no_escape g -> execute fuel g data <> Panic.
Proof. intros. now apply execute_no_panic. Qed.
Print Assumptions C93_no_panic_without_escapes.

Example C93_ex : no_escape ex_g.
Proof. intros root chs. apply ex_g_every; [ex_cases; auto|cbn; auto]. Qed.

(** ** C94 *)
(** [escaped]: everything up to the byte [x], with the byte [e] as escape. *)
Theorem C94_escape_at_the_end_panics_refuted : forall fuel n m k j xn en x e w,
  k <> n -> j <> n -> j <> k -> x <> e -> ~ In x w -> ~ In e w -> length w + 5 <= fuel ->
  execute fuel (Grammar (escaped n m k j xn en x e) []) (w ++ [e; x]) = Panic.
Proof. intros. now apply escape_panics. Qed.
Print Assumptions C94_escape_at_the_end_panics_refuted.

(** The input ab\x22 (an escaped quote at the end) panics; followed by a quote it does not. *)
Example C94_ex : execute 20 (Grammar (escaped [x72] [x6d] [x6b] [x6a] [x78] [x65] x22 x5c) []) [x61; x62; x5c; x22] = Panic /\
  match execute 20 (Grammar (escaped [x72] [x6d] [x6b] [x6a] [x78] [x65] x22 x5c) []) [x61; x62; x5c; x22; x22] with
  | Ok t => tree_bytes true t = [x61; x62; x22] /\ tr_remaining t = [x22] | _ => False end.
Proof. vm_compute. auto. Qed.

(** ** C95 *)
(** An optional byte that is not there: a tree, no error, no successful line, nothing consumed. *)
Theorem C95_no_error_without_a_match_refuted : forall fuel n m b su x rest,
  b <> x -> 2 <= fuel ->
  exists t, execute fuel (Grammar (Token n [[CElement (EValue m b) 0 (Some 1%Z)]] su) []) (x :: rest) = Ok t /\
    has_successful t = false /\ tree_bytes true t = [] /\ tr_remaining t = x :: rest.
Proof. intros f n m b su x rest N L. eexists. split; [now apply optional_execute|]. auto. Qed.
Print Assumptions C95_no_error_without_a_match_refuted.

(** Two elements of one name: the first needs two bytes [a], the second one byte [b]; the input is the two
    and the one, and there is no successful line. *)
Theorem C95_names_used_twice_refuted : forall fuel n m a b su rest,
  a <> b -> 3 <= fuel ->
  exists t, execute fuel (Grammar (Token n [[CElement (EValue m a) 2 (Some 2%Z); CElement (EValue m b) 1 (Some 1%Z)]] su) []) (a :: a :: b :: rest) = Ok t /\
    has_successful t = false /\ tree_bytes true t = [] /\ tr_remaining t = a :: a :: b :: rest.
Proof.
  intros f n m a b su rest N L. destruct (doubled_execute f n m a b su rest N L) as (es & E & Lo). eexists. split; [exact E|].
  rewrite tree_bytes_eq. unfold has_successful. cbn [tr_block successful find tr_remaining]. rewrite Lo. auto.
Qed.
Print Assumptions C95_names_used_twice_refuted.

Example C95_ex : match execute 20 (Grammar (Token [x6e] [[CElement (EValue [x31] x61) 2 (Some 2%Z); CElement (EValue [x31] x62) 1 (Some 1%Z)]] []) []) [x61; x61; x62] with
  | Ok t => has_successful t = false | _ => False end /\
  match execute 20 (Grammar (Token [x6e] [[CElement (EValue [x31] x61) 2 (Some 2%Z); CElement (EValue [x32] x62) 1 (Some 1%Z)]] []) []) [x61; x61; x62] with
  | Ok t => has_successful t = true | _ => False end.
Proof. vm_compute. auto. Qed.

(** ** C114 *)
(** [seen chs d v]: [v] is what is left of [d] when the channels take what they match before each byte. *)
Theorem C114_channels_between_values : forall root chs d,
  peg_grammar (Grammar root chs) -> every_container value_or_token root ->
  exists v, seen chs d v /\ (forall v', seen chs d v' -> v' = v) /\
  exists n, forall fuel, n <= fuel ->
    (forall a rest, recognises fuel (Grammar root []) v a rest ->
       exists rest', recognises fuel (Grammar root chs) d a rest' /\ seen chs rest' rest) /\
    (forall a rest', recognises fuel (Grammar root chs) d a rest' ->
       exists rest, recognises fuel (Grammar root []) v a rest /\ seen chs rest' rest).
Proof.
  intros root chs d P V. destruct (seen_total chs d) as (v & S). exists v. refine (conj S (conj _ _)).
  { intros v' S'. symmetry. eapply seen_unique; eauto. }
  assert (P0 : peg_grammar (Grammar root [])).
  { intros r cs U. destruct (uses_nil _ chs _ U) as [U'|[= -> ->]]; [exact (P _ _ U')|].
    split; [exact (proj1 (P root chs (uses_refl _)))|]. intros ? ? []. }
  destruct (peg_recognises _ d P) as (n1 & H1). destruct (peg_recognises _ v P0) as (n2 & H2). exists (Nat.max n1 n2). intros f L.
  specialize (H1 f ltac:(lia)). specialize (H2 f ltac:(lia)). pose proof (peg_of_seen root chs d v V S) as Q.
  split; intros a r R.
  - apply H2 in R. rewrite R in Q. destruct Q as (d' & E & S' & _). exists d'. split; auto. now apply H1.
  - apply H1 in R. destruct (peg_of (Grammar root []) v) as [[a' v']|] eqn:E; [|congruence].
    destruct Q as (d' & E' & S' & _). rewrite R in E'. injection E' as -> ->. exists v'. split; auto. now apply H2.
Qed.
Print Assumptions C114_channels_between_values.

(** 'd' e+ with e := 'b' 'c'; spaces and "#b" are skipped; on " db #bc ". *)
Definition ex_spaced : token :=
  Token [x74] [[ex_one [x64] x64; CElement (EToken (Token [x65] [[ex_one [x62] x62; ex_one [x63] x63]] [])) 1 None]] [].
Definition ex_chs : list channel :=
  [Channel (Token [x73] [[ex_one [x20] x20]] []) None; Channel (Token [x63] [[ex_one [x23] x23; ex_one [x62] x62]] []) None].
Example C114_ex : peg_grammar (Grammar ex_spaced ex_chs) /\ every_container value_or_token ex_spaced /\
  seen ex_chs [x20; x64; x62; x20; x23; x62; x63; x20] [x64; x62; x63].
Proof.
  refine (conj (check_peg_ok _ _) (conj _ _)).
  - vm_compute. reflexivity.
  - intros t l c W I Ic. apply AstListProofs.within_tokens in W. cbn in W. destruct W as [<-|[<-|[]]]; cbn in I.
    + destruct I as [<-|[]]. destruct Ic as [<-|[<-|[]]]; exact Logic.I.
    + destruct I as [<-|[]]. destruct Ic as [<-|[<-|[]]]; exact Logic.I.
  - eapply seen_byte; [vm_compute; reflexivity|]. eapply seen_byte; [vm_compute; reflexivity|].
    eapply seen_byte; [vm_compute; reflexivity|]. apply seen_end. vm_compute. reflexivity.
Qed.
Example C114_ex_run :
  match execute 40 (Grammar ex_spaced ex_chs) [x20; x64; x62; x20; x23; x62; x63; x20] with
  | Ok t => Some (has_successful t, tr_remaining t) | _ => None end = Some (true, []).
Proof. vm_compute. reflexivity. Qed.
