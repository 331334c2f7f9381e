(** Property theorems for the queries (C70 - C72, C108 - C113). *)
From Coq Require Import List ZArith Lia Bool.
From Coq Require Import Init.Byte Strings.Byte.
From Verif Require Import Base BaseLemmas AstModel SpecAst AstListProofs PropAst QueryModel SpecQuery QueryProofs QueryMeanProofs QueryRunProofs.
Import ListNotations.

(** ** A grammar and a tree for the examples *)
(** n := m;  m := '(' @n ')' | 'a' *)
Definition ex_m : token :=
  Token [x6d] [[ex_one [x28] x28; CElement (ERecursive [x6e]) 1 (Some 1%Z); ex_one [x29] x29]; [ex_one [x61] x61]] [].
Definition ex_n : token := Token [x6e] [[CElement (EToken ex_m) 1 (Some 1%Z)]] [].
(** "((a))b" *)
Definition ex_in : bytes := [x28; x28; x61; x29; x29; x62].
Definition ex_tree : tree := match execute 30 (Grammar ex_n []) ex_in with Ok t => t | _ => Tree ex_n [] [] [] end.

Example ex_tree_parsed : execute 30 (Grammar ex_n []) ex_in = Ok ex_tree /\ has_successful ex_tree = true /\ tr_remaining ex_tree = [x62].
Proof. vm_compute. auto. Qed.

(** Values are numbers; the world counts the calls of functions. *)
Definition ex_k (n e : bytes) : qtoken := QToken n [x72] e 0 None.
Definition ex_sum : qfn nat nat := QMulti (fun l w => (Ok (S (list_sum l), true), S w)).
Definition ex_count : inside nat nat := IMulti (fun cs w => match cs with [] => (Ok [], S w) | _ => (Ok [length cs], S w) end).
(** The number of parentheses, plus one, plus the values: [n] gets [m], and from it both [@n] and 'a'. *)
Definition ex_deep : query nat nat := Query (ex_k [x6d] [x6e]) (IFetchers [FRecursive [x6e]]) ex_sum.
Definition ex_leaf : query nat nat := Query (ex_k [x6d] [x61]) ex_count ex_sum.
Definition ex_q : query nat nat := Query (ex_k [x6e] [x6d]) (IFetchers [FQuery ex_deep; FQuery ex_leaf]) ex_sum.

Lemma ex_q_sub q : subquery ex_q q -> q = ex_q \/ q = ex_deep \/ q = ex_leaf.
Proof.
  induction 1 as [|q fs q' _ [-> |[-> | ->]] E I]; auto; cbn in E; try discriminate; injection E as <-; cbn in I.
  - destruct I as [[= <-]|[[= <-]|[]]]; auto.
  - destruct I as [I|[]]; discriminate.
Qed.

(** ** C70 *)
Theorem C70_panics_refuted : forall (V W : Type) (vnil : V) fuel (q : query V W) t w, calm_query q ->
  (fst (query_execute vnil fuel q t w) = Panic -> exists q' t', subquery q q' /\ below t t' /\ blames q' t') /\
  (blames q t -> 1 <= fuel -> fst (query_execute vnil fuel q t w) = Panic).
Proof.
  intros V W vnil n q t w C. refine (conj _ _).
  - intros E. eapply execute_panic; eauto.
  - intros B L. now rewrite blames_panic.
Qed.
Print Assumptions C70_panics_refuted.

(** Index 0, or another name than the reverse name, and only functions of all contents: no panic. *)
Theorem C70_no_panic : forall (V W : Type) (vnil : V) fuel (q : query V W) t w, calm_query q ->
  (forall q', subquery q q' -> (forall f, q_inside q' <> ISingle f) /\
     (k_index (q_token q') = 0 \/ k_element (q_token q') <> k_reverse (q_token q'))) ->
  fst (query_execute vnil fuel q t w) <> Panic.
Proof.
  intros V W vnil n q t w C H E. destruct (execute_panic _ _ _ _ _ C E) as (q' & t' & Q & _ & B).
  destruct (H q' Q) as (A & D). destruct B as [S|((f & F) & _)]; [|exact (A f F)].
  inversion S as [| |l l1 e l2 o N F Ae L Cp R| |l l1 e l2 N F Ae L Cp]; subst.
  - inversion R.
  - destruct D as [D|D]; [lia|]. apply D. apply split_in in Ae. unfold answering in Ae. apply filter_In in Ae as (_ & X).
    unfold answers in X. rewrite Cp in X. now apply bytes_eqb_true.
Qed.
Print Assumptions C70_no_panic.

(** everything but 'b', in one tree of bytes without container. *)
Definition ex_rev_g : grammar :=
  Grammar (Token [x6e] [[CElement (EEverything [x65] (Token [x62] [[ex_one [x31] x62]] []) None) 1 (Some 1%Z)]] []) [].
Definition ex_rev (i : nat) : query nat nat :=
  Query (QToken [x6e] [x72] [x65] 0 None) (IFetchers [FQuery (Query (QToken [x62] [x72] [x72] i None) ex_count ex_sum)]) ex_sum.
Example C70_ex_reverse : match execute 20 ex_rev_g [x61; x63; x62] with
  | Ok t => query_execute 0 9 (ex_rev 0) t 0 = (Ok ((4, true), [x62]), 3) /\ query_execute 0 9 (ex_rev 1) t 0 = (Panic, 0)
  | _ => False
  end.
Proof. vm_compute. auto. Qed.
Definition ex_first : query nat nat := Query (ex_k [x6e] [x7a]) (ISingle (fun c w => (Ok [1], S w))) ex_sum.
Example C70_ex_single : query_execute 0 9 ex_first ex_tree 0 = (Panic, 0).
Proof. vm_compute. auto. Qed.
Example C70_ex_calm : calm_query ex_q /\ forall q', subquery ex_q q' -> (forall f, q_inside q' <> ISingle f) /\
  (k_index (q_token q') = 0 \/ k_element (q_token q') <> k_reverse (q_token q')).
Proof.
  refine (conj _ _); intros q' Q; apply ex_q_sub in Q as [-> |[-> | ->]]; cbn; refine (conj _ _); try discriminate; auto;
    try (intros a w; cbn; split; discriminate).
  intros [|c cs] w; cbn; split; discriminate.
Qed.

(** ** C71 *)
Theorem C71_functions_get_the_selected_contents : forall (V W : Type) (vnil : V) fuel k (f : ufn W (list tcontent) (list V)) (fn : qfn V W) t w, 1 <= fuel ->
  exists o, selection k t o /\
  (forall o', selection k t o' -> o' = o) /\
  query_execute vnil fuel (Query k (IMulti f) fn) t w =
    match o with
    | Ok cs =>
      match f cs w with
      | (Ok [], w1) => (Ok (vnil, false, tr_remaining t), w1)
      | (Ok (v :: vs), w1) => let '(o2, w2) := match fn with QSingle g => g v w1 | QMulti g => g (v :: vs) w1 end in
                              (reported o2 (tr_remaining t), w2)
      | (Err, w1) => (Err, w1)
      | (Panic, w1) => (Panic, w1)
      | (Fuel, w1) => (Fuel, w1)
      end
    | Err => (Err, w)
    | Panic => (Panic, w)
    | Fuel => (Fuel, w)
    end.
Proof.
  intros V W vnil n k f fn t w L. exists (query_contents k t). pose proof (contents_spec k t) as S.
  refine (conj S (conj (fun o' S' => selection_fun _ _ _ _ S' S) _)). destruct n as [|n]; [lia|].
  unfold query_execute. rewrite fetch_eq. cbn [q_token]. destruct (query_contents k t) as [cs| | |]; auto.
  unfold query_instance, lift. cbn [q_inside inside_instances]. unfold lift. cbn [fst snd].
  destruct (f cs w) as [[[|v vs]| | |] w1]; cbn [qbind fst snd]; auto.
  cbn [q_fn]. destruct fn as [g|g].
  - destruct (g v w1) as [[x| | |] w2]; reflexivity.
  - destruct (g (v :: vs) w1) as [[x| | |] w2]; reflexivity.
Qed.
Print Assumptions C71_functions_get_the_selected_contents.

(** A function of a single content gets the first of them, and the rest is not looked at. *)
Theorem C71_a_function_of_one_content_gets_the_first : forall (V W : Type) (vnil : V) fuel k (f : ufn W tcontent (list V)) (fn : qfn V W) t w, 1 <= fuel ->
  exists o, selection k t o /\
  query_execute vnil fuel (Query k (ISingle f) fn) t w =
    match o with
    | Ok [] => (Panic, w)
    | Ok (c :: _) =>
      match f c w with
      | (Ok [], w1) => (Ok (vnil, false, tr_remaining t), w1)
      | (Ok (v :: vs), w1) => let '(o2, w2) := match fn with QSingle g => g v w1 | QMulti g => g (v :: vs) w1 end in
                              (reported o2 (tr_remaining t), w2)
      | (Err, w1) => (Err, w1)
      | (Panic, w1) => (Panic, w1)
      | (Fuel, w1) => (Fuel, w1)
      end
    | Err => (Err, w)
    | Panic => (Panic, w)
    | Fuel => (Fuel, w)
    end.
Proof.
  intros V W vnil n k f fn t w L. exists (query_contents k t). pose proof (contents_spec k t) as S.
  refine (conj S _). destruct n as [|n]; [lia|].
  unfold query_execute. rewrite fetch_eq. cbn [q_token]. destruct (query_contents k t) as [[|c cs]| | |]; auto.
  unfold query_instance, lift. cbn [q_inside inside_instances]. unfold lift. cbn [fst snd].
  destruct (f c w) as [[[|v vs]| | |] w1]; cbn [qbind fst snd]; auto.
  cbn [q_fn]. destruct fn as [g|g].
  - destruct (g v w1) as [[x| | |] w2]; reflexivity.
  - destruct (g (v :: vs) w1) as [[x| | |] w2]; reflexivity.
Qed.
Print Assumptions C71_a_function_of_one_content_gets_the_first.

(** The second of two elements with a name, its second content. *)
Definition ex_line : tline := TLine 0 [] false
  [TElement (Some (ex_one [x61] x61)) [TValue x61 []]; TElement (Some (ex_one [x62] x62)) [TValue x62 []];
   TElement (Some (CElement (EValue [x61] x61) 1 None)) [TValue x61 []; TValue x63 []]].
Definition ex_two : tree := Tree (Token [x6e] [] []) [ex_line] [] [].
Example C71_ex : selection (QToken [x6e] [x72] [x61] 1 (Some 1)) ex_two (Ok [TValue x63 []]).
Proof.
  eapply (sel_found _ _ ex_line [TElement (Some (ex_one [x61] x61)) [TValue x61 []]]); try reflexivity.
  - intros e [<- |[]]. discriminate.
  - eapply (refined_one _ _ 1 [TValue x61 []]); reflexivity.
Qed.

(** ** C72 *)
Theorem C72_the_remaining_is_the_tree_s : forall (V W : Type) (vnil : V) fuel (q : query V W) t w v ok rem w',
  query_execute vnil fuel q t w = (Ok (v, ok, rem), w') -> rem = tr_remaining t.
Proof.
  intros V W vnil n q t w v ok rem w' E. unfold query_execute in E. destruct (query_fetch vnil n q t ([], w)) as [[x| | |] s]; try discriminate.
  now injection E.
Qed.
Print Assumptions C72_the_remaining_is_the_tree_s.

(** After a parse: what the tree spells, then the remaining bytes of the query, are the input. *)
Theorem C72_the_remaining_is_the_rest_of_the_input : forall (V W : Type) (vnil : V) n fuel (q : query V W) g data t w v ok rem w',
  execute n g data = Ok t -> query_execute vnil fuel q t w = (Ok (v, ok, rem), w') ->
  (exists u, data = u ++ rem) /\ (plain_grammar g -> data = tree_bytes true t ++ rem).
Proof.
  intros V W vnil n fuel q g data t w v ok rem w' E X. pose proof (C72_the_remaining_is_the_tree_s _ _ _ _ _ _ _ _ _ _ _ X) as ->.
  refine (conj (C40_remaining_is_a_suffix _ _ _ _ E) _). intros P. apply (C44_bytes_are_the_input _ _ _ _ P E).
  destruct fuel as [|f]; [discriminate|]. unfold query_execute in X. rewrite fetch_eq in X.
  pose proof (contents_spec (q_token q) t) as S. unfold has_successful.
  destruct (successful (tr_block t)) as [l|] eqn:Es; auto. exfalso.
  inversion S; try congruence; match goal with A : _ = query_contents _ _ |- _ => rewrite <- A in X; discriminate end.
Qed.
Print Assumptions C72_the_remaining_is_the_rest_of_the_input.

Example C72_ex : query_execute 0 9 ex_q ex_tree 0 = (Ok (7, true, [x62]), 9).
Proof. vm_compute. auto. Qed.

(** ** C108 *)
Theorem C108_queries_terminate : forall (V W : Type) (vnil : V) (q : query V W) t, real_query q ->
  exists n, forall w, exists o w', o <> Fuel /\ forall fuel, n <= fuel -> query_execute vnil fuel q t w = (o, w').
Proof.
  intros V W vnil q t R. exists (height t). intros w. exists (fst (query_execute vnil (height t) q t w)), (snd (query_execute vnil (height t) q t w)).
  refine (conj _ _); [now apply execute_real|]. intros f L. rewrite (execute_fuel vnil f (height t)); auto. now destruct (query_execute vnil (height t) q t w).
Qed.
Print Assumptions C108_queries_terminate.

Example C108_ex : real_query ex_q.
Proof.
  intros q' Q. destruct C70_ex_calm as (C & _). destruct (C q' Q) as (A & B). split.
  - destruct (q_inside q'); auto; intros a w; apply A.
  - destruct (q_fn q'); intros a w; apply B.
Qed.

(** ** C109 *)
Theorem C109_queries_do_what_they_mean : forall (V W : Type) (vnil : V) (q : query V W) t,
  exists n, forall fuel w o w', n <= fuel -> o <> Fuel ->
  (query_execute vnil fuel q t w = (reported o (tr_remaining t), w') <-> exists log, runs vnil [] q t w o log w').
Proof. intros V W vnil q t. exists (height t). intros fuel w o w' L F. now apply execute_runs. Qed.
Print Assumptions C109_queries_do_what_they_mean.

(** ** C110 *)
Theorem C110_recursion_means_the_enclosing_query : forall (V W : Type) (vnil : V) (q : query V W) t,
  one_per_name q -> enclosed [] q ->
  exists n, forall fuel w o w', n <= fuel -> o <> Fuel ->
  (query_execute vnil fuel q t w = (reported o (tr_remaining t), w') <-> means vnil q q t w o w').
Proof. intros V W vnil q t O E. exists (height t). intros fuel w o w' L F. now apply execute_means. Qed.
Print Assumptions C110_recursion_means_the_enclosing_query.

Example C110_ex : one_per_name ex_q /\ enclosed [] ex_q.
Proof.
  assert (R : forall n, referred ex_q n -> n = [x6e]).
  { intros n (q & fs & Q & Ei & I). apply ex_q_sub in Q as [-> |[-> | ->]]; cbn in Ei; try discriminate; injection Ei as <-.
    - destruct I as [I|[I|[]]]; discriminate.
    - destruct I as [[= <-]|[]]. auto. }
  refine (conj _ _).
  - intros q q' Q Q' N Rf. apply R in Rf. rewrite Rf in N. symmetry in N.
    apply ex_q_sub in Q as [-> |[-> | ->]]; apply ex_q_sub in Q' as [-> |[-> | ->]]; auto; discriminate.
  - assert (L : forall ns, enclosed ns ex_leaf) by (intros ns; constructor; intros fs x E; discriminate).
    assert (D : enclosed [[x6e]] ex_deep).
    { constructor; intros fs x E; cbn in E; injection E as <-; intros [I|[]]; try discriminate. injection I as <-. cbn. auto. }
    constructor; intros fs x E; cbn in E; injection E as <-; intros [I|[I|[]]]; try discriminate; injection I as <-; auto.
Qed.

(** ** C111 *)
(** A tree with the contents [cs] in its only element. *)
Definition with_contents (g : token) (c : container) (cs : list tcontent) : tree :=
  Tree g [TLine 0 [] false [TElement (Some c) cs]] [] [].

(** A query whose function lists all it is given gives more, the same, or less on a second, equal content. *)
Theorem C111_recursion_depends_on_the_queries_before_refuted :
  exists (q : query (list nat) unit) g c x vs vs',
    calm_query q /\ enclosed [] q /\ q_fn q = QMulti (fun l w => (Ok (concat l, true), w)) /\ vs <> [] /\
    (forall fuel, 5 <= fuel -> query_execute [] fuel q (with_contents g c [x]) tt = (Ok (vs, true, []), tt)) /\
    (forall fuel, 5 <= fuel -> query_execute [] fuel q (with_contents g c [x; x]) tt = (Ok (vs', true, []), tt)) /\
    vs' <> vs ++ vs.
Proof.
  pose (all := @QMulti (list nat) unit (fun l w => (Ok (concat l, true), w))).
  pose (g := Token [x6e] [] []).
  pose (c := CElement (EToken g) 1 None).
  pose (bottom := with_contents g (ex_one [x61] x61) [TValue x61 []]).
  pose (read := Query (ex_k [x6e] [x61]) (IMulti (fun cs (w : unit) => (Ok (map (fun _ => [1]) cs), w))) all).
  pose (q := Query (ex_k [x6e] [x6e]) (IFetchers [FRecursive [x6e]; FQuery read]) all).
  exists q, g, c, (TTree (with_contents g c [TTree bottom])), [1], [1].
  assert (F : forall fuel t, 5 <= fuel -> height t <= 5 -> query_execute [] fuel q t tt = query_execute [] 5 q t tt).
  { intros fuel t L H. apply execute_fuel; lia. }
  refine (conj _ (conj _ (conj eq_refl (conj _ (conj _ (conj _ _)))))).
  - intros q' Q. assert (q' = q \/ q' = read) as [-> | ->].
    + induction Q as [|q1 fs q2 _ [-> | ->] E I]; auto; cbn in E; try discriminate; injection E as <-; cbn in I.
      destruct I as [I|[[= <-]|[]]]; [discriminate|auto].
    + refine (conj I _). intros l w. cbn. refine (conj _ _); discriminate.
    + refine (conj _ _); intros l w; cbn; (refine (conj _ _); discriminate).
  - constructor; intros fs y E; cbn in E; injection E as <-; intros [I|[I|[]]]; try discriminate; injection I as <-.
    + cbn. auto.
    + constructor; intros fs y E; discriminate.
  - discriminate.
  - intros fuel L. rewrite F; [vm_compute; reflexivity|exact L|vm_compute; lia].
  - intros fuel L. rewrite F; [vm_compute; reflexivity|exact L|vm_compute; lia].
  - discriminate.
Qed.
Print Assumptions C111_recursion_depends_on_the_queries_before_refuted.

(** ** C112 *)
Theorem C112_all_fetchers_have_the_name_of_the_trees : forall (V W : Type) (vnil : V) k fs (fn : qfn V W) fuel t w x w' cs,
  real_query (Query k (IFetchers fs) fn) ->
  query_execute vnil fuel (Query k (IFetchers fs) fn) t w = (Ok x, w') -> selection k t (Ok cs) ->
  forall u f, In (TTree u) cs -> In f fs ->
  match f with FQuery q => t_name (tr_grammar u) = name q | FRecursive m => t_name (tr_grammar u) = m end.
Proof. intros. eapply execute_names; eauto. Qed.
Print Assumptions C112_all_fetchers_have_the_name_of_the_trees.

(** So fetchers with two names, or contents with two names, give no result. *)
Theorem C112_two_names_never_give_a_result_refuted : forall (V W : Type) (vnil : V) k fs (fn : qfn V W) fuel t w x w' cs u u' q q',
  real_query (Query k (IFetchers fs) fn) -> selection k t (Ok cs) ->
  In (TTree u) cs -> In (TTree u') cs -> In (FQuery q) fs -> In (FQuery q') fs ->
  (name q <> name q' \/ t_name (tr_grammar u) <> t_name (tr_grammar u')) ->
  query_execute vnil fuel (Query k (IFetchers fs) fn) t w <> (Ok x, w').
Proof.
  intros V W vnil k fs fn n t w x w' cs u u' q q' R S Iu Iu' Iq Iq' D E.
  pose proof (execute_names _ _ _ _ _ _ _ _ _ _ R E S u (FQuery q) Iu Iq) as A.
  pose proof (execute_names _ _ _ _ _ _ _ _ _ _ R E S u (FQuery q') Iu Iq') as B.
  pose proof (execute_names _ _ _ _ _ _ _ _ _ _ R E S u' (FQuery q) Iu' Iq) as C.
  cbn in A, B, C. destruct D; congruence.
Qed.
Print Assumptions C112_two_names_never_give_a_result_refuted.

(** [ex_q] meets the first theorem (C72_ex, C108_ex); with a third fetcher for another token, an error. *)
Definition ex_more : query nat nat :=
  Query (ex_k [x6e] [x6d]) (IFetchers [FQuery ex_deep; FQuery ex_leaf; FQuery (Query (ex_k [x7a] [x61]) ex_count ex_sum)]) ex_sum.
Example C112_ex : query_execute 0 9 ex_more ex_tree 0 = (Err, 2).
Proof. vm_compute. auto. Qed.

(** ** C113 *)
Theorem C113_matches_tells_nothing_refuted : forall (V W : Type) (vnil : V) (q : query V W) root chs,
  query_matches (Grammar root chs) q = Ok true /\
  (name q <> t_name root -> forall n fuel data t w, 1 <= fuel -> execute n (Grammar root chs) data = Ok t ->
     query_execute vnil fuel q t w = (Err, w)).
Proof.
  intros V W vnil q root chs. refine (conj eq_refl _). intros N n fuel data t w L E.
  assert (G : tr_grammar t = root).
  { destruct n as [|n]; [discriminate|]. cbn [execute token_run] in E. unfold token_step in E.
    destruct (block_run _ _ _ _ _ _ _ _ _ _ _ _) as [s1 [[[|l b] rem]| | |]]; cbn [snd] in E; try discriminate.
    destruct (channels_try _ _ _ _ _) as [sf| | |]; cbn [bind] in E; try discriminate. now injection E as <-. }
  destruct fuel as [|f]; [lia|]. unfold query_execute. rewrite fetch_eq.
  assert (S : selection (q_token q) t Err) by (apply sel_name; unfold name in N; congruence).
  rewrite (proj1 (contents_iff _ _ _) S). reflexivity.
Qed.
Print Assumptions C113_matches_tells_nothing_refuted.

Example C113_ex : name ex_leaf <> t_name ex_n /\ query_execute 0 9 ex_leaf ex_tree 0 = (Err, 0).
Proof. refine (conj _ _); [discriminate|vm_compute; auto]. Qed.
