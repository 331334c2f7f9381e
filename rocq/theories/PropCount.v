(** Property theorems for the parser: how often it calls itself (C171, C172). *)
From Coq Require Import List Arith ZArith Lia Bool.
From Coq Require Import Init.Byte Strings.Byte.
From Verif Require Import Base AstModel SpecAst SpecCount AstCountProofs AstCostProofs.
Import ListNotations.

(** *** C171 *)
(** Counting the calls does not change what is parsed. *)
Theorem C171_counting_changes_nothing : forall k fuel g data,
  counts_all k g -> snd (counted_execute k fuel g data) = execute fuel g data.
Proof. exact counted_same. Qed.
Print Assumptions C171_counting_changes_nothing.

(** The grammar with the lines [( A x], [( A y] and [z] reads [m] brackets, a z and [m] times y, with 2^(m+1) - 1 calls:
    no polynomial in the length of the input bounds the number of calls. *)
Theorem C171_parsing_takes_polynomial_time_refuted : forall k, k <> [x41] ->
  let g := Grammar twice [] in
  counts_all k g /\ guarded g /\
  (forall m, length (deep m []) = 2 * m + 1 /\
     forall fuel, m + 2 <= fuel -> exists t, execute fuel g (deep m []) = Ok t /\ has_successful t = true /\ tr_remaining t = [] /\
       calls k fuel g (deep m []) + 1 = 2 ^ (m + 1)) /\
  forall c d, exists data n, forall fuel, n <= fuel -> c * S (length data) ^ d < calls k fuel g data.
Proof.
  intros k N g. pose proof (twice_counts_all k N) as C.
  assert (X : forall m, length (deep m []) = 2 * m + 1 /\
     forall fuel, m + 2 <= fuel -> exists t, execute fuel g (deep m []) = Ok t /\ has_successful t = true /\ tr_remaining t = [] /\
       calls k fuel g (deep m []) + 1 = 2 ^ (m + 1)).
  { intros m. split; [rewrite deep_length; cbn [length]; lia|]. intros fuel L. destruct fuel as [|[|f]]; [lia|lia|].
    destruct (twice_run k (not_eq_sym N) m f [] [] [] ltac:(lia) I) as (s' & t & E & Hs & R & Ct & _).
    exists t. rewrite <- (counted_same k (S (S f)) g (deep m []) C). unfold calls, counted_execute. subst g. cbv iota. rewrite E. cbn [fst snd].
    change (count k []) with 0 in Ct. rewrite (Nat.add_1_r m). repeat split; auto. lia. }
  refine (conj C (conj _ (conj X _))).
  - apply twice_guarded.
  - intros c d. destruct (exponential_wins c d) as (m & Hm). exists (deep m []), (m + 2). intros fuel L.
    destruct (X m) as [Ll Xm]. destruct (Xm fuel L) as (t & _ & _ & _ & Ct). rewrite Ll. replace (S (2 * m + 1)) with (2 * m + 2) by lia. lia.
Qed.
Print Assumptions C171_parsing_takes_polynomial_time_refuted.

Example C171_ex : counted_execute [] 12 (Grammar twice []) (deep 5 []) = (63, execute 12 (Grammar twice []) (deep 5 [])) /\
  length (deep 5 []) = 11.
Proof. vm_compute. auto. Qed.

(** *** C172 *)
Theorem C172_non_recursive_grammars_take_polynomial_time : forall k g,
  counts_all k g -> no_recursion g ->
  exists c d, forall fuel data, calls k fuel g data <= c * S (length data) ^ d.
Proof. exact calls_polynomial. Qed.
Print Assumptions C172_non_recursive_grammars_take_polynomial_time.

Definition ex_word : token := Token [x77] [[CElement (EValue [x61] x61) 1 None; CElement (EValue [x62] x62) 0 (Some 1%Z)]; [CElement (EValue [x63] x63) 1 None]] [].
Definition ex_quote : token := Token [x71] [[CElement (EValue [x22] x22) 1 (Some 1%Z)]] [].
Definition ex_list : token := Token [x6c] [[CElement (EToken ex_word) 1 None; CElement (EValue [x22] x22) 1 (Some 1%Z);
  CElement (EEverything [x65] ex_quote (Some ex_word)) 0 (Some 1%Z); CElement (EValue [x22] x22) 1 (Some 1%Z)]; [CElement (EToken ex_word) 0 None]] [].
Lemma ex_list_within t : within ex_list t -> In t [ex_list; ex_word; ex_quote].
Proof.
  induction 1 as [|t u W IH C]; [now left|].
  destruct IH as [<-|[<-|[<-|[]]]]; destruct C as [l u mi ma I Ic|l n u e mi ma I Ic|l n u e mi ma I Ic]; cbn in I;
    repeat (destruct I as [<-|I]; [cbn in Ic; repeat (destruct Ic as [Ic|Ic]; [try discriminate Ic; injection Ic; intros; subst; cbn; auto|]); try destruct Ic|]);
    destruct I.
Qed.
Lemma ex_list_uses g : uses (Grammar ex_list []) g -> g = Grammar ex_list [].
Proof.
  induction 1 as [|root chs t l n g' mi ma U IH W I Ic|root chs t cond U IH I|root chs t b a U IH I|root chs t b a U IH I]; auto;
    injection IH as -> ->; try solve [destruct I]. apply ex_list_within in W. destruct W as [<-|[<-|[<-|[]]]]; cbn in I;
    repeat (destruct I as [<-|I]; [cbn in Ic; repeat (destruct Ic as [Ic|Ic]; [discriminate|]); destruct Ic|]); destruct I.
Qed.
(** The grammar has an everything with an escape. *)
Example C172_ex : counts_all [] (Grammar ex_list []) /\ no_recursion (Grammar ex_list []) /\
  match counted_execute [] 20 (Grammar ex_list []) [x61; x61; x62; x63; x63; x22; x7a; x7a; x63; x22; x7a; x22] with
  | (n, Ok t) => n = 9 /\ has_successful t = true /\ tr_remaining t = []
  | _ => False
  end.
Proof.
  split; [|split].
  - split; [reflexivity|]. split.
    + intros t W. apply ex_list_within in W. destruct W as [<-|[<-|[<-|[]]]]; discriminate.
    + intros t l c W I Ic. apply ex_list_within in W. destruct W as [<-|[<-|[<-|[]]]]; cbn in I;
        repeat (destruct I as [<-|I]; [cbn in Ic; repeat (destruct Ic as [<-|Ic]; [exact Logic.I|]); destruct Ic|]); destruct I.
  - intros root chs U. apply ex_list_uses in U. injection U as -> ->. intros t l c W I Ic. apply ex_list_within in W.
    destruct W as [<-|[<-|[<-|[]]]]; cbn in I;
        repeat (destruct I as [<-|I]; [cbn in Ic; repeat (destruct Ic as [<-|Ic]; [exact Logic.I|]); destruct Ic|]); destruct I.
  - vm_compute. auto.
Qed.
