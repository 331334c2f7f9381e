(** Specification of queries, independent of their functions. *)
From Coq Require Import List Arith.
From Verif Require Import Base AstModel SpecAst QueryModel.
Import ListNotations.

(** ** Selection *)
(** An element answers a query token when its container has the name of the query's element, or when
    it has no container and the query's element has the reverse name. *)
Definition answers (k : qtoken) (e : telement) : bool :=
  match el_grammar e with
  | Some c => bytes_eqb (c_name c) (k_element k)
  | None => bytes_eqb (k_element k) (k_reverse k)
  end.

Definition answering (k : qtoken) (l : tline) : list telement := filter (answers k) (l_elements l).

(** The contents of an element, or the only one the query token asks for. *)
Inductive refined (k : qtoken) (cs : list tcontent) : outcome (list tcontent) -> Prop :=
| refined_all : k_content k = None -> refined k cs (Ok cs)
| refined_one i l1 c l2 : k_content k = Some i -> cs = l1 ++ c :: l2 -> length l1 = i -> refined k cs (Ok [c])
| refined_short i : k_content k = Some i -> length cs <= i -> refined k cs Err.

(** What a query token selects in a tree: the contents of the answering element with the index of the
    query, nothing if there are not that many.  It is a panic when one before it has no container. *)
Inductive selection (k : qtoken) (t : tree) : outcome (list tcontent) -> Prop :=
| sel_name : t_name (tr_grammar t) <> k_name k -> selection k t Err
| sel_failed : t_name (tr_grammar t) = k_name k -> successful (tr_block t) = None -> selection k t Err
| sel_found l l1 e l2 o :
    t_name (tr_grammar t) = k_name k -> successful (tr_block t) = Some l ->
    answering k l = l1 ++ e :: l2 -> length l1 = k_index k ->
    (forall e', In e' l1 -> el_grammar e' <> None) ->
    refined k (el_contents e) o -> selection k t o
| sel_nothing l :
    t_name (tr_grammar t) = k_name k -> successful (tr_block t) = Some l ->
    length (answering k l) <= k_index k ->
    (forall e', In e' (answering k l) -> el_grammar e' <> None) -> selection k t (Ok [])
| sel_panic l l1 e l2 :
    t_name (tr_grammar t) = k_name k -> successful (tr_block t) = Some l ->
    answering k l = l1 ++ e :: l2 -> length l1 < k_index k ->
    el_grammar e = None -> selection k t Panic.

(** ** Queries *)
Section Spec.
Context {V W : Type}.
Variable vnil : V.

Definition name (q : query V W) : bytes := k_name (q_token q).

(** [subquery r q]: the query [q] is [r], or is used in it. *)
Inductive subquery (r : query V W) : query V W -> Prop :=
| sub_refl : subquery r r
| sub_step q fs q' : subquery r q -> q_inside q = IFetchers fs -> In (FQuery q') fs -> subquery r q'.

(** Some query in [r] refers to the name. *)
Definition referred (r : query V W) (n : bytes) : Prop :=
  exists q fs, subquery r q /\ q_inside q = IFetchers fs /\ In (FRecursive n) fs.

(** Only one query in [r] has a name that is referred to. *)
Definition one_per_name (r : query V W) : Prop :=
  forall q q', subquery r q -> subquery r q' -> name q = name q' -> referred r (name q) -> q = q'.

(** The recursive fetchers name their query or one around it. *)
Inductive enclosed : list bytes -> query V W -> Prop :=
| enclosed_intro ns q :
    (forall fs n, q_inside q = IFetchers fs -> In (FRecursive n) fs -> In n (name q :: ns)) ->
    (forall fs q', q_inside q = IFetchers fs -> In (FQuery q') fs -> enclosed (name q :: ns) q') ->
    enclosed ns q.

(** What a fetcher stands for in the query [r]. *)
Inductive stands (r : query V W) : fetcher V W -> query V W -> Prop :=
| stands_query q : stands r (FQuery q) q
| stands_recursive n q : subquery r q -> name q = n -> stands r (FRecursive n) q.

(** Every tree among the contents, with every fetcher: by content, then by fetcher. *)
Definition pairs (cs : list tcontent) (fs : list (fetcher V W)) : list (tree * fetcher V W) :=
  flat_map (fun c => match c with TTree t => map (pair t) fs | TValue _ _ => [] end) cs.

(** *** Queries whose recursive fetchers stand for one query *)
(** What a query gives on a tree, from the world [w], and the world after it. *)
Inductive means (r : query V W) : query V W -> tree -> W -> outcome (V * bool) -> W -> Prop :=
| m_error q t w : selection (q_token q) t Err -> means r q t w Err w
| m_panic q t w : selection (q_token q) t Panic -> means r q t w Panic w
| m_none q t w cs w1 : selection (q_token q) t (Ok cs) -> instances r (q_inside q) cs w (Ok []) w1 ->
    means r q t w (Ok (vnil, false)) w1
| m_single q t w cs v vs w1 f o w2 : selection (q_token q) t (Ok cs) ->
    instances r (q_inside q) cs w (Ok (v :: vs)) w1 -> q_fn q = QSingle f -> f v w1 = (o, w2) -> means r q t w o w2
| m_multi q t w cs v vs w1 f o w2 : selection (q_token q) t (Ok cs) ->
    instances r (q_inside q) cs w (Ok (v :: vs)) w1 -> q_fn q = QMulti f -> f (v :: vs) w1 = (o, w2) -> means r q t w o w2
| m_inside_error q t w cs w1 : selection (q_token q) t (Ok cs) ->
    instances r (q_inside q) cs w Err w1 -> means r q t w Err w1
| m_inside_panic q t w cs w1 : selection (q_token q) t (Ok cs) ->
    instances r (q_inside q) cs w Panic w1 -> means r q t w Panic w1
with instances (r : query V W) : inside V W -> list tcontent -> W -> outcome (list V) -> W -> Prop :=
| i_single f c cs w o w' : f c w = (o, w') -> instances r (ISingle f) (c :: cs) w o w'
| i_single_none f w : instances r (ISingle f) [] w Panic w
| i_multi f cs w o w' : f cs w = (o, w') -> instances r (IMulti f) cs w o w'
| i_fetchers fs cs w o w' : results r (pairs cs fs) w o w' -> instances r (IFetchers fs) cs w o w'
(** The valid results, in order, up to the first error or panic. *)
with results (r : query V W) : list (tree * fetcher V W) -> W -> outcome (list V) -> W -> Prop :=
| r_end w : results r [] w (Ok []) w
| r_valid t f q l w v w1 vs w2 : stands r f q -> means r q t w (Ok (v, true)) w1 -> results r l w1 (Ok vs) w2 ->
    results r ((t, f) :: l) w (Ok (v :: vs)) w2
| r_invalid t f q l w v w1 vs w2 : stands r f q -> means r q t w (Ok (v, false)) w1 -> results r l w1 (Ok vs) w2 ->
    results r ((t, f) :: l) w (Ok vs) w2
| r_error t f q l w w1 : stands r f q -> means r q t w Err w1 -> results r ((t, f) :: l) w Err w1
| r_panic t f q l w w1 : stands r f q -> means r q t w Panic w1 -> results r ((t, f) :: l) w Panic w1
| r_later_error t f q l w v b w1 w2 : stands r f q -> means r q t w (Ok (v, b)) w1 -> results r l w1 Err w2 ->
    results r ((t, f) :: l) w Err w2
| r_later_panic t f q l w v b w1 w2 : stands r f q -> means r q t w (Ok (v, b)) w1 -> results r l w1 Panic w2 ->
    results r ((t, f) :: l) w Panic w2.

(** *** All queries *)
(** The last query of the list with the name; the list has the last query first. *)
Definition last_named (log : list (query V W)) (n : bytes) (q : query V W) : Prop :=
  exists l1 l2, log = l1 ++ q :: l2 /\ name q = n /\ forall q', In q' l1 -> name q' <> n.

Definition none_named (log : list (query V W)) (n : bytes) : Prop := forall q, In q log -> name q <> n.

(** What a fetcher stands for after the queries of the list. *)
Inductive stands_after (log : list (query V W)) : fetcher V W -> query V W -> Prop :=
| after_query q : stands_after log (FQuery q) q
| after_recursive n q : last_named log n q -> stands_after log (FRecursive n) q.

(** [runs log q t w o log' w']: after the queries [log], the query [q] gives [o] on the tree [t] in the
    world [w]; then the world is [w'] and the queries that selected something so far are [log']. *)
Inductive runs : list (query V W) -> query V W -> tree -> W -> outcome (V * bool) -> list (query V W) -> W -> Prop :=
| u_error log q t w : selection (q_token q) t Err -> runs log q t w Err log w
| u_panic log q t w : selection (q_token q) t Panic -> runs log q t w Panic log w
| u_none log q t w cs log1 w1 : selection (q_token q) t (Ok cs) -> collects (q :: log) (q_inside q) cs w (Ok []) log1 w1 ->
    runs log q t w (Ok (vnil, false)) log1 w1
| u_single log q t w cs v vs log1 w1 f o w2 : selection (q_token q) t (Ok cs) ->
    collects (q :: log) (q_inside q) cs w (Ok (v :: vs)) log1 w1 -> q_fn q = QSingle f -> f v w1 = (o, w2) ->
    runs log q t w o log1 w2
| u_multi log q t w cs v vs log1 w1 f o w2 : selection (q_token q) t (Ok cs) ->
    collects (q :: log) (q_inside q) cs w (Ok (v :: vs)) log1 w1 -> q_fn q = QMulti f -> f (v :: vs) w1 = (o, w2) ->
    runs log q t w o log1 w2
| u_inside_error log q t w cs log1 w1 : selection (q_token q) t (Ok cs) ->
    collects (q :: log) (q_inside q) cs w Err log1 w1 -> runs log q t w Err log1 w1
| u_inside_panic log q t w cs log1 w1 : selection (q_token q) t (Ok cs) ->
    collects (q :: log) (q_inside q) cs w Panic log1 w1 -> runs log q t w Panic log1 w1
with collects : list (query V W) -> inside V W -> list tcontent -> W -> outcome (list V) -> list (query V W) -> W -> Prop :=
| c_single log f c cs w o w' : f c w = (o, w') -> collects log (ISingle f) (c :: cs) w o log w'
| c_single_none log f w : collects log (ISingle f) [] w Panic log w
| c_multi log f cs w o w' : f cs w = (o, w') -> collects log (IMulti f) cs w o log w'
| c_fetchers log fs cs w o log' w' : gathers log (pairs cs fs) w o log' w' -> collects log (IFetchers fs) cs w o log' w'
with gathers : list (query V W) -> list (tree * fetcher V W) -> W -> outcome (list V) -> list (query V W) -> W -> Prop :=
| g_end log w : gathers log [] w (Ok []) log w
| g_unknown log t n l w : none_named log n -> gathers log ((t, FRecursive n) :: l) w Err log w
| g_valid log t f q l w v log1 w1 vs log2 w2 : stands_after log f q -> runs log q t w (Ok (v, true)) log1 w1 ->
    gathers log1 l w1 (Ok vs) log2 w2 -> gathers log ((t, f) :: l) w (Ok (v :: vs)) log2 w2
| g_invalid log t f q l w v log1 w1 vs log2 w2 : stands_after log f q -> runs log q t w (Ok (v, false)) log1 w1 ->
    gathers log1 l w1 (Ok vs) log2 w2 -> gathers log ((t, f) :: l) w (Ok vs) log2 w2
| g_error log t f q l w log1 w1 : stands_after log f q -> runs log q t w Err log1 w1 ->
    gathers log ((t, f) :: l) w Err log1 w1
| g_panic log t f q l w log1 w1 : stands_after log f q -> runs log q t w Panic log1 w1 ->
    gathers log ((t, f) :: l) w Panic log1 w1
| g_later_error log t f q l w v b log1 w1 log2 w2 : stands_after log f q -> runs log q t w (Ok (v, b)) log1 w1 ->
    gathers log1 l w1 Err log2 w2 -> gathers log ((t, f) :: l) w Err log2 w2
| g_later_panic log t f q l w v b log1 w1 log2 w2 : stands_after log f q -> runs log q t w (Ok (v, b)) log1 w1 ->
    gathers log1 l w1 Panic log2 w2 -> gathers log ((t, f) :: l) w Panic log2 w2.

(** The query token panics in the tree, or selects nothing for a function of one content. *)
Definition blames (q : query V W) (t : tree) : Prop :=
  selection (q_token q) t Panic \/
  (exists f, q_inside q = ISingle f) /\ selection (q_token q) t (Ok []).

(** The functions given with a query return values or errors. *)
Definition calm {A B} (f : ufn W A B) : Prop := forall a w, fst (f a w) <> Panic /\ fst (f a w) <> Fuel.

Definition calm_query (r : query V W) : Prop :=
  forall q, subquery r q ->
    match q_inside q with ISingle f => calm f | IMulti f => calm f | IFetchers _ => True end /\
    match q_fn q with QSingle f => calm f | QMulti f => calm f end.

(** A function is never out of fuel: fuel is no result of a Go function. *)
Definition real {A B} (f : ufn W A B) : Prop := forall a w, fst (f a w) <> Fuel.

Definition real_query (r : query V W) : Prop :=
  forall q, subquery r q ->
    match q_inside q with ISingle f => real f | IMulti f => real f | IFetchers _ => True end /\
    match q_fn q with QSingle f => real f | QMulti f => real f end.
End Spec.

(** What Execute returns: a result and the remaining bytes, or no result. *)
Definition reported {A} (o : outcome A) (rem : bytes) : outcome (A * bytes) :=
  match o with Ok a => Ok (a, rem) | Err => Err | Panic => Panic | Fuel => Fuel end.

(** ** Trees *)
(** [below t u]: [u] is [t], or is reached from it by contents of successful lines. *)
Inductive below (t : tree) : tree -> Prop :=
| below_refl : below t t
| below_step u l e v : below t u -> successful (tr_block u) = Some l -> In e (l_elements l) ->
    In (TTree v) (el_contents e) -> below t v.
