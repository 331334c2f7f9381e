(** Model of libs/queries: queries over trees. *)
From Coq Require Import List Arith Bool.
From Verif Require Import Base AstModel InterpModel.
Import ListNotations.

Section Query.
(** [V]: the Go values stored in [interface{}], [vnil] the nil one.  [W]: the state of the outside
    world, which the functions given with a query may read and change.  These functions may return
    a value, an error, or panic.  They are assumed not to write into the slices they are given. *)
Variable V : Type.
Variable W : Type.
Variable vnil : V.

(** A function given with a query (domain/queries/sdk.go:5-15). *)
Definition ufn (A B : Type) : Type := A -> W -> outcome B * W.

(** domain/queries/token.go:3-8 and element.go: [k_element], [k_index] are the name and the index of
    the element, [k_content] the index of the content.  Go [uint] fields are natural numbers. *)
Record qtoken : Type := QToken {
  k_name : bytes;
  k_reverse : bytes;
  k_element : bytes;
  k_index : nat;
  k_content : option nat
}.

(** domain/queries/selectorfn.go (QueryFn): the builder (selectorfn_builder.go:37-47) keeps one of the two. *)
Inductive qfn : Type :=
| QSingle (f : ufn V (V * bool))
| QMulti (f : ufn (list V) (V * bool)).

(** domain/queries/selector.go (Query), inside.go and contentfn.go (Inside), fetcher.go: the builders
    (inside_builder.go:38-48, contentfn_builder.go:37-47, fetcher_builder.go:37-47) keep exactly one of
    the alternatives. *)
Inductive query : Type :=
| Query (k : qtoken) (i : inside) (fn : qfn)
with inside : Type :=
| ISingle (f : ufn tcontent (list V))
| IMulti (f : ufn (list tcontent) (list V))
| IFetchers (l : list fetcher)
with fetcher : Type :=
| FRecursive (name : bytes)
| FQuery (q : query).

Definition q_token (q : query) : qtoken := let 'Query k _ _ := q in k.
Definition q_inside (q : query) : inside := let 'Query _ i _ := q in i.
Definition q_fn (q : query) : qfn := let 'Query _ _ f := q in f.

(** The map [previous] (application.go:46-50), which all the calls of one [Execute] share, and the world. *)
Definition st : Type := (list (bytes * query) * W)%type.

(** Continue after a result; an error or a panic ends everything (the map is not read any more). *)
Definition qbind {A B S} (m : outcome A * S) (k : A -> S -> outcome B * S) : outcome B * S :=
  match m with
  | (Ok a, s) => k a s
  | (Err, s) => (Err, s)
  | (Panic, s) => (Panic, s)
  | (Fuel, s) => (Fuel, s)
  end.

(** A function of the query leaves the map alone. *)
Definition lift {A B} (f : ufn A B) (a : A) (s : st) : outcome B * st :=
  let '(o, w) := f a (snd s) in (o, (fst s, w)).

(** application.go:125-141 (tokenRefine) *)
Definition token_refine (k : qtoken) (cs : list tcontent) : outcome (list tcontent) :=
  match k_content k with
  | None => Ok cs
  | Some i => match nth_error cs i with Some c => Ok [c] | None => Err end
  end.

(** application.go:68-96: the loop over the elements.  An element without grammar that is counted
    but not taken goes on to [oneElement.Grammar().Name()], a call on nil. *)
Fixpoint elements_loop (k : qtoken) (es : list telement) (cpt : nat) : outcome (list tcontent) :=
  match es with
  | [] => Ok []
  | e :: es' =>
    match el_grammar e with
    | None =>
      if bytes_eqb (k_element k) (k_reverse k) then
        if k_index k =? cpt then token_refine k (el_contents e) else Panic
      else elements_loop k es' cpt
    | Some c =>
      if bytes_eqb (c_name c) (k_element k) then
        if k_index k =? cpt then token_refine k (el_contents e) else elements_loop k es' (S cpt)
      else elements_loop k es' cpt
    end
  end.

(** application.go:54-97 (queryContents) *)
Definition query_contents (k : qtoken) (t : tree) : outcome (list tcontent) :=
  if bytes_eqb (k_name k) (t_name (tr_grammar t)) then
    match successful (tr_block t) with
    | None => Err
    | Some l => elements_loop k (l_elements l) 0
    end
  else Err.

Section Inside.
(** Calls of [queryFetch]. *)
Variable call : query -> tree -> st -> outcome (V * bool) * st.

(** application.go:171-202: one fetcher on one tree. *)
Definition fetcher_run (f : fetcher) (t : tree) (s : st) : outcome (V * bool) * st :=
  match f with
  | FQuery q => call q t s
  | FRecursive n => match mget n (fst s) with Some q => call q t s | None => (Err, s) end
  end.

(** application.go:164-204: the fetchers on one content; contents that are values are skipped. *)
Fixpoint row_run (fs : list fetcher) (c : tcontent) (s : st) : outcome (list V) * st :=
  match fs with
  | [] => (Ok [], s)
  | f :: fs' =>
    match c with
    | TValue _ _ => row_run fs' c s
    | TTree t =>
      qbind (fetcher_run f t s) (fun r s1 =>
      qbind (row_run fs' c s1) (fun vs s2 =>
        (Ok (if snd r then fst r :: vs else vs), s2)))
    end
  end.

(** application.go:163-207 *)
Fixpoint rows_run (fs : list fetcher) (cs : list tcontent) (s : st) : outcome (list V) * st :=
  match cs with
  | [] => (Ok [], s)
  | c :: cs' =>
    qbind (row_run fs c s) (fun vs s1 =>
    qbind (rows_run fs cs' s1) (fun vs' s2 => (Ok (vs ++ vs'), s2)))
  end.

(** application.go:143-210 (insideInstances); [len(contentList) < 0] (147) is never true. *)
Definition inside_instances (i : inside) (cs : list tcontent) (s : st) : outcome (list V) * st :=
  match i with
  | ISingle f => match cs with [] => (Panic, s) | c :: _ => lift f c s end
  | IMulti f => lift f cs s
  | IFetchers fs => rows_run fs cs s
  end.

(** application.go:99-123 (queryInstance) *)
Definition query_instance (q : query) (cs : list tcontent) (s : st) : outcome (V * bool) * st :=
  qbind (inside_instances (q_inside q) cs s) (fun vs s1 =>
    match vs with
    | [] => (Ok (vnil, false), s1)
    | v :: _ => match q_fn q with QSingle f => lift f v s1 | QMulti f => lift f vs s1 end
    end).
End Inside.

(** application.go:40-52 (queryFetch), with a bound on the depth of the calls; C108 says the height of
    the tree is enough. *)
Fixpoint query_fetch (fuel : nat) (q : query) (t : tree) (s : st) : outcome (V * bool) * st :=
  match fuel with
  | O => (Fuel, s)
  | S n =>
    match query_contents (q_token q) t with
    | Ok cs => query_instance (query_fetch n) q cs (mset (k_name (q_token q)) q (fst s), snd s)
    | Err => (Err, s)
    | Panic => (Panic, s)
    | Fuel => (Fuel, s)
    end
  end.

(** application.go:26-38 (Execute): the instance, isValid, the remaining; and the world after it. *)
Definition query_execute (fuel : nat) (q : query) (t : tree) (w : W) : outcome (V * bool * bytes) * W :=
  let '(o, s) := query_fetch fuel q t ([], w) in
  (match o with
   | Ok r => Ok (r, tr_remaining t)
   | Err => Err
   | Panic => Panic
   | Fuel => Fuel
   end, snd s).

(** application.go:21-23 (Matches) *)
Definition query_matches (g : grammar) (q : query) : outcome bool := Ok true.

End Query.

Arguments Query {V W}. Arguments ISingle {V W}. Arguments IMulti {V W}. Arguments IFetchers {V W}.
Arguments FRecursive {V W}. Arguments FQuery {V W}. Arguments QSingle {V W}. Arguments QMulti {V W}.
Arguments q_token {V W}. Arguments q_inside {V W}. Arguments q_fn {V W}.
Arguments query_fetch {V W}. Arguments query_execute {V W}. Arguments query_matches {V W}.
Arguments fetcher_run {V W}. Arguments row_run {V W}. Arguments rows_run {V W}.
Arguments inside_instances {V W}. Arguments query_instance {V W}. Arguments lift {V W A B}.
