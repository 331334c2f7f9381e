(** Model of libs/asts: grammars, parse trees and the parser (Execute). *)
From Coq Require Import List ZArith Bool.
From Coq Require Import Init.Byte Strings.Byte.
From Verif Require Import Base.
Import ListNotations.

(** ** Grammars *)
(** libs/asts/domain/grammars. The Go values are immutable and are built bottom-up by builders,
    so they are finite trees. A nil list is [[]] (the builders reject empty lists where it
    matters), a nil pointer is [None]. Names are byte strings. A compose element is the number
    of its value and its occurrences (the value's name is never used by the parser).
    Cardinalities (cardinalities/cardinality.go) are a minimum and an optional maximum, any uints. *)
Inductive token : Type :=
| Token (name : bytes) (lines : list (list container)) (suites : list suite)  (* token.go:3-7, block.go, line.go *)
with container : Type :=
| CElement (content : econtent) (min : Z) (max : option Z)                    (* container.go:3-6, element.go:7-10 *)
| CCompose (name : bytes) (values : list (byte * Z))                         (* compose.go, composeelement.go *)
with econtent : Type :=
| EValue (name : bytes) (number : byte)                                       (* elementcontent.go:7-12, values/value.go *)
| EExternal (name : bytes) (g : grammar)                                      (* external.go *)
| EToken (t : token)                                                          (* instance.go *)
| EEverything (name : bytes) (exception : token) (escape : option token)      (* everything.go:3-7 *)
| ERecursive (name : bytes)
with grammar : Type :=
| Grammar (root : token) (channels : list channel)                            (* grammar.go:3-6 *)
with channel : Type :=
| Channel (t : token) (condition : option (option token * option token))      (* channel.go:3-6, channelcondition.go:3-6 *)
with suite : Type :=
| Suite (valid : bool) (values : list (byte * Z)).                            (* suite.go *)

(** token.go:39-46, 54-56 *)
Definition t_name (t : token) : bytes := let 'Token n _ _ := t in n.
Definition t_lines (t : token) : list (list container) := let 'Token _ l _ := t in l.
Definition t_suites (t : token) : list suite := let 'Token _ _ s := t in s.

(** element.go:25-39 (Name), instance.go:33-39 *)
Definition e_name (c : econtent) : bytes :=
  match c with
  | EValue n _ => n
  | EExternal n _ => n
  | EToken t => t_name t
  | EEverything n _ _ => n
  | ERecursive n => n
  end.

(** container.go:33-39 (Name) *)
Definition c_name (c : container) : bytes :=
  match c with CElement e _ _ => e_name e | CCompose n _ => n end.

(** ** Trees *)
(** libs/asts/domain/trees. A tree block is its list of lines; the successful one is recomputed
    (block_builder.go:38-44). Nil elements, suffix, prefix and remaining are [[]]: the builders
    never store empty ones. *)
Inductive tree : Type :=
| Tree (g : token) (block : list tline) (suffix : list tree) (remaining : bytes)  (* tree.go:10-15 *)
with tline : Type :=
| TLine (index : nat) (g : list container) (reverse : bool) (elements : list telement)  (* line.go:7-12 *)
with telement : Type :=
| TElement (g : option container) (contents : list tcontent)                     (* element.go:10-13 *)
with tcontent : Type :=
| TValue (content : byte) (prefix : list tree)                                   (* content.go:3-6, value.go:3-6 *)
| TTree (t : tree).

Definition tr_grammar (t : tree) : token := let 'Tree g _ _ _ := t in g.
Definition tr_block (t : tree) : list tline := let 'Tree _ b _ _ := t in b.
Definition tr_suffix (t : tree) : list tree := let 'Tree _ _ s _ := t in s.
Definition tr_remaining (t : tree) : bytes := let 'Tree _ _ _ r := t in r.
Definition l_index (l : tline) : nat := let 'TLine i _ _ _ := l in i.
Definition l_grammar (l : tline) : list container := let 'TLine _ g _ _ := l in g.
Definition l_reverse (l : tline) : bool := let 'TLine _ _ r _ := l in r.
Definition l_elements (l : tline) : list telement := let 'TLine _ _ _ e := l in e.
Definition el_grammar (e : telement) : option container := let 'TElement g _ := e in g.
Definition el_contents (e : telement) : list tcontent := let 'TElement _ c := e in c.

(** element.go:146-148 (Amount) *)
Definition amount (e : telement) : Z := zlen (el_contents e).

(** line.go:111-116, element.go:117-121: the sum of the occurrences, in a uint. *)
Definition occurrences (l : list (byte * Z)) : Z := fold_left (fun a x => u64 (a + snd x)) l 0%Z.

(** element.go:94-128 (IsSuccessful) *)
Definition element_ok (e : telement) : bool :=
  match el_grammar e with
  | None => true
  | Some (CElement _ min max) =>
    if (amount e <? min)%Z then false
    else match max with Some m => negb (m <? amount e)%Z | None => true end
  | Some (CCompose _ l) => negb (amount e <? occurrences l)%Z
  end.

(** elements.go:31-38 (Fetch) over the map of elements_builder.go:38-46: the last element with the name. *)
Definition fetch_element (es : list telement) (n : bytes) : option telement :=
  find (fun e => match el_grammar e with Some c => bytes_eqb (c_name c) n | None => false end) (rev es).

(** line.go:90-129: one requested container. *)
Definition container_ok (es : list telement) (c : container) : bool :=
  match c with
  | CElement e min _ =>
    if (min <=? 0)%Z then true
    else match fetch_element es (e_name e) with Some x => negb (amount x <? min)%Z | None => false end
  | CCompose n l =>
    match fetch_element es n with Some x => (amount x =? occurrences l)%Z | None => false end
  end.

(** line.go:73-132 (IsSuccessful) *)
Definition line_ok (l : tline) : bool :=
  match l_elements l with
  | [] => false
  | es => forallb element_ok es && (l_reverse l || forallb (container_ok es) (l_grammar l))
  end.

(** block_builder.go:38-44, block.go:44-46 (Successful) *)
Definition successful (b : list tline) : option tline := find line_ok b.
Definition has_successful (t : tree) : bool :=
  match successful (tr_block t) with Some _ => true | None => false end.

(** tree.go:102-118, trees.go:18-25, element.go:73-91 (Bytes). The block's successful line has elements.
    Written with one line function because of the nesting: [line_bytes l] is used for the
    successful line only. *)
Fixpoint tree_bytes (inc : bool) (t : tree) : bytes :=
  let 'Tree _ b s _ := t in
  let body := (fix first (b : list tline) : option bytes :=
    match b with
    | [] => None
    | l :: b' => if line_ok l then Some (line_bytes inc l) else first b'
    end) b in
  match body with
  | None => []
  | Some o => o ++ (if inc then flat_map (tree_bytes inc) s else [])
  end
with line_bytes (inc : bool) (l : tline) : bytes :=
  let 'TLine _ _ _ es := l in flat_map (element_bytes inc) es
with element_bytes (inc : bool) (e : telement) : bytes :=
  let 'TElement _ cs := e in flat_map (content_bytes inc) cs
with content_bytes (inc : bool) (c : tcontent) : bytes :=
  match c with
  | TValue b p => (if inc then flat_map (tree_bytes inc) p else []) ++ [b]
  | TTree t => tree_bytes inc t
  end.

(** ** Parser *)
(** stack.go, and the map of application.go:512 (stackMap): for each token name the token and
    the data each line was last tried on. One map is shared, by reference, by all calls made
    from one call of [grammar], so it is threaded through, also through failing calls. *)
Definition smap : Type := list (bytes * (token * list (nat * bytes))).

Fixpoint s_get (s : smap) (n : bytes) : option (token * list (nat * bytes)) :=
  match s with
  | [] => None
  | (m, x) :: s' => if bytes_eqb m n then Some x else s_get s' n
  end.
Definition s_del (s : smap) (n : bytes) : smap := filter (fun x => negb (bytes_eqb (fst x) n)) s.
Definition s_set (s : smap) (n : bytes) (x : token * list (nat * bytes)) : smap := (n, x) :: s_del s n.

Fixpoint line_get (l : list (nat * bytes)) (i : nat) : option bytes :=
  match l with
  | [] => None
  | (j, d) :: l' => if Nat.eqb j i then Some d else line_get l' i
  end.

(** application.go:513-519: the entry of the token is made if it is not there. *)
Definition s_enter (s : smap) (t : token) : smap :=
  match s_get s (t_name t) with Some _ => s | None => s_set s (t_name t) (t, []) end.

(** application.go:593-600 *)
Definition s_visited (s : smap) (n : bytes) (i : nat) (d : bytes) : bool :=
  match s_get s n with
  | Some (_, ls) => match line_get ls i with Some d' => bytes_eqb d d' | None => false end
  | None => false
  end.

(** application.go:602-609 *)
Definition s_mark (s : smap) (t : token) (i : nat) (d : bytes) : smap :=
  match s_get s (t_name t) with
  | Some (t', ls) => s_set s (t_name t) (t', (i, d) :: ls)
  | None => s_set s (t_name t) (t, [(i, d)])
  end.

(** A call of application.go:512 (token): the token, the escape, the channels, isReverse,
    prevData and currentData. *)
Definition call_t : Type := token -> smap -> option token -> list channel -> bool -> bytes -> bytes -> smap * outcome tree.

(** Continue a computation on the map unless it failed; an error keeps the map. *)
Definition sbind {A B} (m : smap * outcome A) (k : smap -> A -> smap * outcome B) : smap * outcome B :=
  match m with
  | (s, Ok a) => k s a
  | (s, Err) => (s, Err)
  | (s, Panic) => (s, Panic)
  | (s, Fuel) => (s, Fuel)
  end.

(** Continue also after an error, as [if err != nil { continue }] does. *)
Definition stry {A B} (m : smap * outcome A) (k : smap -> option A -> smap * outcome B) : smap * outcome B :=
  match m with
  | (s, Ok a) => k s (Some a)
  | (s, Err) => k s None
  | (s, Panic) => (s, Panic)
  | (s, Fuel) => (s, Fuel)
  end.

Section Parser.
  (** Calls of [token], and the bound on the iterations of the loops that have no bound in the code. *)
  Variable call : call_t.
  Variable bound : nat.

  (** application.go:1073-1096 (channelCondition). The tree is never nil without an error. *)
  Definition channel_condition (c : option token * option token) (prev next : bytes) : outcome unit :=
    do _ <- (match fst c with
             | None => Ok tt
             | Some t => do _ <- snd (call t [] None [] false [] prev); Ok tt
             end);
    match snd c with
    | None => Ok tt
    | Some t => do _ <- snd (call t [] None [] false [] next); Ok tt
    end.

  (** application.go:1046-1071 (channel). *)
  Definition channel_run (c : channel) (prev cur : bytes) : outcome tree :=
    let 'Channel t cond := c in
    do tr <- snd (call t [] None [] false prev cur);
    match cond with
    | None => Ok tr
    | Some c => do _ <- channel_condition c prev (tr_remaining tr); Ok tr
    end.

  (** application.go:1012-1031: one round over the channels; the trees, previousData, remaining. *)
  Fixpoint channels_round (l : list channel) (st : list tree * bytes * bytes) : outcome (list tree * bytes * bytes) :=
    match l with
    | [] => Ok st
    | c :: l' =>
      let '(ts, prev, rem) := st in
      match channel_run c prev rem with
      | Ok t =>
        let n := length (tree_bytes true t) in
        if length rem <? n then Panic
        else if n =? 0 then channels_round l' st
        else channels_round l' (ts ++ [t], rem, skipn n rem)
      | Err => channels_round l' st
      | Panic => Panic
      | Fuel => Fuel
      end
    end.

  (** application.go:1010-1036 *)
  Fixpoint channels_loop (fuel : nat) (l : list channel) (st : list tree * bytes * bytes) : outcome (list tree * bytes * bytes) :=
    match fuel with
    | O => Fuel
    | S f =>
      do st' <- channels_round l st;
      if length (fst (fst st)) =? length (fst (fst st')) then Ok st'
      else channels_loop f l st'
    end.

  (** application.go:1004-1044 (channels): the trees and the remaining. *)
  Definition channels_run (l : list channel) (prev cur : bytes) : outcome (list tree * bytes) :=
    do st <- channels_loop bound l ([], prev, cur);
    match fst (fst st) with
    | [] => Err
    | ts => Ok (ts, snd st)
    end.

  (** application.go:535-541, 963-969: channels that do not match are no failure. *)
  Definition channels_try (l : list channel) (prev cur : bytes) : outcome (list tree * bytes) :=
    match l with
    | [] => Ok ([], cur)
    | _ => match channels_run l prev cur with
           | Err => Ok ([], cur)
           | o => o
           end
    end.

  (** application.go:960-986 (elementValue): [None] when the byte is another one. *)
  Definition element_value (number : byte) (chs : list channel) (prev cur : bytes) : outcome (option (tcontent * bytes)) :=
    do pr <- channels_try chs prev cur;
    match snd pr with
    | [] => Err
    | b :: rem => if Byte.eqb number b then Ok (Some (TValue b (fst pr), rem)) else Ok None
    end.

  (** application.go:871-873: only trees with a successful line count. *)
  Definition found (t : tree) (rem : bytes) : outcome (tcontent * bytes) :=
    if has_successful t then Ok (TTree t, rem) else Err.

  (** application.go:555-582 (external), 501-510 (grammar): the tree of the external grammar's
      root, renamed, without suffix and remaining. *)
  Definition external_run (name : bytes) (g : grammar) (rev : bool) (prev cur : bytes) : outcome tree :=
    let 'Grammar root chs := g in
    do t <- snd (call root [] None chs rev prev cur);
    Ok (Tree (Token name (t_lines root) (t_suites root)) (tr_block t) [] []).

  (** application.go:856-890 (element), 892-958 (elementContent), 988-1002 (instance, everything). *)
  Definition element_run (c : econtent) (s : smap) (esc : option token) (chs : list channel) (rev : bool)
      (prev cur : bytes) : smap * outcome (tcontent * bytes) :=
    match cur with
    | [] => (s, Err)
    | _ =>
      match c with
      | EValue _ n =>
        (s, do o <- element_value n chs prev cur;
            match o with Some r => Ok r | None => Err end)
      | EExternal n g =>
        (s, do t <- external_run n g rev prev cur; found t [])
      | EToken t =>
        sbind (call t s esc chs rev prev cur) (fun s' tr => (s', found tr (tr_remaining tr)))
      | EEverything _ exc esc' =>
        sbind (call exc s esc' [] (negb rev) prev cur) (fun s' tr => (s', found tr (tr_remaining tr)))
      | ERecursive n =>
        match s_get s n with
        | Some (t, _) => sbind (call t s esc chs rev prev cur) (fun s' tr => (s', found tr (tr_remaining tr)))
        | None => (s, Err)
        end
      end
    end.

  (** application.go:790-812: the repetitions of one element; contents, previousData, remaining. *)
  Fixpoint repeat_run (fuel : nat) (c : econtent) (max : option Z) (s : smap) (esc : option token)
      (chs : list channel) (rev : bool) (cs : list tcontent) (prev cur : bytes)
      : smap * outcome (list tcontent * bytes * bytes) :=
    match cur with
    | [] => (s, Ok (cs, prev, cur))
    | _ =>
      if (match max with Some m => (m <=? zlen cs)%Z | None => false end) then (s, Ok (cs, prev, cur))
      else
        match fuel with
        | O => (s, Fuel)
        | S f =>
          stry (element_run c s esc chs rev prev cur) (fun s' o =>
            match o with
            | None => (s', Ok (cs, prev, cur))
            | Some (x, rem) => repeat_run f c max s' esc chs rev (cs ++ [x]) cur rem
            end)
        end
    end.

  (** application.go:744-770: the values of a compose container; the contents are built in a
      shadowed variable, so only the remaining is left. *)
  Fixpoint compose_run (l : list (byte * Z)) (chs : list channel) (prev cur : bytes) : outcome bytes :=
    match l with
    | [] => Ok cur
    | (b, _) :: l' =>
      do o <- element_value b chs prev cur;
      match o with
      | None => Err
      | Some (_, rem) => compose_run l' chs prev rem
      end
    end.

  (** application.go:739-833: the containers of a line; elements, previousData, remaining.
      After the values of a compose the list of contents is empty, which is an error (772-775). *)
  Fixpoint containers_run (l : list container) (s : smap) (esc : option token) (chs : list channel) (rev : bool)
      (prev0 : bytes) (es : list telement) (prev cur : bytes) : smap * outcome (list telement * bytes) :=
    match l with
    | [] => (s, Ok (es, cur))
    | CCompose _ vs :: _ =>
      (s, do _ <- compose_run vs chs prev0 cur; Err)
    | CElement c min max :: l' =>
      sbind (repeat_run bound c max s esc chs rev [] prev cur) (fun s' r =>
        let '(cs, prev', cur') := r in
        if (zlen cs <? i64 min)%Z then (s', Err)
        else
          let es' := match cs with [] => es | _ => es ++ [TElement (Some (CElement c min max)) cs] end in
          containers_run l' s' esc chs rev prev0 es' prev' cur')
    end.

  (** application.go:733-854 (line). *)
  Definition line_run (l : list container) (i : nat) (s : smap) (esc : option token) (chs : list channel) (rev : bool)
      (prev cur : bytes) : smap * outcome (tline * bytes) :=
    sbind (containers_run l s esc chs rev prev [] prev cur) (fun s' r =>
      (s', Ok (TLine i l false (fst r), snd r))).

  (** application.go:621-651: an escape, then a match of the line; the contents, previousData and
      remaining after it. [escapeRemaining[:amount]] panics when more remains than there was. *)
  Definition escape_run (l : list container) (i : nat) (s : smap) (esc : option token) (chs : list channel)
      (cs : list tcontent) (prev cur : bytes) : smap * outcome (list tcontent * bytes * bytes) :=
    match esc with
    | None => (s, Ok (cs, prev, cur))
    | Some e =>
      stry (call e s None chs false prev cur) (fun s1 o =>
        match o with
        | None => (s1, Ok (cs, prev, cur))
        | Some t =>
          if has_successful t then
            match tr_remaining t with
            | [] => (s1, Ok (cs, prev, cur))
            | er =>
              stry (line_run l i s1 esc chs true cur er) (fun s2 o2 =>
                match o2 with
                | None => (s2, Ok (cs, prev, cur))
                | Some (tl, rem) =>
                  if line_ok tl then
                    if length er <? length rem then (s2, Panic)
                    else let n := length er - length rem in
                         (s2, Ok (cs ++ map (fun b => TValue b []) (firstn n er), er, skipn n er))
                  else (s2, Ok (cs, prev, cur))
                end)
            end
          else (s1, Ok (cs, prev, cur))
        end)
    end.

  (** application.go:612-671: the bytes before a match of the line. *)
  Fixpoint reverse_loop (fuel : nat) (l : list container) (i : nat) (s : smap) (esc : option token) (chs : list channel)
      (cs : list tcontent) (prev cur : bytes) : smap * outcome (list tcontent * bytes) :=
    match cur with
    | [] => (s, Ok (cs, cur))
    | _ =>
      match fuel with
      | O => (s, Fuel)
      | S f =>
        sbind (escape_run l i s esc chs cs prev cur) (fun s1 r =>
          let '(cs1, prev1, cur1) := r in
          stry (line_run l i s1 esc chs true prev1 cur1) (fun s2 o =>
            match o with
            | Some _ => (s2, Ok (cs1, cur1))
            | None =>
              match cur1 with
              | [] => (s2, Panic)
              | b :: cur2 => reverse_loop f l i s2 esc chs (cs1 ++ [TValue b []]) cur1 cur2
              end
            end))
      end
    end.

  (** application.go:584-731 (block): the tree lines and the remaining. *)
  Fixpoint block_run (t : token) (ls : list (list container)) (i : nat) (s : smap) (esc : option token)
      (chs : list channel) (rev : bool) (acc : list tline) (prev cur : bytes) : smap * outcome (list tline * bytes) :=
    match ls with
    | [] => (s, Ok (acc, cur))
    | l :: ls' =>
      if s_visited s (t_name t) i cur then block_run t ls' (S i) s esc chs rev acc prev cur
      else
        let s1 := s_mark s t i cur in
        if rev then
          sbind (reverse_loop bound l i s1 esc chs [] prev cur) (fun s2 r =>
            match fst r with
            | [] => (s2, Err)
            | cs => (s2, Ok (acc ++ [TLine i l true [TElement None cs]], snd r))
            end)
        else
          stry (line_run l i s1 esc chs false prev cur) (fun s2 o =>
            match o with
            | None => block_run t ls' (S i) s2 esc chs rev acc prev cur
            | Some (tl, rem) =>
              if line_ok tl then (s2, Ok (acc ++ [tl], rem))
              else block_run t ls' (S i) s2 esc chs rev (acc ++ [tl]) prev cur
            end)
    end.

  (** application.go:512-553 (token). *)
  Definition token_step : call_t := fun t s esc chs rev prev cur =>
    let '(s1, o) := block_run t (t_lines t) 0 (s_enter s t) esc chs rev [] prev cur in
    let s2 := s_del s1 (t_name t) in
    match o with
    | Ok ([], _) => (s2, Err)
    | Ok (b, rem) =>
      (s2, do sf <- channels_try chs prev rem; Ok (Tree t b (fst sf) (snd sf)))
    | Err => (s2, Err)
    | Panic => (s2, Panic)
    | Fuel => (s2, Fuel)
    end.
End Parser.

(** The parser with a bound on the depth of calls and on the iterations of each loop. *)
Fixpoint token_run (fuel : nat) : call_t :=
  match fuel with
  | O => fun _ s _ _ _ _ _ => (s, Fuel)
  | S f => token_step (token_run f) f
  end.

(** application.go:113-115 (Execute), 501-510 (grammar). *)
Definition execute (fuel : nat) (g : grammar) (data : bytes) : outcome tree :=
  let 'Grammar root chs := g in snd (token_run fuel root [] None chs false [] data).
