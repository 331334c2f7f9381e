(** Parsing expressions: what a grammar without recursion, escapes and channel conditions should match. *)
From Coq Require Import List ZArith.
From Coq Require Import Init.Byte Strings.Byte.
From Verif Require Import Base AstModel SpecAst.
Import ListNotations.

(** What was recognised: a byte, or the line of a token that matched, with the contents of its
    elements by name; elements that occur zero times are left out. *)
Inductive ast : Type :=
| Leaf (b : byte)
| Node (name : bytes) (line : nat) (elements : list (bytes * list ast)).

(** A parser takes a prefix of its input and returns what it recognised and the rest, or fails. *)
Definition peg (A : Type) : Type := bytes -> option (A * bytes).

Definition peg_byte (b : byte) : peg ast := fun d =>
  match d with x :: d' => if Byte.eqb b x then Some (Leaf b, d') else None | [] => None end.

(** One after the other. *)
Fixpoint peg_seq (l : list (bytes * peg (list ast))) : peg (list (bytes * list ast)) := fun d =>
  match l with
  | [] => Some ([], d)
  | (n, p) :: l' =>
    match p d with
    | Some (xs, d') =>
      match peg_seq l' d' with
      | Some (es, d'') => Some (match xs with [] => es | _ => (n, xs) :: es end, d'')
      | None => None
      end
    | None => None
    end
  end.

(** The first that matches something, and its index, counted from [i]. *)
Fixpoint peg_first {A} (i : nat) (l : list (peg A)) : peg (nat * A) := fun d =>
  match l with
  | [] => None
  | p :: l' =>
    match p d with
    | Some (a, d') => if length d' <? length d then Some (i, a, d') else peg_first (S i) l' d
    | None => peg_first (S i) l' d
    end
  end.

(** As often as possible up to the maximum (at most [fuel] times), after [k] times. *)
Fixpoint peg_greedy {A} (p : peg A) (max : option Z) (fuel : nat) (k : Z) (d : bytes) : list A * bytes :=
  match fuel with
  | O => ([], d)
  | S f =>
    if (match max with Some m => (m <=? k)%Z | None => false end) then ([], d)
    else match p d with
         | Some (x, d') => let '(xs, d'') := peg_greedy p max f (k + 1)%Z d' in (x :: xs, d'')
         | None => ([], d)
         end
  end.

Definition peg_times {A} (p : peg A) (min : Z) (max : option Z) : peg (list A) := fun d =>
  let '(xs, d') := peg_greedy p max (length d) 0 d in
  if (zlen xs <? min)%Z then None else Some (xs, d').

(** What is before the first place where [p] matches, and what is left from there: everything and
    nothing if it matches nowhere. *)
Fixpoint before {A} (p : peg A) (d : bytes) : bytes * bytes :=
  match d with
  | [] => ([], [])
  | b :: d' =>
    match p d with
    | Some _ => ([], d)
    | None => let '(w, r) := before p d' in (b :: w, r)
    end
  end.

Definition peg_until {A} (p : peg A) : peg (list ast) := fun d =>
  match before p d with ([], _) => None | (w, r) => Some (map Leaf w, r) end.

(** Channels: each takes what it matches, in order, round after round; every round that takes
    something makes the input shorter, so that its length is enough rounds. *)
Definition peg_round (ps : list (peg ast)) (d : bytes) : bytes :=
  fold_left (fun d p => match p d with Some (_, d') => d' | None => d end) ps d.

Definition peg_skip (ps : list (peg ast)) (d : bytes) : bytes := Nat.iter (length d) (peg_round ps) d.

Definition renamed (n : bytes) (a : ast) : ast := match a with Node _ i es => Node n i es | Leaf b => Leaf b end.

(** [skip]: what the channels skip before each value and after each token; channels, and everythings
    with their exceptions, are parsed without channels ([peg_skip []]). An external is its own grammar, and then
    everything left; what is recognised has the name of the external. *)
Fixpoint peg_token (skip : bytes -> bytes) (t : token) : peg ast :=
  let 'Token n ls _ := t in fun d =>
  match peg_first 0 (map (fun l => peg_seq (map (fun c => (c_name c, peg_container skip c)) l)) ls) d with
  | Some (i, es, d') => Some (Node n i es, skip d')
  | None => None
  end
with peg_container (skip : bytes -> bytes) (c : container) : peg (list ast) :=
  match c with
  | CElement e min max => peg_times (peg_content skip e) min max
  | CCompose _ _ => fun _ => None
  end
with peg_content (skip : bytes -> bytes) (e : econtent) : peg ast :=
  match e with
  | EValue _ b => fun d => peg_byte b (skip d)
  | EToken t => peg_token skip t
  | EExternal n g => fun d => match peg_of g d with Some (a, _) => Some (renamed n a, []) | None => None end
  | EEverything _ (Token m (l :: _) _) None => fun d =>
    match peg_until (peg_seq (map (fun c => (c_name c, peg_container (peg_skip []) c)) l)) d with
    | Some (w, r) => Some (Node m 0 [([], w)], r)
    | None => None
    end
  | _ => fun _ => None
  end
with peg_of (g : grammar) : peg ast :=
  let 'Grammar root chs := g in
  peg_token (peg_skip (map (fun c => let 'Channel t _ := c in peg_token (peg_skip []) t) chs)) root.

(** What a tree recognised: its token's name, the index of its successful line, and the contents of the
    elements of that line. *)
Fixpoint tree_ast (t : tree) : ast :=
  let 'Tree g b _ _ := t in
  (fix first (b : list tline) : ast :=
    match b with
    | [] => Node (t_name g) 0 []
    | l :: b' => if line_ok l then Node (t_name g) (l_index l) (line_ast l) else first b'
    end) b
with line_ast (l : tline) : list (bytes * list ast) :=
  let 'TLine _ _ _ es := l in map element_ast es
with element_ast (e : telement) : bytes * list ast :=
  let 'TElement g cs := e in (match g with Some c => c_name c | None => [] end, map content_ast cs)
with content_ast (c : tcontent) : ast :=
  match c with
  | TValue b _ => Leaf b
  | TTree t => tree_ast t
  end.

(** The grammars this is about. In every token no token of the same name is used. Elements of one
    line with the same name have about the same minimum. The elements are values, tokens, externals, or
    everythings without escape the first line of whose exception is made of values only. The
    channels have no conditions and use no externals. *)
Definition value_container (c : container) : Prop :=
  match c with CElement (EValue _ _) _ _ => True | _ => False end.

Definition peg_ok (e : econtent) : Prop :=
  match e with
  | EValue _ _ => True
  | EToken _ => True
  | EExternal _ _ => True
  | EEverything _ u None => forall l ls, t_lines u = l :: ls -> Forall value_container l
  | _ => False
  end.

Definition compatible (l : list container) : Prop :=
  forall e min max e' min' max', In (CElement e min max) l -> In (CElement e' min' max') l ->
    e_name e = e_name e' -> (min <= Z.max 1 min')%Z.

Definition peg_root (root : token) : Prop :=
  (forall t u v, within root t -> child t u -> within u v -> t_name v <> t_name t) /\
  (forall t l, within root t -> In l (t_lines t) -> compatible l) /\
  every_container card_ok root /\
  every_container (fun c => match c with CElement e _ _ => peg_ok e | CCompose _ _ => True end) root.

Definition peg_grammar (g : grammar) : Prop :=
  forall root chs, uses g (Grammar root chs) ->
  peg_root root /\
  forall t cond, In (Channel t cond) chs -> cond = None /\ every_container plain_container t.

(** ** Channels and values *)
(** Tokens made of values and tokens only (and composes, which never match). *)
Definition value_or_token (c : container) : Prop :=
  match c with
  | CElement (EValue _ _) _ _ => True
  | CElement (EToken _) _ _ => True
  | CElement _ _ _ => False
  | CCompose _ _ => True
  end.

(** What is left of the input when the channels of a grammar take what they match, again and again. *)
Definition skipped (chs : list channel) (d r : bytes) : Prop :=
  peg_skip (map (fun c => let 'Channel t _ := c in peg_token (peg_skip []) t) chs) d = r.

(** The bytes the channels of a grammar do not skip. *)
Inductive seen (chs : list channel) : bytes -> bytes -> Prop :=
| seen_end d : skipped chs d [] -> seen chs d []
| seen_byte d b r v : skipped chs d (b :: r) -> seen chs r v -> seen chs d (b :: v).

(** Execute finds a successful line, recognises [a] and leaves [rest]. *)
Definition recognises (fuel : nat) (g : grammar) (d : bytes) (a : ast) (rest : bytes) : Prop :=
  exists t, execute fuel g d = Ok t /\ has_successful t = true /\ tree_ast t = a /\ tr_remaining t = rest.
