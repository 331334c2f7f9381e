(** Parsing expressions with recursion: what a grammar whose tokens refer to themselves should match. *)
From Coq Require Import List ZArith Bool.
From Coq Require Import Init.Byte Strings.Byte.
From Verif Require Import Base AstModel SpecAst SpecPeg.
Import ListNotations.

(** An element of a line: one that does not refer to the token of the line, or the token itself. *)
Inductive piece : Type :=
| Fixed (p : peg (list ast))
| Again (min : Z) (max : option Z).

(** How the token itself is repeated: all but plain parsing expressions may look at whether the line has tried
    the token before ([tried]), and say so afterwards. *)
Definition repeating : Type := peg ast -> bool -> option Z -> bytes -> list ast * bytes * bool.

(** As often as possible. *)
Definition plainly : repeating := fun self tried max d =>
  let '(xs, d') := peg_greedy self max (length d) 0 d in (xs, d', tried).

(** At most once, and only if the line has not tried the token before. *)
Definition at_most_once : repeating := fun self tried max d =>
  if tried || (match max with Some m => (m <=? 0)%Z | None => false end) then ([], d, tried)
  else
    match d with
    | [] => ([], d, tried)
    | _ => match self d with Some (x, d') => ([x], d', true) | None => ([], d, true) end
    end.

(** One after the other. *)
Fixpoint rec_seq (how : repeating) (self : peg ast) (tried : bool) (l : list (bytes * piece)) : peg (list (bytes * list ast)) := fun d =>
  match l with
  | [] => Some ([], d)
  | (n, x) :: l' =>
    let '(o, tried') :=
      match x with
      | Fixed p => (p d, tried)
      | Again min max =>
        let '(xs, d', tried') := how self tried max d in
        (if (zlen xs <? min)%Z then None else Some (xs, d'), tried')
      end in
    match o with
    | Some (xs, d') =>
      match rec_seq how self tried' l' d' with
      | Some (es, d'') => Some (match xs with [] => es | _ => (n, xs) :: es end, d'')
      | None => None
      end
    | None => None
    end
  end.

(** The first line that matches something, where the token may be used inside itself at most [k] times. *)
Fixpoint rec_knot (how : repeating) (skip : bytes -> bytes) (n : bytes) (lines : list (list (bytes * piece))) (k : nat) : peg ast := fun d =>
  match peg_first 0 (map (rec_seq how (match k with O => fun _ => None | S k' => rec_knot how skip n lines k' end) false) lines) d with
  | Some (i, es, d') => Some (Node n i es, skip d')
  | None => None
  end.

(** As [peg_token] and the others, with recursion. A token can only be used inside itself after a byte,
    so that the length of the input is enough times. *)
Fixpoint rec_token (how : repeating) (skip : bytes -> bytes) (t : token) : peg ast :=
  let 'Token n ls _ := t in fun d =>
  rec_knot how skip n (map (map (fun c => (c_name c, rec_piece how skip c))) ls) (length d) d
with rec_piece (how : repeating) (skip : bytes -> bytes) (c : container) : piece :=
  match c with
  | CElement (ERecursive _) min max => Again min max
  | CElement e min max => Fixed (peg_times (rec_content how skip e) min max)
  | CCompose _ _ => Fixed (fun _ => None)
  end
with rec_content (how : repeating) (skip : bytes -> bytes) (e : econtent) : peg ast :=
  match e with
  | EValue _ b => fun d => peg_byte b (skip d)
  | EToken t => rec_token how skip t
  | EExternal n g => fun d => match rec_of how g d with Some (a, _) => Some (renamed n a, []) | None => None end
  | EEverything _ (Token m (l :: _) _) None => fun d =>
    match peg_until (rec_seq how (fun _ => None) false (map (fun c => (c_name c, rec_piece how (peg_skip []) c)) l)) d with
    | Some (w, r) => Some (Node m 0 [([], w)], r)
    | None => None
    end
  | _ => fun _ => None
  end
with rec_of (how : repeating) (g : grammar) : peg ast :=
  let 'Grammar root chs := g in
  rec_token how (peg_skip (map (fun c => let 'Channel t _ := c in rec_token how (peg_skip []) t) chs)) root.

(** The grammars this is about: as in [peg_grammar], but a token may refer to itself in its own lines, after a
    required element. *)
Definition rec_ok (t : token) (e : econtent) : Prop :=
  match e with
  | ERecursive n => n = t_name t
  | _ => peg_ok e
  end.

Definition rec_root (root : token) : Prop :=
  (forall t u v, within root t -> child t u -> within u v -> t_name v <> t_name t) /\
  (forall t l, within root t -> In l (t_lines t) -> compatible l) /\
  every_container card_ok root /\
  (forall t l e min max, within root t -> In l (t_lines t) -> In (CElement e min max) l -> rec_ok t e) /\
  (forall t l, within root t -> In l (t_lines t) -> guarded_line l).

Definition rec_grammar (g : grammar) : Prop :=
  forall root chs, uses g (Grammar root chs) ->
  rec_root root /\
  forall t cond, In (Channel t cond) chs -> cond = None /\ every_container plain_container t.

(** At most one recursive reference in each line, at most once. *)
Definition linear_line (l : list container) : Prop :=
  (forall n min max, In (CElement (ERecursive n) min max) l -> max = Some 1%Z) /\
  forall l1 l2 l3 n min max n' min' max',
    l <> l1 ++ CElement (ERecursive n) min max :: l2 ++ CElement (ERecursive n') min' max' :: l3.
Definition linear (g : grammar) : Prop :=
  forall root chs t l, uses g (Grammar root chs) -> within root t -> In l (t_lines t) -> linear_line l.

(** ** Lines that come too late *)
(** No externals in the grammar and its channels. *)
Definition no_external (g : grammar) : Prop :=
  forall root chs, uses g (Grammar root chs) ->
    every_container (fun c => match c with CElement (EExternal _ _) _ _ => False | _ => True end) root.

(** No token is used inside a token of the same name. *)
Definition distinct_names (g : grammar) : Prop :=
  forall root chs t u v, uses g (Grammar root chs) -> within root t -> child t u -> within u v -> t_name v <> t_name t.

(** The line starts with the given values, and then refers to the token of the name [n]. *)
Definition refers_after (pre : list container) (n : bytes) (min : Z) (max : option Z) (l : list container) : Prop :=
  Forall value_container pre /\ exists rest, l = pre ++ CElement (ERecursive n) min max :: rest.

(** The line [j] of the token refers to another token than its own, after values after which an earlier line of the
    token refers to the same one. *)
Definition too_late (t : token) (j : nat) : Prop :=
  exists i l l' pre n min max min' max',
    i < j /\ nth_error (t_lines t) i = Some l /\ nth_error (t_lines t) j = Some l' /\ n <> t_name t /\
    refers_after pre n min max l /\ (forall m, max = Some m -> (1 <= m)%Z) /\
    refers_after pre n min' max' l' /\ (1 <= min' < two63)%Z.
