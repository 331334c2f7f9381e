(** Specification of compositions, coverages and fetches, independent of their functions. *)
From Coq Require Import List ZArith.
From Coq Require Import Init.Byte.
From Verif Require Import Base AstModel SpecAst CoverModel.
Import ListNotations.

(** ** Compositions *)
(** A byte and a number of times. *)
Inductive spells : list (byte * Z) -> bytes -> Prop :=
| spells_nil : spells [] []
| spells_cons b n l w w' : (0 <= n)%Z -> length w = Z.to_nat n -> (forall x, In x w -> x = b) -> spells l w' ->
    spells ((b, n) :: l) (w ++ w').

(** The composes of a line, one after the other. *)
Inductive line_spells : list container -> bytes -> Prop :=
| line_spells_nil : line_spells [] []
| line_spells_cons n vs l w w' : spells vs w -> line_spells l w' -> line_spells (CCompose n vs :: l) (w ++ w').

(** Occurrences that fit in an int. *)
Definition small (l : list (byte * Z)) : Prop := forall b n, In (b, n) l -> (0 <= n < two63)%Z.

Definition suite_values (s : suite) : list (byte * Z) := let 'Suite _ vs := s in vs.

(** ** Coverages *)
(** The token [t] is part of the grammar [g], or of a grammar or channel it uses, and is parsed there
    with the channels [chs]. *)
Definition part_of (g : grammar) (t : token) (chs : list channel) : Prop :=
  exists root, uses g (Grammar root chs) /\ within root t.

(** Tokens of the root that have the same name are the same token. *)
Definition names_tell (root : token) : Prop :=
  forall t u, within root t -> within root u -> t_name t = t_name u -> t = u.

(** The result of a suite is the result of the parser on its bytes. *)
Definition execution_of (fuel : nat) (t : token) (chs : list channel) (x : suite * option tree) : Prop :=
  forall w, spells (suite_values (fst x)) w ->
  match snd x with
  | Some tr => execute fuel (Grammar t chs) w = Ok tr
  | None => execute fuel (Grammar t chs) w = Err
  end.

(** No token of the grammar has a suite. *)
Definition no_suites (g : grammar) : Prop := forall t chs, part_of g t chs -> t_suites t = [].

(** The occurrences of all suites fit in an int. *)
Definition small_suites (g : grammar) : Prop :=
  forall t chs s, part_of g t chs -> In s (t_suites t) -> small (suite_values s).

(** The container at a line and position of a token. *)
Definition container_at (t : token) (i j : nat) : option container :=
  match nth_error (t_lines t) i with Some l => nth_error l j | None => None end.

(** No element is optional. *)
Definition no_optional (g : grammar) : Prop :=
  forall root chs, uses g (Grammar root chs) ->
    every_container (fun c => match c with CElement _ min _ => (1 <= min)%Z | CCompose _ _ => True end) root.

(** ** Fetch *)
(** What there is in a tree, in the order of the input: the tree, then for each element of its
    successful line, the element and what there is in the trees it contains. *)
Fixpoint items (t : tree) : list fetched :=
  let 'Tree _ b _ _ := t in
  FTree t ::
  (fix first (b : list tline) : list fetched :=
    match b with
    | [] => []
    | l :: b' => if line_ok l then line_items l else first b'
    end) b
with line_items (l : tline) : list fetched :=
  let 'TLine _ _ _ es := l in flat_map element_items es
with element_items (e : telement) : list fetched :=
  let 'TElement _ cs := e in FElement e :: flat_map content_items cs
with content_items (x : tcontent) : list fetched :=
  match x with
  | TValue _ _ => []
  | TTree t => items t
  end.

Definition has_name (name : bytes) (x : fetched) : bool :=
  match x with
  | FTree t => bytes_eqb (t_name (tr_grammar t)) name
  | FElement e => match el_grammar e with Some c => bytes_eqb (c_name c) name | None => false end
  end.

(** No external grammar anywhere. *)
Definition no_external (g : grammar) : Prop :=
  forall root chs, uses g (Grammar root chs) ->
    every_container (fun c => match c with CElement (EExternal _ _) _ _ => False | _ => True end) root.

(** ** Elements of a grammar *)
(** The tokens of a token: itself, the tokens its lines use, the root and the channels of its externals. *)
Inductive listed : token -> token -> Prop :=
| listed_self t : listed t t
| listed_child t c u : child t c -> listed c u -> listed t u
| listed_external t l n root chs min max u :
    In l (t_lines t) -> In (CElement (EExternal n (Grammar root chs)) min max) l -> listed root u -> listed t u
| listed_channel t l n root chs min max c cond u :
    In l (t_lines t) -> In (CElement (EExternal n (Grammar root chs)) min max) l -> In (Channel c cond) chs ->
    listed c u -> listed t u.

(** The tokens of a grammar: those of its root and of its channels. *)
Definition listed_in (g : grammar) (u : token) : Prop :=
  let 'Grammar root chs := g in listed root u \/ exists c cond, In (Channel c cond) chs /\ listed c u.

(** The element [v] is at position [j] of line [i] of the token [u]. *)
Definition element_at (u : token) (i j : nat) (v : bytes) : Prop :=
  exists e min max, container_at u i j = Some (CElement e min max) /\ e_name e = v.

(** The tree [t], of a token named [name], has an element named [v] at position [j] of its
    successful line, of index [i], or one of its trees does; the trees of an element go by its name. *)
Inductive located : bytes -> tree -> bytes -> nat -> nat -> bytes -> Prop :=
| located_here name t l j e c :
    successful (tr_block t) = Some l -> nth_error (l_elements l) j = Some e -> el_grammar e = Some c ->
    located name t name (l_index l) j (c_name c)
| located_inside name t l e c u n i j v :
    successful (tr_block t) = Some l -> In e (l_elements l) -> el_grammar e = Some c -> In (TTree u) (el_contents e) ->
    located (c_name c) u n i j v -> located name t n i j v.

(** A suite of the coverages has a tree with the element. *)
Definition reached (l : list coverage) (n : bytes) (i j : nat) (v : bytes) : Prop :=
  exists c s t, In c l /\ In (s, Some t) (cv_executions c) /\ located (t_name (cv_token c)) t n i j v.
