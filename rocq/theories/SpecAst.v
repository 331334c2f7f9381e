(** Specification of what a grammar means, independent of the parser. *)
From Coq Require Import List ZArith.
From Coq Require Import Init.Byte.
From Verif Require Import Base AstModel.
Import ListNotations.

(** ** Tokens of a grammar *)
(** [child t u]: token [u] is used in a line of [t], by itself or as exception or escape of an everything. *)
Inductive child (t : token) : token -> Prop :=
| child_token l u min max :
    In l (t_lines t) -> In (CElement (EToken u) min max) l -> child t u
| child_exception l n u e min max :
    In l (t_lines t) -> In (CElement (EEverything n u e) min max) l -> child t u
| child_escape l n u e min max :
    In l (t_lines t) -> In (CElement (EEverything n u (Some e)) min max) l -> child t e.

(** [within r t]: the token [t] is used, directly or not, by the token [r]. *)
Inductive within (r : token) : token -> Prop :=
| within_refl : within r r
| within_step t u : within r t -> child t u -> within r u.

(** ** The language of a grammar *)
(** Bytes between values: any sequence of matches of channel tokens. A token is one of its lines;
    a line is the sequence of its elements, each repeated a number of times allowed by its
    cardinality; a value is its byte, after anything the channels skip; the channels also skip
    bytes after a token. A recursive reference is any token of that name used by the root [r].
    An everything is any non-empty sequence of bytes. An external is its grammar's root, in its
    own scope, and then anything (see C50). Compose containers have no clause: they never match (C49). *)
Inductive lang_token : token -> list channel -> token -> bytes -> Prop :=
| lang_line_of r chs t l w : In l (t_lines t) -> lang_line r chs l w -> lang_token r chs t w
with lang_line : token -> list channel -> list container -> bytes -> Prop :=
| lang_end r chs : lang_line r chs [] []
| lang_cons r chs c min max l n w v :
    (min <= Z.of_nat n)%Z -> (forall m, max = Some m -> (Z.of_nat n <= m)%Z) ->
    lang_times r chs c n w -> lang_line r chs l v ->
    lang_line r chs (CElement c min max :: l) (w ++ v)
with lang_times : token -> list channel -> econtent -> nat -> bytes -> Prop :=
| lang_zero r chs c : lang_times r chs c 0 []
| lang_succ r chs c n w v : lang_content r chs c w -> lang_times r chs c n v -> lang_times r chs c (S n) (w ++ v)
with lang_content : token -> list channel -> econtent -> bytes -> Prop :=
| lang_value r chs n b s : lang_skip chs s -> lang_content r chs (EValue n b) (s ++ [b])
| lang_sub r chs t w s : lang_token r chs t w -> lang_skip chs s -> lang_content r chs (EToken t) (w ++ s)
| lang_recursive r chs t n w s : within r t -> t_name t = n -> lang_token r chs t w -> lang_skip chs s ->
    lang_content r chs (ERecursive n) (w ++ s)
| lang_everything r chs n t e w : w <> [] -> lang_content r chs (EEverything n t e) w
| lang_external r chs n root chs' w v : lang_token root chs' root w ->
    lang_content r chs (EExternal n (Grammar root chs')) (w ++ v)
with lang_skip : list channel -> bytes -> Prop :=
| skip_nothing chs : lang_skip chs []
| skip_channel chs t cond w s : In (Channel t cond) chs -> lang_token t [] t w -> lang_skip chs s ->
    lang_skip chs (w ++ s).

(** The bytes a grammar matches: a derivation of the root, then anything the channels skip. *)
Definition language (g : grammar) (w : bytes) : Prop :=
  let 'Grammar root chs := g in
  exists v s, w = v ++ s /\ lang_token root chs root v /\ lang_skip chs s.

(** ** Trees *)
(** The tree [v] is a part of the tree [t]: it is a content of the successful line of [t], a
    channel tree before a value of that line, or a channel tree after [t]. *)
Inductive part (t : tree) : tree -> Prop :=
| part_content l e v : successful (tr_block t) = Some l -> In e (l_elements l) -> In (TTree v) (el_contents e) -> part t v
| part_prefix l e b p v : successful (tr_block t) = Some l -> In e (l_elements l) -> In (TValue b p) (el_contents e) ->
    In v p -> part t v
| part_suffix v : In v (tr_suffix t) -> part t v.

Inductive nested (t : tree) : tree -> Prop :=
| nested_refl : nested t t
| nested_step u v : part t u -> nested u v -> nested t v.

(** The elements of a tree line are the containers of a grammar line, in order, each with a number
    of contents allowed by its cardinality; containers without contents are left out. *)
Inductive fits : list container -> list telement -> Prop :=
| fits_end : fits [] []
| fits_absent c min max l es : (min <= 0)%Z -> fits l es -> fits (CElement c min max :: l) es
| fits_present c min max l cs es :
    cs <> [] -> (min <= zlen cs)%Z -> (forall m, max = Some m -> (zlen cs <= m)%Z) -> fits l es ->
    fits (CElement c min max :: l) (TElement (Some (CElement c min max)) cs :: es).

(** What the contents of an element are. *)
Definition content_of (c : econtent) (x : tcontent) : Prop :=
  match c, x with
  | EValue _ b, TValue b' _ => b' = b
  | EExternal n (Grammar root _), TTree t => tr_grammar t = Token n (t_lines root) (t_suites root)
  | EToken u, TTree t => tr_grammar t = u
  | EEverything _ u _, TTree t => tr_grammar t = u
  | ERecursive n, TTree t => t_name (tr_grammar t) = n
  | _, _ => False
  end.

(** A tree whose successful line matches the line of its token with the same index, or, in reverse,
    is a list of plain bytes. *)
Definition shaped (t : tree) : Prop :=
  exists l, successful (tr_block t) = Some l /\ nth_error (t_lines (tr_grammar t)) (l_index l) = Some (l_grammar l) /\
    ((l_reverse l = false /\ fits (l_grammar l) (l_elements l) /\
      forall e, In e (l_elements l) -> exists c min max, el_grammar e = Some (CElement c min max) /\
        forall x, In x (el_contents e) -> content_of c x) \/
     (l_reverse l = true /\ exists cs, l_elements l = [TElement None cs] /\ cs <> [] /\
        forall x, In x cs -> exists b, x = TValue b [])).

(** The number of contents of a line that come from recursive references to the name [n]. *)
Definition recursions (n : bytes) (es : list telement) : nat :=
  list_sum (map (fun e => match el_grammar e with
                          | Some (CElement (ERecursive m) _ _) => if bytes_eqb m n then length (el_contents e) else 0
                          | _ => 0
                          end) es).

(** ** Classes of grammars *)
(** Cardinalities are uints, and the minimum fits in an int. *)
Definition card_ok (c : container) : Prop :=
  match c with
  | CElement _ min max => (0 <= min < two63)%Z /\ (forall m, max = Some m -> (0 <= m)%Z)
  | CCompose _ _ => True
  end.

(** No external grammar and no escape. *)
Definition plain_container (c : container) : Prop :=
  match c with
  | CElement (EExternal _ _) _ _ => False
  | CElement (EEverything _ _ (Some _)) _ _ => False
  | _ => True
  end.

Definition every_container (P : container -> Prop) (r : token) : Prop :=
  forall t l c, within r t -> In l (t_lines t) -> In c l -> P c.

(** The grammars used by a grammar: itself, its channel and condition tokens (each parsed as
    a grammar without channels), and the externals of the tokens its root uses. *)
Inductive uses (g : grammar) : grammar -> Prop :=
| uses_refl : uses g g
| uses_external root chs t l n g' min max :
    uses g (Grammar root chs) -> within root t -> In l (t_lines t) -> In (CElement (EExternal n g') min max) l -> uses g g'
| uses_channel root chs t cond :
    uses g (Grammar root chs) -> In (Channel t cond) chs -> uses g (Grammar t [])
| uses_before root chs t b a :
    uses g (Grammar root chs) -> In (Channel t (Some (Some b, a))) chs -> uses g (Grammar b [])
| uses_after root chs t b a :
    uses g (Grammar root chs) -> In (Channel t (Some (b, Some a))) chs -> uses g (Grammar a []).

(** All minimums and maximums of a grammar, its channels and its externals are as in [card_ok]. *)
Definition cards_ok (g : grammar) : Prop :=
  forall root chs, uses g (Grammar root chs) -> every_container card_ok root.

(** The channels of a grammar and of its externals use no externals and no escapes. *)
Definition plain_channels (g : grammar) : Prop :=
  forall root chs t cond, uses g (Grammar root chs) -> In (Channel t cond) chs -> every_container plain_container t.

(** Neither the grammar nor its channels use externals or escapes. *)
Definition plain_grammar (g : grammar) : Prop :=
  let 'Grammar root chs := g in
  every_container plain_container root /\
  forall t cond, In (Channel t cond) chs -> every_container plain_container t.

(** Every recursive reference comes, in its line, after an element with a minimum of at least one. *)
Definition guarded_line (l : list container) : Prop :=
  forall l1 l2 n min max, l = l1 ++ CElement (ERecursive n) min max :: l2 ->
    exists c min' max', In (CElement c min' max') l1 /\ (1 <= min' < two63)%Z.

Definition guarded (g : grammar) : Prop :=
  forall root chs t l, uses g (Grammar root chs) -> within root t -> In l (t_lines t) -> guarded_line l.

(** No recursive reference at all. *)
Definition no_recursion (g : grammar) : Prop :=
  forall root chs, uses g (Grammar root chs) ->
    every_container (fun c => match c with CElement (ERecursive _) _ _ => False | _ => True end) root.

(** No escape anywhere in the grammar, its channels, their conditions, and its externals. *)
Definition no_escape (g : grammar) : Prop :=
  forall root chs, uses g (Grammar root chs) ->
    every_container (fun c => match c with CElement (EEverything _ _ (Some _)) _ _ => False | _ => True end) root.
