(** Where the parts of a parsed tree come from, stated independently of the parser. *)
From Coq Require Import List.
From Verif Require Import Base AstModel SpecAst.
Import ListNotations.

(** The tokens of a grammar: those used by its root, by the roots of its channels, conditions and externals;
    and the root of an external under the name the external has in the line that uses it. *)
Inductive token_of (g : grammar) : token -> Prop :=
| token_used root chs t : uses g (Grammar root chs) -> within root t -> token_of g t
| token_external root chs t l n root' chs' min max :
    uses g (Grammar root chs) -> within root t -> In l (t_lines t) ->
    In (CElement (EExternal n (Grammar root' chs')) min max) l ->
    token_of g (Token n (t_lines root') (t_suites root')).

(** The tokens of the channels of a grammar and of its externals. *)
Definition channel_of (g : grammar) (t : token) : Prop :=
  exists root chs cond, uses g (Grammar root chs) /\ In (Channel t cond) chs.

(** [v] was skipped before a value of [u] or after [u]. *)
Inductive passed_over (u v : tree) : Prop :=
| passed_before l e b p : successful (tr_block u) = Some l -> In e (l_elements l) -> In (TValue b p) (el_contents e) ->
    In v p -> passed_over u v
| passed_after : In v (tr_suffix u) -> passed_over u v.

(** [v] is a match of an element of the line of [u]. *)
Inductive matched (u v : tree) : Prop :=
| matched_in l e : successful (tr_block u) = Some l -> In e (l_elements l) -> In (TTree v) (el_contents e) -> matched u v.
