(** Changing the names, the bytes and the test suites of a grammar throughout. *)
From Coq Require Import List ZArith Bool.
From Coq Require Import Init.Byte Strings.Byte.
From Verif Require Import Base AstModel.
Import ListNotations.

Section Map.
  (** New names, new bytes, new suites. *)
  Variable fn : bytes -> bytes.
  Variable fb : byte -> byte.
  Variable fs : list suite -> list suite.

  Fixpoint map_token (t : token) : token :=
    let 'Token n ls su := t in Token (fn n) (map (map map_container) ls) (fs su)
  with map_container (c : container) : container :=
    match c with
    | CElement e min max => CElement (map_content e) min max
    | CCompose n vs => CCompose (fn n) (map (fun x => (fb (fst x), snd x)) vs)
    end
  with map_content (e : econtent) : econtent :=
    match e with
    | EValue n b => EValue (fn n) (fb b)
    | EExternal n g => EExternal (fn n) (map_grammar g)
    | EToken t => EToken (map_token t)
    | EEverything n t esc => EEverything (fn n) (map_token t) (match esc with Some u => Some (map_token u) | None => None end)
    | ERecursive n => ERecursive (fn n)
    end
  with map_grammar (g : grammar) : grammar :=
    let 'Grammar root chs := g in Grammar (map_token root) (map map_channel chs)
  with map_channel (c : channel) : channel :=
    let 'Channel t cond := c in
    Channel (map_token t)
      match cond with
      | None => None
      | Some (a, b) => Some (match a with Some u => Some (map_token u) | None => None end,
                             match b with Some u => Some (map_token u) | None => None end)
      end.

  Fixpoint map_tree (t : tree) : tree :=
    let 'Tree g b s r := t in Tree (map_token g) (map map_tline b) (map map_tree s) (map fb r)
  with map_tline (l : tline) : tline :=
    let 'TLine i g r es := l in TLine i (map map_container g) r (map map_telement es)
  with map_telement (e : telement) : telement :=
    let 'TElement g cs := e in
    TElement (match g with Some c => Some (map_container c) | None => None end) (map map_tcontent cs)
  with map_tcontent (c : tcontent) : tcontent :=
    match c with
    | TValue b p => TValue (fb b) (map map_tree p)
    | TTree t => TTree (map_tree t)
    end.
End Map.

(** The outcome of a function changed throughout. *)
Definition map_outcome {A B} (f : A -> B) (o : outcome A) : outcome B :=
  match o with Ok a => Ok (f a) | Err => Err | Panic => Panic | Fuel => Fuel end.
