(** Model of libs/asts: Compose, Coverages, Covered, Uncovered, and Fetch of trees. *)
From Coq Require Import List ZArith Bool.
From Coq Require Import Init.Byte Strings.Byte.
From Verif Require Import Base AstModel.
Import ListNotations.

(** ** Compose *)
(** application.go:98-110 (composeCompose). [int(Occurences())] of 2^63 or more is negative: no byte.
    Running out of memory is not modelled. *)
Definition compose_bytes (l : list (byte * Z)) : bytes :=
  flat_map (fun x => repeat (fst x) (Z.to_nat (i64 (snd x)))) l.

(** application.go:79-93: the containers of the line. *)
Fixpoint compose_line (l : list container) : outcome bytes :=
  match l with
  | [] => Ok []
  | CElement _ _ _ :: _ => Err
  | CCompose _ vs :: l' => do r <- compose_line l'; Ok (compose_bytes vs ++ r)
  end.

(** application.go:71-96 (Compose). [lines[0]] panics without a line (no builder makes such a token). *)
Definition compose (t : token) : outcome bytes :=
  match t_lines t with
  | [] => Panic
  | [l] => compose_line l
  | _ => Err
  end.

(** ** Coverages *)
(** coverages/coverage.go, executions.go, execution.go, result.go: the suites of a token, each with the
    tree of its content, or [None] for an error (the message is not modelled). *)
Inductive coverage : Type := Coverage (t : token) (executions : list (suite * option tree)).

Definition cv_token (c : coverage) : token := let 'Coverage t _ := c in t.
Definition cv_executions (c : coverage) : list (suite * option tree) := let 'Coverage _ e := c in e.

Section Coverages.
  (** The bound given to the parser for each suite. *)
  Variable fuel : nat.

  (** application.go:317-343 (coverageTokenSuite): an error of the parser is a result. *)
  Definition suite_run (t : token) (chs : list channel) (s : suite) : outcome (suite * option tree) :=
    let 'Suite _ vs := s in
    match snd (token_run fuel t [] None chs false [] (compose_bytes vs)) with
    | Ok tr => Ok (s, Some tr)
    | Err => Ok (s, None)
    | Panic => Panic
    | Fuel => Fuel
    end.

  (** application.go:216-230 *)
  Fixpoint suites_run (t : token) (chs : list channel) (l : list suite) : outcome (list (suite * option tree)) :=
    match l with
    | [] => Ok []
    | s :: l' => do x <- suite_run t chs s; do r <- suites_run t chs l'; Ok (x :: r)
    end.

  (** application.go:206-315 (coveragesToken) and 118-152 (Coverages). The skip map is shared: it is
      threaded through. A nil Coverages is the empty list. *)
  Fixpoint cov_token (t : token) (chs : list channel) (skip : list bytes) {struct t} : outcome (list coverage * list bytes) :=
    let 'Token n ls su := t in
    if existsb (bytes_eqb n) skip then Ok ([], skip)
    else
      do ex <- suites_run t chs su;
      do r <- (fix lines (ls : list (list container)) (skip : list bytes) : outcome (list coverage * list bytes) :=
        match ls with
        | [] => Ok ([], skip)
        | l :: ls' =>
          do a <- (fix line (l : list container) (skip : list bytes) : outcome (list coverage * list bytes) :=
            match l with
            | [] => Ok ([], skip)
            | c :: l' =>
              do x <- cov_container c chs skip;
              do y <- line l' (snd x);
              Ok (fst x ++ fst y, snd y)
            end) l skip;
          do b <- lines ls' (snd a);
          Ok (fst a ++ fst b, snd b)
        end) ls (n :: skip);
      Ok (fst r ++ match ex with [] => [] | _ => [Coverage t ex] end, snd r)
  with cov_container (c : container) (chs : list channel) (skip : list bytes) {struct c} : outcome (list coverage * list bytes) :=
    match c with
    | CCompose _ _ => Ok ([], skip)
    | CElement e _ _ => cov_content e chs skip
    end
  with cov_content (e : econtent) (chs : list channel) (skip : list bytes) {struct e} : outcome (list coverage * list bytes) :=
    match e with
    | EValue _ _ => Ok ([], skip)
    | ERecursive _ => Ok ([], skip)
    | EExternal _ g => do x <- coverages g; Ok (x, skip)
    | EToken u => cov_token u chs skip
    | EEverything _ u esc =>
      do x <- cov_token u chs skip;
      match esc with
      | None => Ok x
      | Some e' => do y <- cov_token e' chs (snd x); Ok (fst x ++ fst y, snd y)
      end
    end
  with coverages (g : grammar) {struct g} : outcome (list coverage) :=
    let 'Grammar root chs := g in
    do r <- cov_token root chs [];
    do c <- (fix over (l : list channel) (skip : list bytes) : outcome (list coverage) :=
      match l with
      | [] => Ok []
      | Channel t _ :: l' =>
        do x <- cov_token t [] skip;
        do y <- over l' (snd x);
        Ok (fst x ++ y)
      end) chs (snd r);
    Ok (c ++ fst r).

  (** ** Covered and Uncovered *)
  (** map[string]map[uint]map[uint]string: token name, line index, element index. The inner maps of a
      result are never empty, so one map with these keys is the same. *)
  Definition key : Type := (bytes * nat * nat)%type.
  Definition key_eqb (a b : key) : bool :=
    let '(n, i, j) := a in let '(m, k, l) := b in bytes_eqb n m && Nat.eqb i k && Nat.eqb j l.
  Definition cmap : Type := list (key * bytes).

  Fixpoint cget (m : cmap) (k : key) : option bytes :=
    match m with
    | [] => None
    | (k', v) :: m' => if key_eqb k' k then Some v else cget m' k
    end.

  (** application.go:478-481: only when it is not there yet. *)
  Definition put_first (m : cmap) (k : key) (v : bytes) : cmap :=
    match cget m k with Some _ => m | None => (k, v) :: m end.

  (** application.go:389: overwrites. *)
  Definition put_last (m : cmap) (k : key) (v : bytes) : cmap :=
    (k, v) :: filter (fun x => negb (key_eqb (fst x) k)) m.

  (** application.go:456-499 (findCoveraredElementsFromBlock). *)
  Fixpoint seen_tree (name : bytes) (t : tree) (m : cmap) {struct t} : cmap :=
    let 'Tree _ b _ _ := t in
    (fix first (b : list tline) : cmap :=
      match b with
      | [] => m
      | l :: b' => if line_ok l then seen_line name l m else first b'
      end) b
  with seen_line (name : bytes) (l : tline) (m : cmap) {struct l} : cmap :=
    let 'TLine i _ _ es := l in
    (fix go (es : list telement) (j : nat) (m : cmap) : cmap :=
      match es with
      | [] => m
      | e :: es' => go es' (S j) (seen_element name i j e m)
      end) es 0 m
  with seen_element (name : bytes) (i j : nat) (e : telement) (m : cmap) {struct e} : cmap :=
    let 'TElement g cs := e in
    match g with
    | None => m
    | Some c =>
      (fix go (cs : list tcontent) (m : cmap) : cmap :=
        match cs with
        | [] => m
        | x :: cs' => go cs' (seen_content (c_name c) x m)
        end) cs (put_first m (name, i, j) (c_name c))
    end
  with seen_content (name : bytes) (x : tcontent) (m : cmap) {struct x} : cmap :=
    match x with
    | TValue _ _ => m
    | TTree t => seen_tree name t m
    end.

  (** application.go:434-454 (findCoveraredElements), 155-163 (Covered). A nil Coverages panics. *)
  Definition covered (l : list coverage) : outcome cmap :=
    match l with
    | [] => Panic
    | _ => Ok (fold_left (fun m c =>
             fold_left (fun m x => match snd x with Some t => seen_tree (t_name (cv_token c)) t m | None => m end)
               (cv_executions c) m) l [])
    end.

  (** application.go:367-432 (findElementsFromToken), 345-365 (findElements). *)
  Fixpoint all_token (t : token) (m : cmap) {struct t} : cmap :=
    let 'Token n ls _ := t in
    (fix lines (ls : list (list container)) (i : nat) (m : cmap) : cmap :=
      match ls with
      | [] => m
      | l :: ls' =>
        lines ls' (S i) ((fix line (l : list container) (j : nat) (m : cmap) : cmap :=
          match l with
          | [] => m
          | c :: l' => line l' (S j) (all_container n i j c m)
          end) l 0 m)
      end) ls 0 m
  with all_container (n : bytes) (i j : nat) (c : container) (m : cmap) {struct c} : cmap :=
    match c with
    | CCompose _ _ => m
    | CElement e _ _ => all_content e (put_last m (n, i, j) (e_name e))
    end
  with all_content (e : econtent) (m : cmap) {struct e} : cmap :=
    match e with
    | EValue _ _ => m
    | ERecursive _ => m
    | EExternal _ g => all_grammar g m
    | EToken u => all_token u m
    | EEverything _ u esc =>
      match esc with
      | None => all_token u m
      | Some e' => all_token e' (all_token u m)
      end
    end
  with all_grammar (g : grammar) (m : cmap) {struct g} : cmap :=
    let 'Grammar root chs := g in
    (fix over (l : list channel) (m : cmap) : cmap :=
      match l with
      | [] => m
      | Channel t _ :: l' => over l' (all_token t m)
      end) chs (all_token root m).

  (** application.go:166-204 (Uncovered). The order of the entries is not observable. *)
  Definition uncovered (g : grammar) : outcome cmap :=
    do l <- coverages g;
    do m <- covered l;
    Ok (filter (fun x => match cget m (fst x) with Some _ => false | None => true end) (all_grammar g [])).
End Coverages.

(** ** Fetch *)
(** What Fetch returns: a tree or an element. *)
Inductive fetched : Type := FTree (t : tree) | FElement (e : telement).

(** trees/tree.go:66-99 and trees/element.go:41-70 (Fetch); an error is [None]. *)
Fixpoint fetch_tree (name : bytes) (index : nat) (t : tree) {struct t} : option fetched :=
  let 'Tree g b _ _ := t in
  if bytes_eqb (t_name g) name then Some (FTree t)
  else (fix first (b : list tline) : option fetched :=
    match b with
    | [] => None
    | l :: b' => if line_ok l then fetch_line name index l else first b'
    end) b
with fetch_line (name : bytes) (index : nat) (l : tline) {struct l} : option fetched :=
  let 'TLine _ _ _ es := l in
  (fix go (es : list telement) (cpt : nat) : option fetched :=
    match es with
    | [] => None
    | e :: es' =>
      match fetch_el name index e with
      | None => go es' cpt
      | Some x => if index <=? cpt then Some x else go es' (S cpt)
      end
    end) es 0
with fetch_el (name : bytes) (index : nat) (e : telement) {struct e} : option fetched :=
  let 'TElement g cs := e in
  if match g with Some c => bytes_eqb (c_name c) name | None => false end then Some (FElement e)
  else (fix go (cs : list tcontent) : option fetched :=
    match cs with
    | [] => None
    | x :: cs' => match fetch_content name index x with Some r => Some r | None => go cs' end
    end) cs
with fetch_content (name : bytes) (index : nat) (x : tcontent) {struct x} : option fetched :=
  match x with
  | TValue _ _ => None
  | TTree t => fetch_tree name index t
  end.
