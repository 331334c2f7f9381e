(** Model of libs/cryptography/domain/hashtrees. *)
From Coq Require Import List ZArith NArith Lia Bool.
From Verif Require Import Base HashModel.
Import ListNotations.

(** Constants of libs/cryptography/domain/hashtrees/sdk.go:7-13. *)
Definition min_leaf_size : Z := 64.
Definition min_parent_leaf : Z := 128.
Definition min_hashtree_size : Z := 192.
Definition min_leaves_size : Z := 80.
Definition min_compact_size : Z := 128.

(** leaf.go:7-28 and parentleaf.go:3-15.
    A leaf has a head and possibly a parent leaf; a parent leaf is a pair of leaves.
    [LNode h l r] is a leaf with head [h] and parent (l, r). *)
Inductive leaf : Type :=
| LHead (head : bytes)
| LNode (head : bytes) (left right : leaf).

(** leaf.go:31-33 (Head). *)
Definition leaf_head (l : leaf) : bytes :=
  match l with LHead h => h | LNode h _ _ => h end.

(** hashtree.go:8-20. The parent is never nil for trees made by the builder. *)
Record hashtree : Type := HashTree { ht_head : bytes; ht_left : leaf; ht_right : leaf }.

(** compact.go:7-19. *)
Record compact : Type := Compact { cp_head : bytes; cp_leaves : list leaf }.

(** leaf.go:46-62 (Height): follow the left parents. *)
Fixpoint leaf_height (l : leaf) : nat :=
  match l with
  | LHead _ => 0
  | LNode _ l _ => S (leaf_height l)
  end.

(** hashtree.go:23-26 (Height). *)
Definition ht_height (t : hashtree) : nat := leaf_height (ht_left t) + 2.

(** compact.go:32-34 (Length). *)
Definition cp_length (c : compact) : nat := length (cp_leaves c).

(** leaves_builder.go:29-39 (Now): the list must not be empty. *)
Definition leaves_now (l : list leaf) : outcome (list leaf) :=
  match l with [] => Err | _ => Ok l end.

(** leaf_adapter.go:57-65 (LeafToLeaves) and 118-130 (ParentLeafToLeaves).
    The intermediate Leaves are fresh, so Merge (leaves.go:26-32) is concatenation.
    The lists are never empty so the builder does not fail. *)
Fixpoint leaf_leaves (l : leaf) : list leaf :=
  match l with
  | LHead h => [LHead h]
  | LNode _ a b => leaf_leaves a ++ leaf_leaves b
  end.

Definition ht_leaves (t : hashtree) : list leaf :=
  leaf_leaves (ht_left t) ++ leaf_leaves (ht_right t).

(** leaf_adapter.go:38-54 (LeafToContent) and 95-115 (ParentLeafToContent). *)
Fixpoint leaf_content (l : leaf) : bytes :=
  match l with
  | LHead h => h
  | LNode h a b =>
    h ++ (put_u64 (zlen (leaf_content a)) ++ leaf_content a ++ leaf_content b)
  end.

Definition parent_content (a b : leaf) : bytes :=
  put_u64 (zlen (leaf_content a)) ++ leaf_content a ++ leaf_content b.

(** adapter.go:34-46 (ToContent). *)
Definition ht_content (t : hashtree) : bytes :=
  ht_head t ++ parent_content (ht_left t) (ht_right t).

(** leaves_adapter.go:38-60 (ToContent). *)
Definition leaves_content (ls : list leaf) : bytes :=
  put_u64 (zlen ls) ++
  concat (map (fun l => put_u64 (zlen (leaf_content l)) ++ leaf_content l) ls).

(** compact_adapter.go:31-42 (ToContent). *)
Definition cp_content (c : compact) : bytes :=
  cp_head c ++ leaves_content (cp_leaves c).

Section WithSha.
  Variable H : bytes -> bytes.

  (** leaf_adapter.go:68-92 (ContentToLeaf) with 150-172 (ContentToParentLeaf) inlined
      in the branch with remaining bytes, because Coq wants one recursive function.
      [fuel] bounds the nesting; the capacity of the slice is always enough. *)
  Fixpoint content_leaf (fuel : nat) (content : gslice) : outcome leaf :=
    match fuel with
    | O => Fuel
    | S fuel' =>
      if (s_len content <? min_leaf_size)%Z then Err
      else
        do hd <- s_slice content 0 64;
        let head := from_bytes H (vis hd) in
        do remaining <- s_from content 64;
        if (0 <? s_len remaining)%Z then
          (* leaf_adapter.go:150-172 *)
          if (s_len remaining <? min_parent_leaf)%Z then Err
          else
            do lb <- s_slice remaining 0 8;
            do n <- get_u64 lb;
            let left_length := i64 n in
            do ls <- s_slice remaining 8 (i64 (8 + left_length));
            do left <- content_leaf fuel' ls;
            do rs <- s_from remaining (i64 (left_length + 8));
            do right <- content_leaf fuel' rs;
            Ok (LNode head left right)
        else Ok (LHead head)
    end.

  (** leaf_adapter.go:150-172 (ContentToParentLeaf), called from adapter.go:61. *)
  Definition content_parent (fuel : nat) (content : gslice) : outcome (leaf * leaf) :=
    if (s_len content <? min_parent_leaf)%Z then Err
    else
      do lb <- s_slice content 0 8;
      do n <- get_u64 lb;
      let left_length := i64 n in
      do ls <- s_slice content 8 (i64 (8 + left_length));
      do left <- content_leaf fuel ls;
      do rs <- s_from content (i64 (left_length + 8));
      do right <- content_leaf fuel rs;
      Ok (left, right).

  (** adapter.go:49-70 (ToHashTree). *)
  Definition content_ht (fuel : nat) (content : gslice) : outcome hashtree :=
    if (s_len content <? min_hashtree_size)%Z then Err
    else
      do hd <- s_slice content 0 64;
      let head := from_bytes H (vis hd) in
      do rest <- s_from content 64;
      do p <- content_parent fuel rest;
      Ok (HashTree head (fst p) (snd p)).

  (** Enough fuel for any slice: one more than its capacity. *)
  Definition slice_fuel (s : gslice) : nat := S (length (vis s) + length (ext s)).

  Definition leaf_of_content (s : gslice) : outcome leaf := content_leaf (slice_fuel s) s.
  Definition ht_of_content (s : gslice) : outcome hashtree := content_ht (slice_fuel s) s.

  (** leaves_adapter.go:73-86: the loop of ToLeaves.
      [n] is the number of iterations left, [last] is lastEndsOn. *)
  Fixpoint content_leaves_loop (n : nat) (content : gslice) (last : Z) : outcome (list leaf) :=
    match n with
    | O => Ok []
    | S n' =>
      do lb <- s_slice content last (i64 (last + 8));
      do z <- get_u64 lb;
      let ends := i64 (i64 (last + 8) + i64 z) in
      do ls <- s_slice content (i64 (last + 8)) ends;
      do l <- leaf_of_content ls;
      do rest <- content_leaves_loop n' content ends;
      Ok (l :: rest)
    end.

  (** leaves_adapter.go:63-89 (ToLeaves). The loop count is read from the bytes;
      every iteration advances by at least 72 bytes or stops, so that
      capacity-many iterations are always enough: the count is clipped
      to capacity + 1 (the extra iteration panics as in Go). *)
  Definition content_leaves (content : gslice) : outcome (list leaf) :=
    if (s_len content <? min_leaves_size)%Z then Err
    else
      do lb <- s_slice content 0 8;
      do z <- get_u64 lb;
      let n := Z.to_nat (Z.min (i64 z) (s_cap content + 1)) in
      do ls <- content_leaves_loop n content 8;
      leaves_now ls.

  (** compact_adapter.go:45-66 (ToCompact). *)
  Definition content_cp (content : gslice) : outcome compact :=
    if (s_len content <? min_compact_size)%Z then Err
    else
      do hd <- s_slice content 0 64;
      let head := from_bytes H (vis hd) in
      do rest <- s_from content 64;
      do ls <- content_leaves rest;
      Ok (Compact head ls).

  (** leaves_adapter.go:137-150 (createChildLeaf) and leaf_adapter.go:133-147:
      the head over two leaves. *)
  Definition pair_head (a b : leaf) : bytes :=
    from_multi H [leaf_head a; leaf_head b].

  (** leaves_adapter.go:114-135 (createChildrenLeaves):
      [list[index+1]] panics on a list of odd length. *)
  Fixpoint children_leaves (l : list leaf) : outcome (list leaf) :=
    match l with
    | [] => Ok []
    | [_] => Panic
    | a :: b :: l' =>
      do r <- children_leaves l';
      Ok (LNode (pair_head a b) a b :: r)
    end.

  (** leaves_adapter.go:92-112 (ToHashTree). The recursion on an empty list never ends
      in Go, hence [Fuel] whatever the fuel. *)
  Fixpoint leaves_ht_fuel (fuel : nat) (l : list leaf) : outcome hashtree :=
    match fuel with
    | O => Fuel
    | S fuel' =>
      match l with
      | [a; b] => Ok (HashTree (pair_head a b) a b)
      | _ => do c <- children_leaves l; leaves_ht_fuel fuel' c
      end
    end.

  (** The list at least halves, so its length is enough fuel. *)
  Definition leaves_ht (l : list leaf) : outcome hashtree :=
    leaves_ht_fuel (length l) l.

  (** builder.go:93: [(length != 0) && ((length & (length - 1)) == 0)]. *)
  Definition is_power_of_two (n : nat) : bool :=
    let z := N.of_nat n in
    (negb (z =? 0) && (N.land z (z - 1) =? 0))%N.

  (** builder.go:96: [uint(math.Pow(2, math.Ceil(math.Log(n)/math.Log(2))))].
      Simplified: the exact ceiling of the base 2 logarithm instead of floating point. HashFloat.v has the rounded
      computation, and C146 shows that it is the same below 2^42 blocks. *)
  Definition next_power (n : nat) : nat := 2 ^ Nat.log2_up n.

  (** builder.go:73-124 (Now without head and parent). [None] is the nil slice.
      The builder's own [blocks] field is updated by the append.
      Calling Now again on the same builder is in HashBuilderModel.v. *)
  Definition build_tree (blocks : option (list bytes)) : outcome hashtree :=
    match blocks with
    | None => Err
    | Some bs =>
      let bs := if (length bs <=? 1)%nat then bs ++ [[]] else bs in
      let hashes := map (from_bytes H) bs in
      let hashes :=
        if is_power_of_two (length hashes) then hashes
        else hashes ++ repeat (from_bytes H []) (next_power (length hashes) - length hashes) in
      do ls <- leaves_now (map LHead hashes);
      leaves_ht ls
    end.

  (** adapter.go:73-81 (ToLength). *)
  Definition ht_length (t : hashtree) : nat := length (ht_leaves t).

  (** adapter.go:84-95 (ToCompact). *)
  Definition ht_compact (t : hashtree) : compact := Compact (ht_head t) (ht_leaves t).

  (** adapter.go:99-108: the map from hash to data; a later entry replaces an earlier one.
      The key is the hexadecimal text in Go, which is injective on bytes (C03). *)
  Fixpoint order_lookup (mixed : list bytes) (h : bytes) (acc : option bytes) : option bytes :=
    match mixed with
    | [] => acc
    | d :: rest => order_lookup rest h (if bytes_eqb (from_bytes H d) h then Some d else acc)
    end.

  (** adapter.go:110-126: the data found, leaf after leaf. *)
  Fixpoint order_out (mixed : list bytes) (ls : list leaf) : list bytes :=
    match ls with
    | [] => []
    | l :: rest =>
      match order_lookup mixed (leaf_head l) None with
      | Some d => d :: order_out mixed rest
      | None => order_out mixed rest
      end
    end.

  (** adapter.go:98-134 (ToOrder). *)
  Definition ht_order (t : hashtree) (mixed : list bytes) : outcome (list bytes) :=
    let out := order_out mixed (ht_leaves t) in
    if Nat.eqb (length out) (length mixed) then Ok out else Err.
End WithSha.
