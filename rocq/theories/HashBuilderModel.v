(** The hash tree builder with its memory: libs/cryptography/domain/hashtrees/builder.go. *)
From Coq Require Import List ZArith NArith Lia Bool.
From Coq Require Import Init.Byte Strings.Byte.
From Verif Require Import Base HashModel HashTreeModel.
Import ListNotations.

(** Arrays of blocks in memory, and slices of them: array number, offset and length. The capacity of a
    slice reaches to the end of the array. The bytes inside a block are not shared here. *)
Definition arrays : Type := list (list bytes).
Record slice : Type := Slice { sl_arr : nat; sl_off : nat; sl_len : nat }.
Definition arr_at (m : arrays) (i : nat) : list bytes := nth i m [].
Definition sl_blocks (m : arrays) (s : slice) : list bytes :=
  firstn (sl_len s) (skipn (sl_off s) (arr_at m (sl_arr s))).
Definition list_set {A} (l : list A) (i : nat) (x : A) : list A := firstn i l ++ x :: skipn (S i) l.

(** Go's append of one block: in place if the capacity allows it, into a new array otherwise.
    The new array has no spare room here; Go may leave some, which nobody else can see. *)
Definition append_block (m : arrays) (s : slice) (b : bytes) : arrays * slice :=
  let a := arr_at m (sl_arr s) in
  let e := sl_off s + sl_len s in
  if e <? length a
  then (list_set m (sl_arr s) (list_set a e b), Slice (sl_arr s) (sl_off s) (S (sl_len s)))
  else (m ++ [sl_blocks m s ++ [b]], Slice (length m) 0 (S (sl_len s))).

(** builder.go:11-19: the fields; [None] is nil. *)
Record tree_builder : Type := TreeBuilder {
  tb_blocks : option slice; tb_head : option bytes; tb_parent : option (leaf * leaf) }.

(** builder.go:22-46 (createBuilder and Create). *)
Definition tb_new : tree_builder := TreeBuilder None None None.
(** builder.go:49-52 (WithBlocks), 55-58 (WithHead), 61-64 (WithParent). *)
Definition tb_with_blocks (b : tree_builder) (s : option slice) : tree_builder :=
  TreeBuilder s (tb_head b) (tb_parent b).
Definition tb_with_head (b : tree_builder) (h : bytes) : tree_builder :=
  TreeBuilder (tb_blocks b) (Some h) (tb_parent b).
Definition tb_with_parent (b : tree_builder) (p : option (leaf * leaf)) : tree_builder :=
  TreeBuilder (tb_blocks b) (tb_head b) p.

Section WithSha.
  Variable H : bytes -> bytes.

  (** builder.go:82-123: the rest of Now, from the blocks with the one appended. *)
  Definition tree_of_blocks (bs : list bytes) : outcome hashtree :=
    let hashes := map (from_bytes H) bs in
    let hashes :=
      if is_power_of_two (length hashes) then hashes
      else hashes ++ repeat (from_bytes H []) (next_power (length hashes) - length hashes) in
    do ls <- leaves_now (map LHead hashes);
    leaves_ht H ls.

  (** builder.go:67-124 (Now). *)
  Definition tb_now (m : arrays) (b : tree_builder) : arrays * tree_builder * outcome hashtree :=
    match tb_head b, tb_parent b with
    | Some h, Some (l, r) => (m, b, Ok (HashTree h l r))
    | _, _ =>
      match tb_blocks b with
      | None => (m, b, Err)
      | Some s =>
        let '(m', s') := if sl_len s <=? 1 then append_block m s [] else (m, s) in
        (m', tb_with_blocks b (Some s'), tree_of_blocks (sl_blocks m' s'))
      end
    end.
End WithSha.
