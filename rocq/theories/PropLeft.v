(** Property theorems for the parser: lines that start with a reference to their own token (C166). *)
From Coq Require Import List ZArith Lia Bool.
From Coq Require Import Init.Byte Strings.Byte.
From Verif Require Import Base BaseLemmas AstModel SpecAst SpecPeg SpecLeft AstMoreProofs AstLeftProofs.
Import ListNotations.

(** *** C166 *)
(** What a token does one line of which starts with a reference to the token: the lines before it are tried, then, for the
    reference, the lines behind it, but not the line itself again. *)
Theorem C166_left_recursion_as_implemented : forall fuel n before xs after su d,
  3 <= fuel -> Forall (fun l => l <> []) before -> Forall (fun l => l <> []) after ->
  let g := Grammar (Token n (map sequence before ++ reference_then n xs :: map sequence after) su) [] in
  let k := length before in
  (forall j l rest, starts_with before d j l rest -> recognises fuel g d (Node n j (leaves_of l)) rest) /\
  (starts_with_none before d -> forall j l rest, starts_with after d j l rest ->
     (forall r, rest = spelled xs ++ r ->
        recognises fuel g d (Node n k ((n, [Node n (S k + j) (leaves_of l)]) :: leaves_of xs)) r) /\
     ((forall r, rest <> spelled xs ++ r) -> recognises fuel g d (Node n (S k + j) (leaves_of l)) rest)) /\
  (starts_with_none before d -> starts_with_none after d -> execute fuel g d = Err).
Proof.
  intros f n before xs after su d L Fb Fa g k. destruct (left_execute n before after xs su Fb Fa f d L) as (A & B & C).
  fold k in A, B, C. repeat split.
  - intros j l rest F. eexists. split; [exact (A j l rest F)|]. apply ast_of_values. destruct F as (En & _).
    apply nth_error_In in En. rewrite Forall_forall in Fb. now apply Fb.
  - intros r Er. destruct (B H j l rest H0) as (B1 & _). eexists. split; [exact (B1 r Er)|].
    apply ast_of_left. destruct H0 as (En & _). apply nth_error_In in En. rewrite Forall_forall in Fa. now apply Fa.
  - intros Nr. destruct (B H j l rest H0) as (_ & B2). eexists. split; [exact (B2 Nr)|]. apply ast_of_values.
    destruct H0 as (En & _). apply nth_error_In in En. rewrite Forall_forall in Fa. now apply Fa.
  - exact C.
Qed.
Print Assumptions C166_left_recursion_as_implemented.

(** Every number of repetitions is in the language of n := @n xs | ys, but only one is read. *)
Theorem C166_left_recursion_reads_lists_refuted : forall fuel n xs ys su k rest,
  3 <= fuel -> xs <> [] -> ys <> [] ->
  let g := Grammar (Token n [reference_then n xs; sequence ys] su) [] in
  language g (spelled ys ++ times k (spelled xs)) /\
  recognises fuel g (spelled ys ++ times (S k) (spelled xs) ++ rest)
    (Node n 0 ((n, [Node n 1 (leaves_of ys)]) :: leaves_of xs)) (times k (spelled xs) ++ rest).
Proof.
  intros f n xs ys su k rest L Nx Ny g. split.
  - exists (spelled ys ++ times k (spelled xs)), []. rewrite app_nil_r. repeat split; [|constructor].
    exact (left_language n xs ys su k).
  - assert (Fa : Forall (fun l : list (bytes * byte) => l <> []) [ys]) by (constructor; auto).
    destruct (C166_left_recursion_as_implemented f n [] xs [ys] su (spelled ys ++ times (S k) (spelled xs) ++ rest) L (Forall_nil _) Fa) as (_ & B & _).
    refine (proj1 (B _ 0 ys (times (S k) (spelled xs) ++ rest) _) (times k (spelled xs) ++ rest) _).
    + intros l r [].
    + repeat split. intros j l' r Lj. lia.
    + cbn [times]. now rewrite app_assoc.
Qed.
Print Assumptions C166_left_recursion_reads_lists_refuted.

(** e := @e '+' 'a' | 'a' on "a+a+a" leaves "+a". *)
Definition ex_e : grammar :=
  Grammar (Token [x65] [reference_then [x65] [([x2b], x2b); ([x61], x61)]; sequence [([x61], x61)]] []) [].
Example C166_ex : match execute 3 ex_e [x61; x2b; x61; x2b; x61] with
                  | Ok t => tree_bytes true t = [x61; x2b; x61] /\ tr_remaining t = [x2b; x61]
                  | _ => False
                  end.
Proof. vm_compute. auto. Qed.
(** A line before it that matches less is taken. *)
Example C166_ex_before :
  match execute 3 (Grammar (Token [x65] [sequence [([x61], x61)]; reference_then [x65] [([x2b], x2b)]; sequence [([x61], x61); ([x62], x62)]] []) [])
          [x61; x62; x2b] with
  | Ok t => tree_bytes true t = [x61] /\ tr_remaining t = [x62; x2b]
  | _ => False
  end.
Proof. vm_compute. auto. Qed.
