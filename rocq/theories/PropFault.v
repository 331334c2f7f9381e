(** Property theorems for the bytes on which the decoders of a database fail (C181). *)
From Coq Require Import List ZArith NArith Lia Bool.
From Coq Require Import Init.Byte Strings.Byte.
From Verif Require Import Base BaseLemmas HashModel HashTreeModel RefModel SpecCanon SpecFault RefFaultProofs PropHash PropRef.
Import ListNotations.

(** *** C181 *)
(** The decoders of a single pointer, key and content refuse with an error whatever they do not accept. *)
Theorem C181_items_never_panic : forall H s,
  (pointer_of_content s = Err \/ exists p, pointer_of_content s = Ok p) /\
  (key_of_content H s = Err \/ exists k, key_of_content H s = Ok k) /\
  (content_of_content H s = Err \/ exists c, content_of_content H s = Ok c).
Proof.
  intros H s. destruct (C15_database_decoding_terminates H x00 s) as (_ & _ & T1 & T2 & _).
  pose proof (pointer_decides s). pose proof (key_decides H s). repeat split.
  - destruct (pointer_of_content s); eauto; congruence.
  - destruct (key_of_content H s); eauto; congruence.
  - destruct (Z.lt_ge_cases (s_len s) 73) as [S|S]; [left; now apply content_short|right; now apply content_long].
Qed.
Print Assumptions C181_items_never_panic.

(** Inputs that are too short, or of another size where the size is fixed, are refused with an error. *)
Theorem C181_short_inputs_are_errors : forall H mv v behind, let s := GSlice v behind in
  (length v <> 16 -> pointer_of_content s = Err) /\ (length v <> 152 -> key_of_content H s = Err) /\
  (length v < 73 -> content_of_content H s = Err) /\ (length v < 81 -> contents_of_content H s = Err) /\
  (length v < 160 -> keys_of_content H s = Err) /\ (length v < 208 -> commit_of_content H mv s = Err) /\
  (length v < 216 -> commits_of_content H mv s = Err) /\ (length v < 360 -> reference_of_content H mv s = Err).
Proof.
  intros H mv v behind s.
  assert (Lt : forall n m, length v < n -> m = Z.of_nat n -> (s_len s <? m)%Z = true).
  { intros n m L ->. apply Z.ltb_lt. unfold s_len, zlen, s. cbn [vis]. lia. }
  assert (Ne : forall n m, length v <> n -> m = Z.of_nat n -> (s_len s =? m)%Z = false).
  { intros n m L ->. apply Z.eqb_neq. unfold s_len, zlen, s. cbn [vis]. lia. }
  repeat split; intros L.
  - unfold pointer_of_content. now rewrite (Ne 16).
  - unfold key_of_content. now rewrite (Ne 152).
  - unfold content_of_content. now rewrite (Lt 73).
  - unfold contents_of_content. now rewrite (Lt 81).
  - unfold keys_of_content. now rewrite (Lt 160).
  - unfold commit_of_content. now rewrite (Lt 208).
  - unfold commits_of_content. now rewrite (Lt 216).
  - unfold reference_of_content. now rewrite (Lt 360).
Qed.
Print Assumptions C181_short_inputs_are_errors.

(** Building from nothing is an error: a content without data, a pointer without length, and empty lists. *)
Theorem C181_building_from_nothing_is_an_error : forall h kind from,
  content_now h [] kind = Err /\ pointer_now from 0 = Err /\ contents_now [] = Err /\ keys_now [] = Err /\ commits_now [] = Err.
Proof. intros. repeat split. Qed.
Print Assumptions C181_building_from_nothing_is_an_error.

(** Leaves of hash trees and hash trees, of any depth. *)
Theorem C181_trees_panic_exactly : forall H v behind, (zlen (v ++ behind) < two63)%Z ->
  (leaf_of_content H (GSlice v behind) = Panic <-> leaf_fault v behind) /\
  (ht_of_content H (GSlice v behind) = Panic <-> exists h w, v = h ++ w /\ length h = 64 /\ pair_fault w behind) /\
  ((exists l, leaf_of_content H (GSlice v behind) = Ok l) <-> leaf_bytes v).
Proof.
  intros H v behind L. assert (F : length (v ++ behind) < slice_fuel (GSlice v behind)).
  { unfold slice_fuel. cbn [vis ext]. rewrite app_length. lia. }
  split; [|split].
  - exact (leaf_panics H _ v behind F L).
  - exact (tree_panics H v behind L).
  - apply (leaf_accepted H _ v behind F). rewrite zlen_app in L. pose proof (zlen_nonneg behind). lia.
Qed.
Print Assumptions C181_trees_panic_exactly.

(** Contents: the input has the minimal size, and behind some complete contents lies one that cannot be cut out. *)
Theorem C181_contents_panic_exactly : forall H v behind, (zlen (v ++ behind) < two63)%Z ->
  (contents_of_content H (GSlice v behind) = Panic <->
   81 <= length v /\ exists parts rest, v = counted parts ++ rest /\
     Forall (fun p => 73 <= length p) parts /\ trips 73 rest behind).
Proof. exact contents_panics. Qed.
Print Assumptions C181_contents_panic_exactly.

(** Keys: more are announced than the backing array holds, and all that it holds have a pointer to something. *)
Theorem C181_keys_panic_exactly : forall H v behind,
  (keys_of_content H (GSlice v behind) = Panic <->
   160 <= length v /\ exists n ks rest, v ++ behind = put_u64 n ++ concat ks ++ rest /\
     Forall (fun k => length k = 152 /\ (0 < unle (firstn 8 (skipn 80 k)))%Z) ks /\ (zlen ks < n < two63)%Z /\ length rest < 152).
Proof. exact keys_panics. Qed.
Print Assumptions C181_keys_panic_exactly.

(** A commit: its values are announced longer than the backing array, or they make their decoder panic,
    or they are accepted but end behind the input, or a proof follows that ends behind the input. *)
Theorem C181_commit_panics_exactly : forall H mv v behind, (zlen (v ++ behind) < two63)%Z ->
  (commit_of_content H mv (GSlice v behind) = Panic <->
   208 <= length v /\
   let n := unle (firstn 8 (skipn 8 v)) in
   ((zlen (v ++ behind) - 16 < n)%Z \/
    (n <= zlen (v ++ behind) - 16)%Z /\
    let values := ht_of_content H (GSlice (firstn (Z.to_nat n) (skipn 16 (v ++ behind))) (skipn (Z.to_nat (16 + n)) (v ++ behind))) in
    (values = Panic \/
     ((exists t, values = Ok t) /\ ((zlen v - 16 < n)%Z \/ (n <= zlen v - 16)%Z /\ short_proof (skipn (Z.to_nat (16 + n)) v)))))).
Proof. exact commit_panics. Qed.
Print Assumptions C181_commit_panics_exactly.

(** Commits: behind some accepted commits lies one that cannot be cut out or makes its decoder panic. *)
Theorem C181_commits_panic_exactly : forall H mv v behind, (zlen (v ++ behind) < two63)%Z ->
  (commits_of_content H mv (GSlice v behind) = Panic <->
   216 <= length v /\ exists parts l rest, v = counted parts ++ rest /\
     Forall2 (fun q c => commit_of_content H mv (GSlice q []) = Ok c) parts l /\ trips_on (commit_of_content H mv) rest behind).
Proof. exact commits_panics. Qed.
Print Assumptions C181_commits_panic_exactly.

(** A reference: one of its two lengths is so large that an int64 overflows, or its keys or commits make their decoder panic,
    or there are no eight bytes for the length of the commits. *)
Theorem C181_reference_panics_exactly : forall H mv v behind, (zlen (v ++ behind) < two63)%Z ->
  (reference_of_content H mv (GSlice v behind) = Panic <->
   360 <= length v /\
   let n := unle (firstn 8 v) in
   ((two63 - 8 <= n)%Z \/
    (n <= zlen v - 8)%Z /\
    let keys := keys_of_content H (GSlice (firstn (Z.to_nat n) (skipn 8 v)) (skipn (Z.to_nat (8 + n)) (v ++ behind))) in
    (keys = Panic \/
     (exists l, keys = Ok l) /\
     let rest := skipn (Z.to_nat (8 + n)) v in
     (length (rest ++ behind) < 8 \/
      8 <= length (rest ++ behind) /\
      let m := unle (firstn 8 (rest ++ behind)) in
      ((two63 - (zlen v - zlen rest) - 8 <= m <= two64 + (zlen rest - 8))%Z \/
       (m <= zlen rest - 8)%Z /\
       commits_of_content H mv (GSlice (firstn (Z.to_nat m) (skipn 8 rest)) (skipn (Z.to_nat (8 + m)) (rest ++ behind))) = Panic))))).
Proof. exact reference_panics. Qed.
Print Assumptions C181_reference_panics_exactly.

(** A pointer of no length is refused. A content followed by a cut one panics; the same bytes do not if the length says less than a content. *)
Example C181_example_items :
  pointer_of_content (sl (put_u64 5 ++ put_u64 0)) = Err /\ pointer_of_content (sl (put_u64 5 ++ put_u64 1)) = Ok (Pointer 5 1) /\
  key_of_content toy_sha (sl (repeat x00 152)) = Err.
Proof. repeat split; vm_compute; reflexivity. Qed.

(** The right leaf of a tree announces a left leaf of one byte too many; then one byte too few, which is no leaf. *)
Example C181_example_trees :
  let h := repeat x01 64 in
  let v n := h ++ put_u64 64 ++ h ++ h ++ put_u64 n ++ h ++ h in
  leaf_fault (v 129%Z) [] /\ leaf_of_content toy_sha (sl (v 129%Z)) = Panic /\ leaf_of_content toy_sha (sl (v 63%Z)) = Err /\
  leaf_bytes (v 64%Z) /\ ht_of_content toy_sha (sl (v 129%Z)) = Panic.
Proof.
  cbv zeta. assert (A : leaf_of_content toy_sha (sl (repeat x01 64 ++ put_u64 64 ++ repeat x01 64 ++ repeat x01 64 ++ put_u64 129 ++ repeat x01 64 ++ repeat x01 64)) = Panic)
    by (vm_compute; reflexivity).
  split; [|split; [exact A|split; [|split]]].
  - apply (C181_trees_panic_exactly toy_sha); [vm_compute; reflexivity|exact A].
  - vm_compute. reflexivity.
  - apply (lb_node (repeat x01 64) (repeat x01 64)); [reflexivity|apply lb_head; reflexivity|].
    apply (lb_node (repeat x01 64) (repeat x01 64) (repeat x01 64)); [reflexivity| |]; apply lb_head; reflexivity.
  - vm_compute. reflexivity.
Qed.

Example C181_example_contents :
  let one := repeat x01 73 in
  contents_of_content toy_sha (sl (counted [one] ++ put_u64 80 ++ one)) = Panic /\
  contents_of_content toy_sha (sl (counted [one] ++ put_u64 72 ++ one)) = Err /\
  contents_of_content toy_sha (sl (counted [one] ++ [x01])) = Panic /\
  contents_of_content toy_sha (sl (counted [one; one])) = Ok [Content (repeat x01 64) [x01] (unle (repeat x01 8)); Content (repeat x01 64) [x01] (unle (repeat x01 8))].
Proof. repeat split; vm_compute; reflexivity. Qed.

Example C181_example_keys :
  let one := key_content (ContentKey (repeat x01 64) 3 (Pointer 0 1) (repeat x02 64)) in
  keys_of_content toy_sha (GSlice (put_u64 3 ++ one) (one ++ [x01])) = Panic /\
  keys_of_content toy_sha (GSlice (put_u64 3 ++ one) (repeat x00 152)) = Err.
Proof. repeat split; vm_compute; reflexivity. Qed.

Example C181_example_commits :
  let c := commit_content (commit_now toy_sha x00 ex_tree 5 None None) in
  commit_of_content toy_sha x00 (sl (c ++ [x00; x01])) = Panic /\
  (exists d, commit_of_content toy_sha x00 (sl (c ++ [x01; x01])) = Ok d) /\
  commits_of_content toy_sha x00 (sl (counted [c] ++ put_u64 3000 ++ c)) = Panic /\
  commits_of_content toy_sha x00 (sl (counted [c] ++ put_u64 3 ++ c)) = Err.
Proof. split; [|split; [|split]]; try (vm_compute; reflexivity). eexists. vm_compute. reflexivity. Qed.

Example C181_example_reference :
  let c := commit_content (commit_now toy_sha x00 ex_tree 5 None None) in
  let k := put_u64 1 ++ key_content (ContentKey (repeat x01 64) 3 (Pointer 0 1) (repeat x02 64)) in
  reference_of_content toy_sha x00 (sl (counted [k; counted [c]])) =
    Ok (Reference [ContentKey (repeat x01 64) 3 (Pointer 0 1) (repeat x02 64)] [commit_now toy_sha x00 ex_tree 5 None None]) /\
  reference_of_content toy_sha x00 (sl (counted [k; counted [c ++ [x00]]])) = Panic /\
  reference_of_content toy_sha x00 (sl (counted [k] ++ put_u64 (-1) ++ counted [c])) = Panic /\
  reference_of_content toy_sha x00 (sl (counted [k] ++ put_u64 3000 ++ counted [c])) = Err.
Proof. repeat split; vm_compute; reflexivity. Qed.
