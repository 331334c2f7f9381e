(** Property theorems for the bytes that the decoders accept (C150). *)
From Coq Require Import List ZArith NArith Lia Bool.
From Coq Require Import Init.Byte Strings.Byte.
From Verif Require Import Base BaseLemmas HashModel HashProofs SpecHash HashTreeModel HashTreeProofs
  RefModel RefProofs SpecRef SpecCanon RefCanonProofs PropHash PropRef.
Import ListNotations.

(** *** C150 *)
(** Pointers, keys, contents and lists of contents: exactly the encodings are accepted, whatever lies behind the input. *)
Theorem C150_items_have_one_encoding : forall H v behind,
  (forall p, pointer_of_content (GSlice v behind) = Ok p <->
     (0 <= p_from p < two64)%Z /\ (0 < p_length p < two64)%Z /\ v = pointer_content p) /\
  (forall k, key_of_content H (GSlice v behind) = Ok k <->
     length (k_hash k) = 64 /\ (0 <= k_kind k < two64)%Z /\ (0 <= p_from (k_content k) < two64)%Z /\
     (0 < p_length (k_content k) < two64)%Z /\ length (k_commit k) = 64 /\ v = key_content k) /\
  (forall c, content_of_content H (GSlice v behind) = Ok c <->
     length (ct_hash c) = 64 /\ (0 <= ct_kind c < two64)%Z /\ ct_data c <> [] /\ v = content_content c) /\
  ((zlen v < two63)%Z -> forall l, contents_of_content H (GSlice v behind) = Ok l <->
     l <> [] /\ Forall (fun c => length (ct_hash c) = 64 /\ (0 <= ct_kind c < two64)%Z /\ ct_data c <> []) l /\
     v = contents_content l).
Proof.
  intros H v behind. split; [|split; [|split]].
  - intros p. split.
    + intros E. destruct (pointer_canonical _ _ E) as ((A & B) & C). auto.
    + intros (A & B & ->). apply pointer_roundtrip. split; auto.
  - intros k. split.
    + intros E. destruct (key_canonical _ _ _ E) as ((A & B & (C & D) & F) & G). cbn [vis] in G. repeat split; auto; try apply B; try apply C; try apply D.
    + intros (A & B & C & D & F & ->). apply key_roundtrip. repeat split; auto; try apply B; try apply C; try apply D.
  - intros c. split.
    + intros E. destruct (content_canonical _ _ _ E) as ((A & B & C) & D). cbn [vis] in D. auto.
    + intros (A & B & C & ->). apply content_roundtrip. repeat split; auto; try apply B.
  - intros L l. split.
    + intros E. destruct (contents_canonical _ _ _ E L) as (A & B & C). cbn [vis] in C. auto.
    + intros (A & B & ->). now apply contents_roundtrip.
Qed.
Print Assumptions C150_items_have_one_encoding.

(** Lists of keys: the input and the memory behind it together begin with the encoding; the input itself must have room for one key. *)
Theorem C150_key_lists : forall H v behind l, (zlen (v ++ behind) < two63)%Z ->
  (keys_of_content H (GSlice v behind) = Ok l <->
   l <> [] /\ Forall (fun k => length (k_hash k) = 64 /\ (0 <= k_kind k < two64)%Z /\
                ((0 <= p_from (k_content k) < two64)%Z /\ (0 < p_length (k_content k) < two64)%Z) /\ length (k_commit k) = 64) l /\
   8 + 152 <= length v /\ exists rest, v ++ behind = keys_content l ++ rest).
Proof. intros H v behind l L. exact (keys_accepted H v behind l L). Qed.
Print Assumptions C150_key_lists.

(** Commits: the time, the values with their length, and an end that stands for the parent and the proof. *)
Theorem C150_commits : forall H mv v behind c, (zlen v < two63)%Z ->
  (commit_of_content H mv (GSlice v behind) = Ok c <->
   exists time values tail parent proof,
     v = put_u64 time ++ put_u64 (zlen (ht_content values)) ++ ht_content values ++ tail /\
     wf_ht values /\ (- two63 <= time < two63)%Z /\ commit_end H tail parent proof /\
     c = commit_now H mv values time parent proof).
Proof. intros H mv v behind c L. exact (commit_accepted H mv v behind c L). Qed.
Print Assumptions C150_commits.

(** Lists of commits: accepted commits with their lengths in front, up to the end of the input. *)
Theorem C150_commit_lists : forall H mv v behind l, (zlen v < two63)%Z ->
  (commits_of_content H mv (GSlice v behind) = Ok l <->
   l <> [] /\ exists parts, v = counted parts /\
     Forall2 (fun p c => commit_of_content H mv (GSlice p []) = Ok c) parts l).
Proof.
  intros H mv v behind l L. rewrite (commits_accepted H mv v behind l L).
  assert (S : forall parts, (zlen (counted parts) < two63)%Z -> Forall (fun p => (zlen p < two63)%Z) parts).
  { induction parts as [|p parts IH]; intros Lp; constructor;
      change (counted (p :: parts)) with ((put_u64 (zlen p) ++ p) ++ counted parts) in Lp; rewrite !zlen_app, zlen_put_u64 in Lp;
      pose proof (zlen_nonneg p); pose proof (zlen_nonneg (counted parts)); [lia|apply IH; lia]. }
  split; intros (N & parts & -> & F); (split; [exact N|]); exists parts; (split; [reflexivity|]);
    pose proof (S parts L) as Sp; clear - F Sp; induction F as [|p c parts l Fp F IH]; constructor; inversion Sp; subst; auto.
  - apply commit_accepted; auto.
  - apply commit_accepted in Fp; auto.
Qed.
Print Assumptions C150_commit_lists.

(** References: the two lists with their lengths in front, then anything. The list of keys may be cut off by its length:
    what is missing is read from the bytes behind it. *)
Theorem C150_references : forall H mv v behind r, (zlen (v ++ behind) < two63)%Z ->
  (reference_of_content H mv (GSlice v behind) = Ok r <->
   exists kb cb after, v = put_u64 (zlen kb) ++ kb ++ put_u64 (zlen cb) ++ cb ++ after /\
     keys_of_content H (GSlice kb (put_u64 (zlen cb) ++ cb ++ after ++ behind)) = Ok (r_keys r) /\
     commits_of_content H mv (GSlice cb []) = Ok (r_commits r)).
Proof.
  intros H mv v behind r L. rewrite (reference_accepted H mv v behind r L).
  assert (Same : forall kb cb after, v = put_u64 (zlen kb) ++ kb ++ put_u64 (zlen cb) ++ cb ++ after -> forall l,
            commits_of_content H mv (GSlice cb (after ++ behind)) = Ok l <-> commits_of_content H mv (GSlice cb []) = Ok l).
  { intros kb cb after -> l. rewrite !zlen_app, !zlen_put_u64 in L.
    pose proof (zlen_nonneg kb). pose proof (zlen_nonneg after). pose proof (zlen_nonneg behind).
    rewrite !commits_accepted by lia. reflexivity. }
  split; intros (kb & cb & after & Ev & Ek & Ec); exists kb, cb, after; repeat split; auto; eapply Same; eauto.
Qed.
Print Assumptions C150_references.

(** Not unique: any byte but zero may stand before the parent of a commit, a parent of another length than 64 is replaced
    by its hash, and a proof may have zero bytes in front. *)
Theorem C150_commit_encoding_is_unique_refuted : forall H mv values time parent behind,
  wf_ht values -> (- two63 <= time < two63)%Z -> length parent = 64 ->
  let front := put_u64 time ++ put_u64 (zlen (ht_content values)) ++ ht_content values in
  (forall x, x <> x00 -> (zlen (front ++ x :: parent) < two63)%Z ->
     commit_of_content H mv (GSlice (front ++ x :: parent) behind) = Ok (commit_now H mv values time (Some parent) None)) /\
  (forall x other, x <> x00 -> length other <> 64 -> H other = parent -> (zlen (front ++ x :: other) < two63)%Z ->
     commit_of_content H mv (GSlice (front ++ x :: other) behind) = Ok (commit_now H mv values time (Some parent) None)) /\
  (forall z zeros, (0 <= z)%Z -> let proof := repeat x00 zeros ++ big_bytes z in
     (zlen (front ++ x00 :: put_u64 (zlen proof) ++ proof) < two63)%Z ->
     commit_of_content H mv (GSlice (front ++ x00 :: put_u64 (zlen proof) ++ proof) behind) =
       Ok (commit_now H mv values time None (Some z))).
Proof.
  intros H mv values time parent behind W T Lp front. unfold front. clear front. split; [|split].
  - intros x Nx L. rewrite <- !app_assoc in L. rewrite <- !app_assoc. apply (commit_parts_ok H mv values time (x :: parent)); [exact W|exact T| |exact L].
    constructor; auto. left. auto.
  - intros x other Nx No Eo L. rewrite <- !app_assoc in L. rewrite <- !app_assoc. apply (commit_parts_ok H mv values time (x :: other)); [exact W|exact T| |exact L].
    constructor; auto. right. auto.
  - intros z zeros Pz L. set (proof := repeat x00 zeros ++ big_bytes z) in *. rewrite <- !app_assoc in L. rewrite <- !app_assoc.
    apply (commit_parts_ok H mv values time (x00 :: put_u64 (zlen proof) ++ proof)); [exact W|exact T| |exact L].
    assert (Z0 : forall n, unle (rev (repeat x00 n)) = 0%Z).
    { assert (G : forall l, unle l = 0%Z -> unle (l ++ [x00]) = 0%Z).
      { induction l as [|y l IHl]; cbn [app unle]; intros X; [reflexivity|].
        pose proof (Z_of_byte_range y). pose proof (unle_range l). rewrite IHl; lia. }
      induction n as [|n IH]; cbn [repeat rev]; [reflexivity|]. apply G. exact IH. }
    assert (E : unle (rev proof) = z).
    { unfold proof. rewrite rev_app_distr. transitivity (big_set (big_bytes z)); [|apply big_roundtrip; exact Pz]. unfold big_set.
      generalize (rev (big_bytes z)) as q. intros q. induction q as [|y q IH]; cbn [app unle]; [apply Z0|]. rewrite IH. reflexivity. }
    rewrite <- E. apply ce_proof.
Qed.
Print Assumptions C150_commit_encoding_is_unique_refuted.

(** Not determined by the input: the same bytes are two lists of keys, depending on the memory behind them. *)
Theorem C150_key_list_depends_only_on_its_bytes_refuted : forall H k ks1 ks2, length ks1 = length ks2 ->
  let ok k := length (k_hash k) = 64 /\ (0 <= k_kind k < two64)%Z /\
              ((0 <= p_from (k_content k) < two64)%Z /\ (0 < p_length (k_content k) < two64)%Z) /\ length (k_commit k) = 64 in
  Forall ok (k :: ks1) -> Forall ok (k :: ks2) -> (8 + 152 * zlen (k :: ks1) < two63)%Z ->
  exists v e1 e2, keys_of_content H (GSlice v e1) = Ok (k :: ks1) /\ keys_of_content H (GSlice v e2) = Ok (k :: ks2).
Proof.
  intros H k ks1 ks2 El ok F1 F2 L. exists (put_u64 (zlen (k :: ks1)) ++ key_content k), (concat (map key_content ks1)), (concat (map key_content ks2)).
  assert (Lk : length (put_u64 (zlen (k :: ks1)) ++ key_content k) = 160).
  { inversion F1; subst. rewrite app_length, put_u64_length, key_content_length by assumption. reflexivity. }
  assert (Z12 : zlen (k :: ks2) = zlen (k :: ks1)) by (unfold zlen; cbn [length]; now rewrite El).
  assert (G : forall ks, zlen (k :: ks) = zlen (k :: ks1) -> Forall ok (k :: ks) ->
            keys_of_content H (GSlice (put_u64 (zlen (k :: ks1)) ++ key_content k) (concat (map key_content ks))) = Ok (k :: ks)).
  { intros ks Zk F.
    assert (E : (put_u64 (zlen (k :: ks1)) ++ key_content k) ++ concat (map key_content ks) = keys_content (k :: ks)).
    { unfold keys_content. rewrite Zk, <- app_assoc. reflexivity. }
    apply keys_accepted.
    - rewrite E. unfold zlen. rewrite keys_content_length by exact F. unfold zlen in *. lia.
    - split; [discriminate|]. split; [exact F|]. split; [lia|]. exists []. now rewrite app_nil_r. }
  split; apply G; auto.
Qed.
Print Assumptions C150_key_list_depends_only_on_its_bytes_refuted.

(** A reference with bytes behind it, a commit with another byte before its parent, a list of two keys read from an input with room for one. *)
Example C150_ex :
  let c := commit_now toy_sha x00 ex_tree 5 (Some (ex_hash x09)) None in
  let k b := ContentKey (ex_hash b) 7 (Pointer 10 5) (c_hash c) in
  let cc := put_u64 5 ++ put_u64 (zlen (ht_content ex_tree)) ++ ht_content ex_tree ++ xff :: ex_hash x09 in
  let kc := keys_content [k x01; k x02] in
  reference_of_content toy_sha x00 (sl (put_u64 (zlen kc) ++ kc ++ put_u64 (8 + zlen cc) ++ put_u64 (zlen cc) ++ cc ++ [x0a; x0b])) =
    Ok (Reference [k x01; k x02] [c]) /\
  cc <> commit_content c /\
  keys_of_content toy_sha (GSlice (firstn 160 kc) (skipn 160 kc)) = Ok [k x01; k x02] /\
  keys_of_content toy_sha (GSlice (firstn 160 kc) (skipn 160 (keys_content [k x01; k x03]))) = Ok [k x01; k x03].
Proof. vm_compute. repeat split; try discriminate. Qed.
