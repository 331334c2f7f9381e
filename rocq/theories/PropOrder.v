(** Property theorems for putting blocks in order (C12, C136). *)
From Coq Require Import List ZArith NArith Lia Bool Arith Permutation.
From Coq Require Import Init.Byte Strings.Byte.
From Verif Require Import Base BaseLemmas HashModel HashProofs SpecHash HashTreeModel HashTreeProofs PropHash.
Import ListNotations.

(** *** C12 *)
(** Whenever the blocks had to be padded and one of them has the hash of the padding block, Order of the blocks fails. *)
Theorem C12_order_fails_with_a_padding_block_refuted : forall H, sha_ok H ->
  forall blocks t mixed b,
    build_tree H (Some blocks) = Ok t -> Permutation mixed blocks ->
    In b blocks -> from_bytes H b = H [] -> (forall k, 1 <= k -> length blocks <> 2 ^ k) ->
    ht_order H t mixed = Err.
Proof.
  intros H HL blocks t mixed b E Hperm Hb Eb Hn.
  destruct (build_tree_spec H HL blocks) as (t' & k & pad & E' & P & Hp & Hl & Hlv & R);
    [intros ->; destruct Hb|].
  rewrite E in E'. injection E' as <-. unfold ht_order.
  assert (Hin : forall b, In b blocks -> In b mixed) by (intros y Hy; exact (Permutation_in y (Permutation_sym Hperm) Hy)).
  rewrite order_out_all.
  - replace (length (ht_leaves t) =? length mixed) with false; auto. symmetry. apply Nat.eqb_neq.
    rewrite (Permutation_length Hperm). rewrite Hlv, map_length, app_length, map_length, repeat_length. intros E3.
    apply (Hn (S k)); lia.
  - intros l Hl'. rewrite Hlv in Hl'. apply in_map_iff in Hl' as (h & <- & Hh). cbn [leaf_head]. apply in_app_or in Hh as [Hh|Hh].
    + apply in_map_iff in Hh as (x & <- & Hx). eauto.
    + apply repeat_spec in Hh. subst. eauto.
Qed.
Print Assumptions C12_order_fails_with_a_padding_block_refuted.

Example C12_ex_padding : match build_tree toy_sha (Some [[x01]; []; [x02]]) with
  | Ok t => ht_order toy_sha t [[x02]; [x01]; []] = Err
  | _ => False
  end.
Proof. vm_compute. reflexivity. Qed.

(** *** C136 *)
(** [selected a b]: the list [a] is [b] without some of its elements. *)
Inductive selected {A : Type} : list A -> list A -> Prop :=
| sel_nil : selected [] []
| sel_keep x a b : selected a b -> selected (x :: a) (x :: b)
| sel_drop x a b : selected a b -> selected a (x :: b).

(** What Order gives are as many blocks as it was given, all among them, in the order of the leaves. *)
Theorem C136_order_gives_what_it_was_given : forall H, sha_ok H ->
  forall t mixed out, ht_order H t mixed = Ok out ->
  length out = length mixed /\ (forall d, In d out -> In d mixed) /\
  exists hs, Forall2 (block_hash H) out hs /\ selected hs (map leaf_head (ht_leaves t)).
Proof.
  intros H HL t mixed out E. unfold ht_order in E. destruct (_ =? _) eqn:L; [|discriminate]. apply Nat.eqb_eq in L. injection E as <-.
  split; [exact L|]. clear L.
  assert (X : forall ls, (forall d, In d (order_out H mixed ls) -> In d mixed) /\
    exists hs, Forall2 (block_hash H) (order_out H mixed ls) hs /\ selected hs (map leaf_head ls)).
  { induction ls as [|l ls (IH1 & hs & IH2 & IH3)]; cbn [order_out map].
    - split; [intros d []|]. exists []. split; constructor.
    - destruct (order_lookup H mixed (leaf_head l) None) as [d|] eqn:El.
      + rewrite order_lookup_spec in El. destruct (find _ (rev mixed)) as [d'|] eqn:Ef; [|discriminate]. injection El as ->.
        apply find_some in Ef as (Hd & Ed). apply bytes_eqb_true in Ed. apply in_rev in Hd. split.
        * intros x [<-|I]; [exact Hd|now apply IH1].
        * exists (leaf_head l :: hs). split; [|now constructor]. constructor; [|exact IH2].
          rewrite <- Ed. apply (proj1 (C01_hash_is_64_bytes_and_idempotent H HL)).
      + split; [exact IH1|]. exists hs. split; [exact IH2|now constructor]. }
  apply X.
Qed.
Print Assumptions C136_order_gives_what_it_was_given.

(** Missing blocks are not noticed: any selection of the blocks is put in order without an error. *)
Theorem C136_missing_blocks_are_noticed_refuted : forall H, sha_ok H ->
  forall blocks t p mixed,
    build_tree H (Some blocks) = Ok t ->
    (forall a b, In a blocks -> In b blocks -> from_bytes H a = from_bytes H b -> a = b) ->
    (forall b, In b blocks -> from_bytes H b <> H []) ->
    Permutation mixed (filter p blocks) ->
    ht_order H t mixed = Ok (filter p blocks).
Proof.
  intros H HL blocks t p mixed E Hinj Hpad Hperm.
  destruct blocks as [|b0 bl]; [discriminate|]. set (blocks := b0 :: bl) in *.
  destruct (build_tree_spec H HL blocks) as (t' & k & pad & E' & P & Hp & Hl & Hlv & R); [unfold blocks; congruence|].
  rewrite E in E'. injection E' as <-.
  assert (Hin : forall b, In b mixed <-> In b blocks /\ p b = true).
  { intros b. rewrite <- filter_In. split; apply Permutation_in; [exact Hperm|exact (Permutation_sym Hperm)]. }
  unfold ht_order. rewrite Hlv, map_app, order_out_app.
  rewrite (order_out_pad H mixed pad) by (intros b Hb; apply Hpad; now apply Hin). rewrite app_nil_r.
  assert (Eo : forall bs, (forall b, In b bs -> In b blocks) -> order_out H mixed (map LHead (map (from_bytes H) bs)) = filter p bs).
  { induction bs as [|b bs IH]; intros Hb; cbn [map order_out filter leaf_head]; [reflexivity|].
    rewrite IH by (intros; apply Hb; now right). specialize (Hb b (or_introl eq_refl)). destruct (p b) eqn:Pb.
    - rewrite order_lookup_found; [reflexivity|now apply Hin|]. intros b' Hb' Eb'. apply Hin in Hb' as (Hb' & _). now apply Hinj.
    - rewrite order_lookup_missing; [reflexivity|]. intros b' Hb' Eb'. apply Hin in Hb' as (Hb' & Pb'). apply Hinj in Eb'; [|auto|auto]. congruence. }
  rewrite (Eo blocks) by auto. apply Permutation_length in Hperm. rewrite Hperm, Nat.eqb_refl. reflexivity.
Qed.
Print Assumptions C136_missing_blocks_are_noticed_refuted.

(** Nor are blocks that are not in the tree, where a block of the tree is repeated. *)
Theorem C136_foreign_blocks_are_noticed_refuted : forall H, sha_ok H ->
  forall a b x t, build_tree H (Some [a; a; b]) = Ok t ->
    NoDup [from_bytes H a; from_bytes H b; from_bytes H x; H []] ->
    ht_order H t [a; x] = Ok [a; a].
Proof.
  intros H HL a b x t E Nd.
  destruct (build_tree_spec H HL [a; a; b]) as (t' & k & pad & E' & P & Hp & Hl & Hlv & R); [congruence|].
  rewrite E in E'. injection E' as <-.
  assert (Nab : from_bytes H a <> from_bytes H b /\ from_bytes H a <> from_bytes H x /\ from_bytes H a <> H [] /\
                from_bytes H x <> from_bytes H b /\ from_bytes H x <> H []).
  { inversion Nd as [|? ? N1 Nd1]; subst. inversion Nd1 as [|? ? N2 Nd2]; subst. inversion Nd2 as [|? ? N3 Nd3]; subst. cbn in *. intuition congruence. }
  destruct Nab as (N1 & N2 & N3 & N4 & N5).
  unfold ht_order. rewrite Hlv, map_app, order_out_app. rewrite (order_out_pad H [a; x] pad).
  2: { intros y [<-|[<-|[]]]; auto. }
  cbn [map order_out leaf_head]. rewrite (order_lookup_found H [a; x] a).
  2: { now left. }
  2: { intros y [<-|[<-|[]]]; auto. intros Q. congruence. }
  rewrite (order_lookup_missing H [a; x] (from_bytes H b)).
  2: { intros y [<-|[<-|[]]]; auto. }
  reflexivity.
Qed.
Print Assumptions C136_foreign_blocks_are_noticed_refuted.

Example C136_ex : match build_tree toy_sha (Some [[x01]; [x02]; [x03]]), build_tree toy_sha (Some [[x01]; [x01]; [x02]]) with
  | Ok t, Ok t' => ht_order toy_sha t [[x03]; [x01]] = Ok [[x01]; [x03]] /\ ht_order toy_sha t' [[x01]; [x09]] = Ok [[x01]; [x01]]
  | _, _ => False
  end.
Proof. vm_compute. split; reflexivity. Qed.
