(** Property theorem about a directory that is opened as a database (C170). *)
From Coq Require Import List ZArith NArith Lia Bool.
From Coq Require Import Init.Byte Strings.Byte.
From Verif Require Import Base BaseLemmas HashModel HashTreeModel RefModel DbModel DbFsProofs DbApiProofs PropHash PropDb DbDirModel SpecDir.
Import ListNotations.

(** The context is there with some contents pending, and no history. *)
Definition dir_ctx (a : dbapp) (n : bytes) (id : Z) (h : nat) : Prop := exists pd, ctx_get (a_ctxs a) id = Some (Ctx id n h None 0 pd).

Lemma dir_commit H mv now a s id n h : dir_get (f_dir s) n = Some EDir -> dir_ctx a n id h ->
  exists o, commit_db H mv now a s id = (s, a, o) /\ o <> Ok tt.
Proof.
  intros D (pd & E). unfold commit_db, commit_fuel. rewrite E. destruct (update_reference H mv _ now) as [r| | |]; try (eexists; split; [reflexivity|discriminate]).
  unfold update_database, andthen. rewrite run_catch. cbn [call run x_name]. unfold sys_trylock. rewrite D. cbn [run fst snd]. eexists. split; [reflexivity|discriminate].
Qed.

Lemma dir_uses H mv n id h us : forall a s, dir_get (f_dir s) n = Some EDir -> dir_ctx a n id h ->
  let x := uses H mv id us a s in Forall dir_answer (fst (fst x)) /\ dir_ctx (snd (fst x)) n id h /\ snd x = s.
Proof.
  induction us as [|u us IH]; intros a s D C; cbn [uses]; cbv zeta; [split; [constructor|auto]|]. cbn [fst snd].
  destruct u as [hh d k| |now]; cbn [fst snd].
  - assert (X : dir_ctx (fst (write_db a id hh d k)) n id h /\ (d <> [] -> snd (write_db a id hh d k) = Ok tt)).
    { pose proof C as (pd & E). unfold write_db. rewrite E. unfold content_now. destruct d as [|b d]; [split; [exact C|congruence]|]. cbn [fst snd]. split; [|reflexivity].
      eexists. cbn [with_ctxs a_ctxs]. rewrite ctx_get_set, Z.eqb_refl. reflexivity. }
    destruct X as (X & Y). destruct (IH _ s D X) as (F & C' & S). split; [constructor; [exact Y|exact F]|auto].
  - assert (X : dir_ctx (fst (cancel_db a id)) n id h /\ snd (cancel_db a id) = Ok tt).
    { pose proof C as (pd & E). unfold cancel_db. rewrite E. cbn [fst snd]. split; [|reflexivity]. eexists. cbn [with_ctxs a_ctxs]. rewrite ctx_get_set, Z.eqb_refl. reflexivity. }
    destruct X as (X & Y). destruct (IH _ s D X) as (F & C' & S). split; [constructor; [exact Y|exact F]|auto].
  - destruct (dir_commit H mv now a s id n h D C) as (o & -> & No). cbn [fst snd]. destruct (IH _ s D C) as (F & C' & S). split; [constructor; [exact No|exact F]|auto].
Qed.

(** *** C170 *)
(** Open of a directory succeeds and changes no name and no file. Then each Write of data and each Cancel succeed, no
    Commit does, nothing of that changes the file system, each Read of a length above zero and below 2^63 fails, there are no commits or keys, Close
    succeeds, and New and Delete of the name fail. *)
Theorem C170_only_a_database_can_be_opened_refuted : forall H mv behind a s n,
  dir_get (f_dir s) n = Some EDir -> existsb (fun x => bytes_eqb (x_name (snd x)) n) (a_ctxs a) = false ->
  exists a1 s1 id, open_any H mv behind n a s = (s1, a1, Ok id) /\
    f_dir s1 = f_dir s /\ (forall i, i < length (f_data s) -> nth i (f_data s1) [] = nth i (f_data s) []) /\
    (forall us, let x := uses H mv id us a1 s1 in
       Forall dir_answer (fst (fst x)) /\ snd x = s1 /\
       (forall from len, (0 < len < two63)%Z -> read_db (snd (fst x)) s1 id (Pointer from len) = Err) /\
       commits_db (snd (fst x)) id = Err /\ content_keys (snd (fst x)) id = Err /\
       exists s2 a2, close_db (snd (fst x)) s1 id = (s2, a2, Ok tt) /\ f_dir s2 = f_dir s /\ ctx_get (a_ctxs a2) id = None) /\
    new_db n s1 = (s1, Err) /\ delete_db n s1 = (s1, Err).
Proof.
  intros H mv behind a s n D F. unfold open_any. rewrite D, F. cbv zeta. eexists. eexists. eexists. split; [reflexivity|].
  cbn [sys_open_dir fst snd]. set (h := length (f_handles s)). set (id := zlen (a_ctxs a)). set (a1 := with_ctxs _ _). set (s1 := with_handles _ _).
  assert (D1 : dir_get (f_dir s1) n = Some EDir) by exact D.
  assert (C : dir_ctx a1 n id h) by (exists []; cbn [a1 with_ctxs a_ctxs]; rewrite ctx_get_set, Z.eqb_refl; reflexivity).
  assert (Eh : nth_error (f_handles s1) h = Some (Handle (length (f_data s)) 0 true)).
  { cbn [s1 with_handles f_handles]. unfold h. rewrite nth_error_app2, Nat.sub_diag by lia. reflexivity. }
  split; [reflexivity|]. split. { intros i L. cbn [s1 with_handles with_data f_data]. now rewrite app_nth1. }
  split.
  { intros us. cbv zeta. destruct (dir_uses H mv n id h us a1 s1 D1 C) as (U & (pd & E) & S). split; [exact U|]. split; [exact S|].
    split. { intros from len L. unfold read_db. rewrite E. cbn [p_length p_from x_conn x_off]. rewrite (proj2 (Z.leb_gt two63 len)) by lia. unfold read_at. rewrite Eh.
      match goal with |- context [(?z <? 0)%Z] => destruct (Z.ltb_spec z 0) end; [reflexivity|]. rewrite (proj2 (Z.eqb_neq len 0)) by lia.
      assert (X : data_of s1 (length (f_data s)) = []) by (unfold data_of; cbn [s1 with_handles with_data f_data]; rewrite app_nth2, Nat.sub_diag by lia; reflexivity).
      rewrite X. cbn [zlen length Z.of_nat]. match goal with |- context [(?x <=? ?y)%Z] => destruct (Z.leb_spec x y) end; [|reflexivity]. unfold zlen in *. cbn in *. lia. }
    split; [unfold commits_db; now rewrite E|]. split; [unfold content_keys; now rewrite E|].
    unfold close_db. rewrite E. cbn [x_conn]. unfold sys_close. rewrite Eh. eexists. eexists. split; [reflexivity|]. split; [reflexivity|].
    cbn [with_ctxs a_ctxs]. rewrite ctx_get_del. now rewrite Z.eqb_refl. }
  unfold new_db, delete_db, sys_stat. rewrite D1. auto.
Qed.
Print Assumptions C170_only_a_database_can_be_opened_refuted.

(** The directory of the application, opened by the empty name: a Write succeeds and its Commit does not. *)
Definition ex_dir : fsys := FSys [([], EDir)] [] [] [] [].
Example C170_ex : dir_get (f_dir ex_dir) [] = Some EDir /\ existsb (fun x => bytes_eqb (x_name (snd x)) []) (a_ctxs (ex_app 100)) = false /\
  let x := open_any toy_sha x00 no_behind [] (ex_app 100) ex_dir in
  snd x = Ok 0%Z /\
  map snd (fst (fst (uses toy_sha x00 0 [UWrite (ex_h x01) [x0a] 7; UCommit 5; UCancel] (snd (fst x)) (fst (fst x))))) = [Ok tt; Err; Ok tt].
Proof. vm_compute. auto. Qed.
