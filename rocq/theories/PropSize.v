(** Property theorems for the size of the database file (C151). *)
From Coq Require Import List ZArith NArith Lia Bool.
From Coq Require Import Init.Byte Strings.Byte.
From Verif Require Import Base BaseLemmas HashModel HashProofs SpecHash HashTreeModel HashTreeProofs
  RefModel RefProofs SpecRef DbModel SpecDb DbRefProofs DbFsProofs DbCommitProofs DbOpenProofs DbApiProofs
  DbSession DbSessionProofs DbMoreProofs DbSizeProofs PropHash PropRef PropDb.
Import ListNotations.

(** *** C151 *)
(** [e] of a batch is the least exponent, at least 1, with a power of two not below the number of its contents. *)
Theorem C151_size_of_the_file : forall H mv behind, sha_ok H ->
  forall a0 n s0 os a s id, session H mv behind a0 n s0 os (a, s, id) ->
  exists i, dir_get (f_dir s) n = Some (EFile i) /\
    ((committed os = [] /\ data_of s i = []) \/
     (committed os <> [] /\
      exists es, Forall2 (fun b e => pad_exponent (length (fst b)) e) (committed os) es /\
        zlen (data_of s i) =
        (32 + 152 * zlen (history_contents (committed os)) + zlen (history_data (committed os)) +
         fold_right Z.add 0 (map (fun e => 136 * 2 ^ Z.of_nat e - 48) es) + 65 * (zlen (committed os) - 1))%Z)).
Proof.
  intros H mv behind HL a0 n s0 os a s id S.
  destruct (session_synced H mv behind HL _ _ _ _ _ _ _ S) as (Sy & _).
  destruct Sy as (i & h & (A1 & A2 & A3 & A4 & A5 & A6 & A7 & A8 & A9 & A10 & A11) & Ec & Eh).
  exists i. split; [exact A5|]. rewrite A9. destruct (committed os) as [|b bs] eqn:E; [left; split; reflexivity|right].
  split; [discriminate|]. destruct (file_size H mv HL (b :: bs) ltac:(discriminate) A10) as (es & F & Z0).
  exists es. split; [exact F|]. rewrite Z0.
  assert (G : forall l, sum (map (fun e => 8 + (16 + (136 * 2 ^ Z.of_nat e - 72)))%Z l) =
                        fold_right Z.add 0%Z (map (fun e => 136 * 2 ^ Z.of_nat e - 48)%Z l)).
  { induction l as [|e l IH]; [reflexivity|]. unfold sum in *. cbn [map fold_right]. rewrite IH. lia. }
  rewrite G. lia.
Qed.
Print Assumptions C151_size_of_the_file.

Definition ex_size (o : outcome state) : Z :=
  match o with Ok (a, s, id) => match dir_get (f_dir s) ex_name with Some (EFile i) => zlen (data_of s i) | _ => -1 end | _ => -2 end.

(** The session of [ex_session]: two contents, then one, then one, each padded to two leaves. *)
Example C151_ex :
  ex_size (ex_run 100 ex_ops) = (32 + 152 * zlen (history_contents (committed ex_ops)) + zlen (history_data (committed ex_ops)) +
    fold_right Z.add 0 (map (fun e => 136 * 2 ^ Z.of_nat e - 48) [1; 1; 1]%nat) + 65 * 2)%Z /\
  map (fun b => length (fst b)) (committed ex_ops) = [2; 1; 1] /\ ex_size (ex_run 100 []) = 0%Z.
Proof. rewrite ex_finished. vm_compute. repeat split. Qed.

(** Three contents in one commit are padded to four leaves. *)
Definition ex_three : list op := [ex_write x01 [x0a]; ex_write x02 [x0b]; ex_write x03 [x0c]; OCommit 5].
Example C151_ex_three : ex_size (ex_run 100 ex_three) = (32 + 152 * 3 + 3 + (136 * 2 ^ 2 - 48))%Z.
Proof. vm_compute. reflexivity. Qed.
