(** Lemmas on the file system model and on the commit program. *)
From Coq Require Import List ZArith NArith Lia Bool.
From Coq Require Import Init.Byte Strings.Byte.
From Verif Require Import Base BaseLemmas HashModel HashProofs SpecHash HashTreeModel HashTreeProofs
  RefModel RefProofs SpecRef DbModel SpecDb DbRefProofs.
Import ListNotations.

(** ** Lists and directories *)
Lemma set_nth_length {A} (x : A) l : forall i, length (set_nth l i x) = length l.
Proof. induction l; intros [|i]; cbn; auto. Qed.

Lemma nth_set_nth {A} (x d : A) l : forall i j, i < length l ->
  nth j (set_nth l i x) d = if Nat.eqb i j then x else nth j l d.
Proof.
  induction l as [|y l IH]; intros i j Hi; cbn in Hi; [lia|].
  destruct i, j; cbn; auto. apply IH. lia.
Qed.

Lemma set_nth_out {A} (x : A) l : forall i, length l <= i -> set_nth l i x = l.
Proof. induction l as [|y l IH]; intros [|i] Hi; cbn in *; auto; try lia. f_equal. apply IH. lia. Qed.

Lemma set_nth_set_nth {A} (x y : A) l : forall i, set_nth (set_nth l i x) i y = set_nth l i y.
Proof. induction l; intros [|i]; cbn; auto. now rewrite IHl. Qed.

Lemma set_nth_id {A} (d : A) l : forall i, set_nth l i (nth i l d) = l.
Proof. induction l; intros [|i]; cbn; auto. now rewrite IHl. Qed.

Lemma nth_error_set_nth {A} (x : A) l : forall i j, i < length l ->
  nth_error (set_nth l i x) j = if Nat.eqb i j then Some x else nth_error l j.
Proof.
  induction l as [|y l IH]; intros i j Hi; cbn in Hi; [lia|].
  destruct i, j; cbn; auto. apply IH. lia.
Qed.

Lemma dir_get_del d n m : dir_get (dir_del d n) m = if bytes_eqb n m then None else dir_get d m.
Proof.
  unfold dir_del. induction d as [|[k e] d IH]; cbn [filter dir_get fst].
  - now destruct (bytes_eqb n m).
  - destruct (bytes_eqb k n) eqn:E; cbn [negb].
    + rewrite IH. apply bytes_eqb_true in E. subst. destruct (bytes_eqb n m); auto.
    + cbn [dir_get]. rewrite IH. destruct (bytes_eqb k m) eqn:E2; auto.
      apply bytes_eqb_true in E2. subst. destruct (bytes_eqb n m) eqn:E3; auto.
      apply bytes_eqb_true in E3. subst. now rewrite bytes_eqb_refl in E.
Qed.

Lemma dir_get_set d n e m : dir_get (dir_set d n e) m = if bytes_eqb n m then Some e else dir_get d m.
Proof. unfold dir_set; cbn [dir_get]. destruct (bytes_eqb n m) eqn:E; auto. now rewrite dir_get_del, E. Qed.

Lemma bytes_eqb_neq a b : a <> b -> bytes_eqb a b = false.
Proof. apply bytes_eqb_false. Qed.

Lemma side_neq n e : side n e <> n.
Proof. intros E. apply (f_equal (@length byte)) in E. unfold side in E. rewrite app_length in E. cbn in E. lia. Qed.

Lemma side_inj n e e' : side n e = side n e' -> e = e'.
Proof. unfold side. intros E. apply app_inv_head in E. now inversion E. Qed.

(** ** Data of inodes *)
Lemma data_set_same s i d : i < length (f_data s) -> data_of (set_data s i d) i = d.
Proof. intros L. unfold data_of, set_data; cbn. rewrite nth_set_nth by auto. now rewrite Nat.eqb_refl. Qed.

Lemma data_set_other s i j d : i <> j -> data_of (set_data s i d) j = data_of s j.
Proof.
  intros N. unfold data_of, set_data; cbn. destruct (Nat.lt_ge_cases i (length (f_data s))) as [L|L].
  - rewrite nth_set_nth by auto. apply Nat.eqb_neq in N. now rewrite N.
  - now rewrite set_nth_out.
Qed.

Lemma set_data_twice s i a b : set_data (set_data s i a) i b = set_data s i b.
Proof. unfold set_data, with_data; cbn. now rewrite set_nth_set_nth. Qed.

Lemma set_data_id s i : set_data s i (data_of s i) = s.
Proof. unfold set_data, with_data, data_of; cbn. rewrite set_nth_id. now destruct s. Qed.

(** ** Programs *)
Section ProgInd.
  Variable A : Type.
  Variable P : prog A -> Prop.
  Hypothesis HR : forall o, P (Ret o).
  Hypothesis HS : forall f, (forall s, P (snd (f s))) -> P (Step f).
  Fixpoint prog_ind' (p : prog A) : P p :=
    match p with
    | Ret o => HR o
    | Step f => HS f (fun s => prog_ind' (snd (f s)))
    end.
End ProgInd.

Lemma run_catch {A B} (k : outcome A -> prog B) p : forall s,
  run (catch p k) s = run (k (snd (run p s))) (fst (run p s)).
Proof.
  induction p as [o|f IH] using prog_ind'; intros s; cbn [catch run]; auto.
  specialize (IH s). destruct (f s) as [s' p']. cbn [snd] in IH. apply IH.
Qed.

Lemma states_catch {A B} (k : outcome A -> prog B) (C : fsys -> Prop) p : forall s,
  Forall C (states p s) -> Forall C (states (k (snd (run p s))) (fst (run p s))) ->
  Forall C (states (catch p k) s).
Proof.
  induction p as [o|f IH] using prog_ind'; intros s F1 F2; cbn [catch run states] in *; auto.
  specialize (IH s). destruct (f s) as [s' p']. cbn [snd] in IH.
  inversion F1; subst. constructor; auto.
Qed.

Lemma states_head {A} (p : prog A) s : In s (states p s).
Proof. destruct p; cbn; auto. Qed.

Lemma states_last {A} (p : prog A) : forall s, In (fst (run p s)) (states p s).
Proof.
  induction p as [o|f IH] using prog_ind'; intros s; cbn [run states]; [now left|].
  specialize (IH s). destruct (f s) as [s' p']. cbn [snd] in IH. right. apply IH.
Qed.

Lemma states_catch_l {A B} (k : outcome A -> prog B) x p : forall s,
  In x (states p s) -> In x (states (catch p k) s).
Proof.
  induction p as [o|f IH] using prog_ind'; intros s I; cbn [catch run states] in *.
  - destruct I as [<-|[]]. apply states_head.
  - specialize (IH s). destruct (f s) as [s' p']. cbn [snd] in IH. destruct I; [now left|right; auto].
Qed.

Lemma states_catch_r {A B} (k : outcome A -> prog B) x p : forall s,
  In x (states (k (snd (run p s))) (fst (run p s))) -> In x (states (catch p k) s).
Proof.
  induction p as [o|f IH] using prog_ind'; intros s I; cbn [catch run states] in *; auto.
  specialize (IH s). destruct (f s) as [s' p']. cbn [snd] in IH. right. auto.
Qed.

Lemma states_then {A B} (p : prog A) (k : A -> prog B) s s' a x :
  run p s = (s', Ok a) -> In x (states (k a) s') -> In x (states (andthen p k) s).
Proof. intros E I. unfold andthen. apply states_catch_r. now rewrite E. Qed.

Lemma run_call {A} (f : fsys -> fsys * outcome A) s : run (call f) s = f s.
Proof. unfold call; cbn. now destruct (f s). Qed.

Lemma run_then {A B} (p : prog A) (k : A -> prog B) s s' a :
  run p s = (s', Ok a) -> run (andthen p k) s = run (k a) s'.
Proof. intros E. unfold andthen. rewrite run_catch, E. reflexivity. Qed.

(** [tri p s C Q]: run from [s], all states on the way satisfy [C], and the end satisfies [Q]. *)
Definition tri {A} (p : prog A) (s : fsys) (C : fsys -> Prop) (Q : fsys -> outcome A -> Prop) : Prop :=
  Forall C (states p s) /\ Q (fst (run p s)) (snd (run p s)).

Lemma tri_ret {A} (o : outcome A) s (C : fsys -> Prop) (Q : fsys -> outcome A -> Prop) :
  C s -> Q s o -> tri (Ret o) s C Q.
Proof. intros. split; cbn; auto. Qed.

Lemma tri_step {A} f s (C : fsys -> Prop) (Q : fsys -> outcome A -> Prop) :
  C s -> tri (snd (f s)) (fst (f s)) C Q -> tri (Step f) s C Q.
Proof. intros Cs (F & q). unfold tri; cbn. destruct (f s) as [s' p']; cbn in *. split; auto. Qed.

Lemma tri_catch {A B} (p : prog A) (k : outcome A -> prog B) s C (Q : fsys -> outcome B -> Prop) :
  tri p s C (fun s' o => tri (k o) s' C Q) -> tri (catch p k) s C Q.
Proof. intros (F & F' & q). split; [now apply states_catch|now rewrite run_catch]. Qed.

Lemma tri_then {A B} (p : prog A) (k : A -> prog B) s C (Q : fsys -> outcome B -> Prop) :
  tri p s C (fun s' o => match o with Ok a => tri (k a) s' C Q | Err => C s' /\ Q s' Err
                                    | Panic => C s' /\ Q s' Panic | Fuel => C s' /\ Q s' Fuel end) ->
  tri (andthen p k) s C Q.
Proof.
  intros (F & q). apply tri_catch. split; auto.
  destruct (snd (run p s)); auto; destruct q; now apply tri_ret.
Qed.

Lemma tri_call {A} (f : fsys -> fsys * outcome A) s (C : fsys -> Prop) (Q : fsys -> outcome A -> Prop) :
  C s -> C (fst (f s)) -> Q (fst (f s)) (snd (f s)) -> tri (call f) s C Q.
Proof.
  intros. unfold call. apply tri_step; auto. destruct (f s) as [s' o]; cbn in *. now apply tri_ret.
Qed.

Lemma tri_weaken {A} (p : prog A) s (C C' : fsys -> Prop) (Q Q' : fsys -> outcome A -> Prop) :
  tri p s C Q -> (forall x, C x -> C' x) -> (forall x o, Q x o -> Q' x o) -> tri p s C' Q'.
Proof. intros (F & q) HC HQ. split; auto. eapply Forall_impl; eauto. Qed.

Lemma tri_run {A} (p : prog A) s C (Q : fsys -> outcome A -> Prop) : tri p s C Q -> Q (fst (run p s)) (snd (run p s)).
Proof. now intros (_ & q). Qed.

(** ** Writing *)
Lemma put_byte_end X b : put_byte X (length X) b = X ++ [b].
Proof.
  unfold put_byte. rewrite firstn_all, Nat.sub_diag. cbn [repeat app].
  now rewrite skipn_all2 by lia.
Qed.

Lemma tri_bytes s0 d res w : forall X (C : fsys -> Prop) (Q : fsys -> outcome unit -> Prop), d < length (f_data s0) ->
  (forall k, k <= length w -> C (set_data s0 d (X ++ firstn k w))) ->
  Q (set_data s0 d (X ++ w)) res ->
  tri (p_bytes d (length X) w res) (set_data s0 d X) C Q.
Proof.
  induction w as [|b w IH]; intros X C Q L HC HQ; cbn [p_bytes].
  - apply tri_ret.
    + specialize (HC 0 (Nat.le_0_l _)). cbn in HC. now rewrite app_nil_r in HC.
    + now rewrite app_nil_r in HQ.
  - apply tri_step; cbn [fst snd].
    + specialize (HC 0 (Nat.le_0_l _)). cbn in HC. now rewrite app_nil_r in HC.
    + rewrite data_set_same by auto. rewrite put_byte_end, set_data_twice.
      replace (S (length X)) with (length (X ++ [b])) by (rewrite app_length; cbn; lia).
      apply IH; auto.
      * intros k Hk. specialize (HC (S k)). cbn [firstn length] in HC.
        rewrite <- app_assoc. cbn [app]. apply HC. lia.
      * now rewrite <- app_assoc.
Qed.

Lemma tri_write s0 d w X (C : fsys -> Prop) (Q : fsys -> outcome unit -> Prop) : d < length (f_data s0) -> f_faults s0 = [] ->
  (forall k, k <= length w -> C (set_data s0 d (X ++ firstn k w))) ->
  Q (set_data s0 d (X ++ w)) (Ok tt) ->
  tri (p_write d (length X) w) (set_data s0 d X) C Q.
Proof.
  intros L F HC HQ. apply tri_step.
  - specialize (HC 0 (Nat.le_0_l _)). cbn in HC. now rewrite app_nil_r in HC.
  - assert (E : f_faults (set_data s0 d X) = []) by exact F. rewrite E. cbn [fst snd].
    now apply tri_bytes.
Qed.

(** ** Copying the old data *)
(** The whole chunks of [area]. *)
Definition kept (ck : Z) (area : bytes) : bytes := firstn (Z.to_nat (zlen area / ck * ck)) area.

Lemma kept_short ck area : (zlen area < ck)%Z -> kept ck area = [].
Proof. intros L. unfold kept. rewrite Z.div_small by (pose proof (zlen_nonneg area); lia). reflexivity. Qed.

Lemma kept_step ck area : (0 < ck)%Z -> (ck <= zlen area)%Z ->
  kept ck area = firstn (Z.to_nat ck) area ++ kept ck (skipn (Z.to_nat ck) area).
Proof.
  intros P L. unfold kept.
  assert (E : zlen (skipn (Z.to_nat ck) area) = (zlen area - ck)%Z)
    by (unfold zlen in *; rewrite skipn_length; lia).
  rewrite E. replace (zlen area) with (zlen area - ck + 1 * ck)%Z at 1 by lia.
  rewrite Z.div_add by lia.
  set (q := ((zlen area - ck) / ck)%Z).
  assert (0 <= q)%Z by (apply Z.div_pos; lia).
  replace ((q + 1) * ck)%Z with (ck + q * ck)%Z by lia.
  rewrite Z2Nat.inj_add by nia.
  set (a := Z.to_nat ck). set (b := Z.to_nat (q * ck)). clearbody a b.
  rewrite <- (firstn_skipn a area) at 1.
  rewrite firstn_app. rewrite firstn_length.
  assert (a <= length area \/ length area < a) as [La|La] by lia.
  - rewrite Nat.min_l by lia. rewrite firstn_firstn, Nat.min_r by lia. do 2 f_equal. lia.
  - rewrite (skipn_all2 (n := a)) by lia. rewrite !firstn_nil, !app_nil_r. rewrite firstn_firstn. f_equal. lia.
Qed.

Lemma kept_all ck area : (0 < ck)%Z -> (exists k, zlen area = (k * ck)%Z) -> kept ck area = area.
Proof.
  intros P (k & E). unfold kept. rewrite E, Z.div_mul by lia. rewrite <- E.
  unfold zlen. rewrite Nat2Z.id. apply firstn_all.
Qed.

Lemma kept_zlen ck area : (0 < ck)%Z -> zlen (kept ck area) = (zlen area - zlen area mod ck)%Z.
Proof.
  intros P. unfold kept, zlen at 1. rewrite firstn_length.
  pose proof (Z.div_mod (zlen area) ck). pose proof (Z.mod_pos_bound (zlen area) ck P).
  pose proof (zlen_nonneg area). assert (0 <= zlen area / ck)%Z by (apply Z.div_pos; lia).
  unfold zlen in *. rewrite Nat.min_l; nia.
Qed.

Lemma kept_prefix ck area : exists n, kept ck area = firstn n area.
Proof. eexists; reflexivity. Qed.

Lemma read_at_spec s h i p n off : nth_error (f_handles s) h = Some (Handle i p true) ->
  (0 < n)%Z -> (0 <= off)%Z ->
  read_at s h n off =
  if (off + n <=? zlen (data_of s i))%Z
  then Ok (firstn (Z.to_nat n) (skipn (Z.to_nat off) (data_of s i))) else Err.
Proof.
  intros E Hn Ho. unfold read_at. rewrite E.
  replace (off <? 0)%Z with false by (symmetry; apply Z.ltb_ge; lia).
  replace (n =? 0)%Z with false by (symmetry; apply Z.eqb_neq; lia). reflexivity.
Qed.

Lemma skipn_zlen {A} (l : list A) k : k <= length l -> zlen (skipn k l) = (zlen l - Z.of_nat k)%Z.
Proof. intros. unfold zlen. rewrite skipn_length. lia. Qed.

Lemma copy_loop_tri s0 conn i0 p0 d ck : (0 < ck)%Z -> d < length (f_data s0) -> f_faults s0 = [] ->
  nth_error (f_handles s0) conn = Some (Handle i0 p0 true) -> i0 <> d ->
  forall fuel roff X (C : fsys -> Prop) (Q : fsys -> outcome nat -> Prop),
  let area := skipn roff (data_of s0 i0) in
  roff <= length (data_of s0 i0) -> length area < fuel ->
  (forall k, C (set_data s0 d (X ++ firstn k (kept ck area)))) ->
  Q (set_data s0 d (X ++ kept ck area)) (Ok (length (X ++ kept ck area))) ->
  tri (copy_loop fuel conn ck (Z.of_nat roff) d (length X)) (set_data s0 d X) C Q.
Proof.
  intros P Ld Ff Eh Nd. induction fuel as [|fuel IH]; intros roff X C Q area Lr Lf HC HQ; [lia|].
  cbn [copy_loop]. apply tri_step.
  { specialize (HC 0). cbn in HC. now rewrite app_nil_r in HC. }
  cbn [fst snd].
  assert (Eh' : nth_error (f_handles (set_data s0 d X)) conn = Some (Handle i0 p0 true)) by exact Eh.
  rewrite (read_at_spec _ _ _ _ _ _ Eh') by lia.
  rewrite data_set_other by auto. rewrite Nat2Z.id.
  assert (Za : zlen area = (zlen (data_of s0 i0) - Z.of_nat roff)%Z) by (apply skipn_zlen; auto).
  destruct (Z.leb_spec (Z.of_nat roff + ck) (zlen (data_of s0 i0))) as [L|L].
  - fold area. set (b := firstn (Z.to_nat ck) area).
    assert (Lb : length b = Z.to_nat ck) by (unfold b; rewrite firstn_length; unfold zlen in *; lia).
    assert (Ek : kept ck area = b ++ kept ck (skipn (Z.to_nat ck) area)) by (apply kept_step; lia).
    assert (Es : skipn (Z.to_nat ck) area = skipn (roff + Z.to_nat ck) (data_of s0 i0)).
    { unfold area. rewrite skipn_skipn'. f_equal. lia. }
    apply tri_catch. apply tri_write; auto.
    + intros k Hk. specialize (HC k). rewrite Ek in HC. rewrite firstn_app in HC.
      replace (k - length b) with 0 in HC by lia. cbn [firstn] in HC. now rewrite app_nil_r in HC.
    + replace (Z.of_nat roff + zlen b)%Z with (Z.of_nat (roff + Z.to_nat ck)) by (unfold zlen; lia).
      replace (length X + length b) with (length (X ++ b)) by apply app_length.
      apply IH.
      * unfold zlen in *. lia.
      * rewrite <- Es. rewrite skipn_length. unfold zlen in *. lia.
      * intros k. rewrite <- Es. specialize (HC (length b + k)). rewrite Ek in HC.
        rewrite firstn_app_2 in HC. now rewrite <- app_assoc.
      * rewrite <- Es. rewrite <- app_assoc. rewrite Ek in HQ. exact HQ.
  - assert (Ek : kept ck area = []) by (apply kept_short; lia).
    rewrite Ek, app_nil_r in *. apply tri_ret; auto.
    specialize (HC 0). cbn in HC. now rewrite app_nil_r in HC.
Qed.

Lemma write_pending_tri s0 d l : d < length (f_data s0) -> f_faults s0 = [] ->
  forall X (C : fsys -> Prop) (Q : fsys -> outcome unit -> Prop),
  (forall k, C (set_data s0 d (X ++ firstn k (batch_data l)))) ->
  Q (set_data s0 d (X ++ batch_data l)) (Ok tt) ->
  tri (write_pending d (length X) l) (set_data s0 d X) C Q.
Proof.
  intros Ld Ff. induction l as [|c l IH]; intros X C Q HC HQ; cbn [write_pending].
  - cbn in HQ. rewrite app_nil_r in HQ. apply tri_ret; auto.
    specialize (HC 0). cbn in HC. now rewrite app_nil_r in HC.
  - change (batch_data (c :: l)) with (ct_data c ++ batch_data l) in *.
    apply tri_catch. apply tri_write; auto.
    + intros k Hk. specialize (HC k). rewrite firstn_app in HC.
      replace (k - length (ct_data c)) with 0 in HC by lia. cbn [firstn] in HC. now rewrite app_nil_r in HC.
    + replace (length X + length (ct_data c)) with (length (X ++ ct_data c)) by apply app_length.
      apply IH.
      * intros k. specialize (HC (length (ct_data c) + k)). rewrite firstn_app_2 in HC. now rewrite <- app_assoc.
      * now rewrite <- app_assoc.
Qed.

(** ** Well-formed file systems *)
Definition fs_ok (s : fsys) : Prop :=
  (forall n i, dir_get (f_dir s) n = Some (EFile i) -> i < length (f_data s)) /\
  (forall n m i, dir_get (f_dir s) n = Some (EFile i) -> dir_get (f_dir s) m = Some (EFile i) -> n = m).

Lemma sys_create_spec n s : fs_ok s -> dir_get (f_dir s) n <> Some EDir ->
  exists s' i, sys_create n s = (s', Ok i) /\
    (forall m, dir_get (f_dir s') m = if bytes_eqb n m then Some (EFile i) else dir_get (f_dir s) m) /\
    data_of s' i = [] /\ (forall j, j <> i -> data_of s' j = data_of s j) /\
    length (f_data s) <= length (f_data s') /\ i < length (f_data s') /\
    f_handles s' = f_handles s /\ f_locks s' = f_locks s /\ f_faults s' = f_faults s /\
    (dir_get (f_dir s) n = Some (EFile i) \/ (dir_get (f_dir s) n = None /\ i = length (f_data s))) /\
    fs_ok s'.
Proof.
  intros (V & I) N. unfold sys_create. destruct (dir_get (f_dir s) n) as [[i|]|] eqn:E; [| congruence |].
  - exists (set_data s i []), i. pose proof (V _ _ E) as L. repeat split; auto.
    + intros m. cbn. destruct (bytes_eqb n m) eqn:Em; auto. apply bytes_eqb_true in Em. now subst.
    + now apply data_set_same.
    + intros j Nj. apply data_set_other. auto.
    + cbn. rewrite set_nth_length. auto.
    + cbn. rewrite set_nth_length. auto.
    + intros m j Em. cbn in *. rewrite set_nth_length. eapply V; eauto.
  - eexists _, _. split; [reflexivity|]. cbn [f_dir f_data f_handles f_locks f_faults with_data with_dir].
    repeat split; auto.
    + intros m. now rewrite dir_get_set.
    + unfold data_of; cbn. rewrite app_nth2 by lia. now rewrite Nat.sub_diag.
    + intros j Nj. unfold data_of; cbn. destruct (Nat.lt_ge_cases j (length (f_data s))).
      * now rewrite app_nth1.
      * rewrite app_nth2 by lia. destruct (j - length (f_data s)) as [|[|k]] eqn:Ej; [lia| |]; cbn;
        rewrite nth_overflow; auto.
    + rewrite app_length. lia.
    + rewrite app_length; cbn; lia.
    + intros m j. cbn [f_dir f_data with_data with_dir]. rewrite dir_get_set, app_length. cbn [length].
      destruct (bytes_eqb n m); intros Ej; [inversion Ej; lia|]. apply V in Ej. lia.
    + intros m m' j. cbn [f_dir f_data with_data with_dir]. rewrite !dir_get_set.
      destruct (bytes_eqb n m) eqn:E1, (bytes_eqb n m') eqn:E2; intros Ha Hb.
      * apply bytes_eqb_true in E1, E2. congruence.
      * inversion Ha; subst. apply V in Hb. lia.
      * inversion Hb; subst. apply V in Ha. lia.
      * eapply I; eauto.
Qed.
