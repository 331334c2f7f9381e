(** Loss of power, and files cut short. *)
From Coq Require Import List ZArith NArith Lia Bool.
From Coq Require Import Init.Byte Strings.Byte.
From Verif Require Import Base BaseLemmas HashModel HashProofs SpecHash HashTreeModel HashTreeProofs
  RefModel RefProofs SpecRef DbModel SpecDb DbRefProofs DbFsProofs DbCommitProofs DbOpenProofs DbApiProofs
  DbSession DbSessionProofs DbMoreProofs DbMultiProofs DbFrameProofs DbConcurrent DbConcurrentProofs
  DbScheduleProofs DbSchedule3 SpecPower.
Import ListNotations.

(** ** The keys of a history *)
Fixpoint spots (from : Z) (cs : list content) : list (bytes * Z * pointer) :=
  match cs with
  | [] => []
  | c :: cs' => (ct_hash c, ct_kind c, Pointer from (zlen (ct_data c))) :: spots (from + zlen (ct_data c)) cs'
  end.
Definition spot (k : content_key) : bytes * Z * pointer := (k_hash k, k_kind k, k_content k).

Lemma spots_app x : forall y from, spots from (x ++ y) = spots from x ++ spots (from + zlen (batch_data x)) y.
Proof.
  induction x as [|c x IH]; intros y from; cbn [spots app].
  - cbn. now rewrite Z.add_0_r.
  - rewrite IH. change (batch_data (c :: x)) with (ct_data c ++ batch_data x). rewrite zlen_app. now rewrite Z.add_assoc.
Qed.

Lemma place_spots h cs : forall from, map spot (place h from cs) = spots from cs.
Proof. induction cs as [|c cs IH]; intros from; cbn [place map spots]; [reflexivity|]. now rewrite IH. Qed.

Lemma history_spots H mv bs : forall p from, map spot (history_keys H mv p from bs) = spots from (history_contents bs).
Proof.
  induction bs as [|b bs IH]; intros p from; cbn [history_keys]; [reflexivity|].
  change (history_contents (b :: bs)) with (fst b ++ history_contents bs).
  now rewrite map_app, place_spots, IH, spots_app.
Qed.

Lemma spots_length cs : forall from, length (spots from cs) = length cs.
Proof. induction cs; intros; cbn; auto. Qed.

Lemma history_key_at H mv bs before ct after : history_contents bs = before ++ ct :: after ->
  exists k ks1 ks2, history_keys H mv None 0 bs = ks1 ++ k :: ks2 /\ length ks1 = length before /\
    k_hash k = ct_hash ct /\ k_kind k = ct_kind ct /\ k_content k = Pointer (zlen (batch_data before)) (zlen (ct_data ct)) /\
    map k_hash ks2 = map ct_hash after.
Proof.
  intros E. pose proof (history_spots H mv bs None 0) as Sp. rewrite E, spots_app in Sp. cbn [spots] in Sp.
  apply map_eq_app in Sp as (ks1 & ks' & -> & E1 & E2).
  apply map_eq_cons in E2 as (k & ks2 & -> & E2 & E3).
  exists k, ks1, ks2. split; [reflexivity|]. split.
  - rewrite <- (map_length spot), E1. apply spots_length.
  - unfold spot in E2. injection E2 as A B C. repeat split; auto.
    assert (G : map k_hash ks2 = map (fun x => fst (fst x)) (map spot ks2)) by (rewrite map_map; reflexivity).
    rewrite G, E3. generalize (0 + zlen (batch_data before) + zlen (ct_data ct))%Z. clear. induction after as [|c l IH]; intros z; cbn; [reflexivity|].
    f_equal. apply IH.
Qed.

(** ** A file cut short *)
Lemma read_chunks_short d size last : (0 < size)%Z -> (0 <= last)%Z ->
  forall k off, (0 <= off <= zlen d)%Z -> (zlen d < off + Z.of_nat k * size + last)%Z ->
  read_chunks d (S k) size last off = Err.
Proof.
  intros P Q. induction k as [|k IH]; intros off A B.
  - change (read_chunks d 1 size last off) with
      (if (last <? 0)%Z then Panic else
       do b <- (if (last =? 0)%Z then Ok [] else if (off + last <=? zlen d)%Z
       then Ok (firstn (Z.to_nat last) (skipn (Z.to_nat off) d)) else Err);
       do r <- read_chunks d 0 size last (off + last); Ok (b ++ fst r, snd r)).
    ltb_false. replace (last =? 0)%Z with false by (symmetry; apply Z.eqb_neq; lia).
    destruct (Z.leb_spec (off + last) (zlen d)); [lia|reflexivity].
  - change (read_chunks d (S (S k)) size last off) with
      (if (size <? 0)%Z then Panic else
       do b <- (if (size =? 0)%Z then Ok [] else if (off + size <=? zlen d)%Z
       then Ok (firstn (Z.to_nat size) (skipn (Z.to_nat off) d)) else Err);
       do r <- read_chunks d (S k) size last (off + size); Ok (b ++ fst r, snd r)).
    ltb_false. replace (size =? 0)%Z with false by (symmetry; apply Z.eqb_neq; lia).
    destruct (Z.leb_spec (off + size) (zlen d)); [|reflexivity]. cbn [bind].
    rewrite IH; [reflexivity|lia|lia].
Qed.

Section Cut.
  Variable H : bytes -> bytes.
  Variable mv : byte.
  Variable behind : bytes -> bytes.
  Hypothesis HL : forall x, length (H x) = 64.

  Lemma retrieve_cut chunk r w v : wf_reference H mv r -> (0 < chunk)%Z -> (zlen (header (Some r)) < two63)%Z ->
    w ++ v = header (Some r) -> v <> [] -> (8 <= zlen w)%Z ->
    retrieve_reference H mv behind chunk w = Err.
  Proof.
    intros W P L E Nv Lw. cbn [header] in *. set (rc := reference_content r) in *.
    assert (Nz : (0 < zlen v)%Z) by (unfold zlen; destruct v; [congruence|cbn [length]; lia]).
    pose proof (f_equal zlen E) as Lz. rewrite !zlen_app, zlen_put_u64 in Lz. rewrite zlen_app, zlen_put_u64 in L.
    assert (E8 : firstn 8 w = put_u64 (zlen rc)).
    { assert (X : firstn 8 (w ++ v) = firstn 8 w).
      { rewrite firstn_app. unfold zlen in Lw. replace (8 - length w) with 0 by lia. cbn [firstn]. apply app_nil_r. }
      rewrite <- X, E. apply firstn_app_exact. apply put_u64_length. }
    unfold retrieve_reference. ltb_false. rewrite E8.
    rewrite unle_put_u64. rewrite i64_mod, (i64_small (zlen rc)) by lia.
    rewrite (u64_small (zlen rc)) by (rewrite two63_val, two64_val in *; lia).
    assert (S0 : (0 < make_chunk chunk (zlen rc) <= zlen rc)%Z)
      by (unfold make_chunk; destruct (Z.ltb_spec (zlen rc) chunk); lia).
    rewrite i64_small by lia.
    set (size := make_chunk chunk (zlen rc)) in *.
    replace (size =? 0)%Z with false by (symmetry; apply Z.eqb_neq; lia).
    rewrite Z.quot_div_nonneg by lia.
    set (q := (zlen rc / size)%Z).
    assert (Q0 : (0 <= q)%Z) by (apply Z.div_pos; lia).
    assert (Qm : (0 <= zlen rc - size * q < size)%Z).
    { unfold q. pose proof (Z.div_mod (zlen rc) size). pose proof (Z.mod_pos_bound (zlen rc) size). lia. }
    replace (q + 1 - 1)%Z with q by lia.
    destruct (Z.le_gt_cases (q + 1) (zlen w + 2)) as [Le|Gt].
    - rewrite Z.min_l by lia. replace (Z.to_nat (q + 1)) with (S (Z.to_nat q)) by lia.
      rewrite read_chunks_short; [reflexivity|lia|lia|lia|]. rewrite Z2Nat.id by lia. nia.
    - rewrite Z.min_r by lia. replace (Z.to_nat (zlen w + 2)) with (S (S (Z.to_nat (zlen w)))) by lia.
      rewrite read_chunks_past; [reflexivity|lia|lia|]. nia.
  Qed.

  Lemma open_with a x n w ref off : a_ctxs a = [] -> file_at x n = Some w ->
    retrieve_reference H mv behind (a_chunk a) w = Ok (ref, off) ->
    exists i, dir_get (f_dir x) n = Some (EFile i) /\ data_of x i = w /\
      let h := length (f_handles x) in
      open_db H mv behind n a x = (with_handles x (f_handles x ++ [Handle i 0 true]),
        with_ctxs a [(0%Z, Ctx 0 n h ref off [])], Ok 0%Z).
  Proof.
    intros Ea Ef Er. unfold file_at in Ef. destruct (dir_get (f_dir x) n) as [[i|]|] eqn:E; try discriminate.
    assert (Ed : data_of x i = w) by (inversion Ef; reflexivity). exists i. split; [reflexivity|]. split; [exact Ed|]. cbv zeta.
    unfold open_db. rewrite Ea. cbn [existsb]. rewrite E, Ed, Er. unfold sys_open. rewrite E. reflexivity.
  Qed.

  Lemma open_err a x n w : a_ctxs a = [] -> file_at x n = Some w ->
    retrieve_reference H mv behind (a_chunk a) w = Err -> open_db H mv behind n a x = (x, a, Err).
  Proof.
    intros Ea Ef Er. unfold file_at in Ef. destruct (dir_get (f_dir x) n) as [[i|]|] eqn:E; try discriminate.
    assert (Ed : data_of x i = w) by (inversion Ef; reflexivity). unfold open_db. rewrite Ea. cbn [existsb]. now rewrite E, Ed, Er.
  Qed.

  Lemma shows_nothing a s n h off : shows H (with_ctxs a [(0%Z, Ctx 0 n h None off [])], s, 0%Z) [].
  Proof.
    unfold shows. split; [|split; [|split]].
    - exists []. split; [reflexivity|constructor].
    - exists []. split; [constructor|]. intros kind sel Se. inversion Se; subst. reflexivity.
    - intros h0 ct (l1 & l2 & E & _). destruct l1; discriminate.
    - reflexivity.
  Qed.

  Lemma shows_some_in app id pd s n h i bs area rest : bs <> [] -> Forall ok_batch bs -> fits H mv bs ->
    area ++ rest = history_data bs ->
    ctx_get (a_ctxs app) id = Some (Ctx id n h (history_ref H mv bs) (zlen (header (history_ref H mv bs))) pd) ->
    nth_error (f_handles s) h = Some (Handle i 0 true) -> data_of s i = header (history_ref H mv bs) ++ area ->
    shows_first H (app, s, id) bs (zlen area).
  Proof.
    intros Nb Fb Ft Ea Ec Eh Ed. unfold shows_first.
    set (hd := header (history_ref H mv bs)) in *.
    assert (Er : history_ref H mv bs = Some (Reference (history_keys H mv None 0 bs) (chain H mv None bs))) by (destruct bs; [congruence|reflexivity]).
    assert (Ek : content_keys app id = Ok (history_keys H mv None 0 bs)) by (unfold content_keys; rewrite Ec; cbn [x_ref]; now rewrite Er).
    assert (Ty : Forall ok_content (history_contents bs)).
    { unfold history_contents. clear - Fb. induction Fb as [|b l (_ & F & _) _ IH]; cbn; [constructor|]. apply Forall_app. auto. }
    assert (Rd : forall before ct after, history_contents bs = before ++ ct :: after ->
      read_db app s id (Pointer (zlen (batch_data before)) (zlen (ct_data ct))) =
      if (zlen (batch_data (before ++ [ct])) <=? zlen area)%Z then Ok (ct_data ct) else Err).
    { intros before ct after E.
      assert (Eb : history_data bs = batch_data before ++ ct_data ct ++ batch_data after).
      { assert (X : history_data bs = batch_data (history_contents bs)).
        { clear. induction bs as [|b l IH]; [reflexivity|].
          change (history_data (b :: l)) with (batch_data (fst b) ++ history_data l). rewrite IH.
          unfold history_contents. cbn [map concat]. unfold batch_data at 3. rewrite map_app, concat_app. reflexivity. }
        rewrite X, E. unfold batch_data. rewrite map_app, concat_app. cbn [map concat]. reflexivity. }
      unfold fits, history_file in Ft. fold hd in Ft. rewrite zlen_app, Eb, !zlen_app in Ft.
      pose proof (zlen_nonneg hd). pose proof (zlen_nonneg (batch_data before)). pose proof (zlen_nonneg (batch_data after)).
      assert (Pc : (0 < zlen (ct_data ct))%Z).
      { rewrite E in Ty. apply Forall_app in Ty as (_ & Ty). inversion Ty as [|? ? (_ & N & _) _]; subst.
        unfold zlen. destruct (ct_data ct); [congruence|cbn [length]; lia]. }
      rewrite (read_area s hd area h i _ _ _ _ _ Ec eq_refl eq_refl Eh Ed) by lia.
      replace (zlen (ct_data ct) =? 0)%Z with false by (symmetry; apply Z.eqb_neq; lia).
      assert (Ez : zlen (batch_data (before ++ [ct])) = (zlen (batch_data before) + zlen (ct_data ct))%Z).
      { unfold batch_data. rewrite map_app, concat_app. cbn [map concat]. now rewrite app_nil_r, zlen_app. }
      rewrite Ez. destruct (Z.leb_spec (zlen (batch_data before) + zlen (ct_data ct)) (zlen area)) as [Le|Gt]; [|reflexivity].
      f_equal. transitivity (sub (history_data bs) (zlen (batch_data before)) (zlen (ct_data ct))).
      - rewrite <- Ea. unfold sub. unfold zlen in *. rewrite !Nat2Z.id.
        rewrite skipn_app, firstn_app, skipn_length.
        replace (length (ct_data ct) - (length area - length (batch_data before))) with 0 by lia.
        cbn [firstn]. now rewrite app_nil_r.
      - rewrite Eb. now rewrite sub_app_mid. }
    split; [|split; [|split]].
    - exists (chain H mv None bs). split; [|now apply chain_linked].
      unfold commits_db. rewrite Ec. cbn [x_ref]. now rewrite Er.
    - exists (history_keys H mv None 0 bs). split.
      + intros before ct after E. destruct (history_key_at H mv bs before ct after E) as (k & ks1 & ks2 & E1 & E2 & A & B & C & _).
        exists k. split; [rewrite E1, <- E2, nth_error_app2, Nat.sub_diag by lia; reflexivity|].
        split; [exact A|]. split; [exact B|]. rewrite C. eapply Rd; eauto.
      + intros kind sel Es. unfold content_keys_by_kind. rewrite Ek. cbn [bind].
        pose proof (keys_by_kind_spec (history_keys H mv None 0 bs) kind) as K.
        rewrite (selects_unique _ _ _ _ Es K). reflexivity.
    - intros before ct after E Fa. destruct (history_key_at H mv bs before ct after E) as (k & ks1 & ks2 & E1 & E2 & A & B & C & D).
      unfold read_by_hash. rewrite Ek. cbn [bind].
      assert (Lk : last_such (fun x => k_hash x = ct_hash ct) (history_keys H mv None 0 bs) k).
      { exists ks1, ks2. split; [exact E1|]. split; [exact A|]. rewrite Forall_forall in *. intros y Iy X.
        apply (in_map k_hash) in Iy. rewrite D in Iy. apply in_map_iff in Iy as (c0 & E0 & I0). apply (Fa c0 I0). congruence. }
      destruct (keys_fetch_spec (history_keys H mv None 0 bs) (ct_hash ct)) as [(k' & -> & F)|(-> & F)]; cbn [bind].
      + rewrite (last_such_unique _ _ _ _ F Lk), C. eapply Rd; eauto.
      + exfalso. rewrite E1 in F. apply Forall_app in F as (_ & F). inversion F; subst. auto.
    - intros h0 Fn. unfold read_by_hash. rewrite Ek. cbn [bind].
      destruct (keys_fetch_spec (history_keys H mv None 0 bs) h0) as [(k' & -> & F)|(-> & F)]; [|reflexivity].
      exfalso. destruct F as (l1 & l2 & El & Ek0 & _).
      pose proof (history_spots H mv bs None 0) as Sp. apply (f_equal (map (fun x => fst (fst x)))) in Sp. rewrite map_map in Sp.
      assert (G : forall cs z, map (fun x => fst (fst x)) (spots z cs) = map ct_hash cs)
        by (induction cs as [|c l IH]; intros z; cbn; [reflexivity|]; f_equal; apply IH).
      rewrite G, El, map_app in Sp. cbn [map spot fst] in Sp.
      assert (I0 : In (k_hash k') (map ct_hash (history_contents bs))) by (rewrite <- Sp; apply in_or_app; right; now left).
      apply in_map_iff in I0 as (c0 & E0 & I0). rewrite Forall_forall in Fn. apply (Fn c0 I0). congruence.
  Qed.

  Lemma shows_some a s n h i bs area rest : bs <> [] -> Forall ok_batch bs -> fits H mv bs ->
    area ++ rest = history_data bs ->
    nth_error (f_handles s) h = Some (Handle i 0 true) -> data_of s i = header (history_ref H mv bs) ++ area ->
    shows_first H (with_ctxs a [(0%Z, Ctx 0 n h (history_ref H mv bs) (zlen (header (history_ref H mv bs))) [])], s, 0%Z) bs (zlen area).
  Proof. intros Nb Fb Ft Ea Eh Ed. eapply shows_some_in; eauto. reflexivity. Qed.

  (** Opening the beginning of a file of a history. *)
  Lemma open_cut a x n bs w v : a_ctxs a = [] -> (0 < a_chunk a)%Z -> Forall ok_batch bs -> fits H mv bs ->
    file_at x n = Some w -> w ++ v = history_file H mv bs ->
    ((zlen w < 8)%Z -> exists s' a', open_db H mv behind n a x = (s', a', Ok 0%Z) /\ shows H (a', s', 0%Z) []) /\
    ((8 <= zlen w < zlen (header (history_ref H mv bs)))%Z -> open_db H mv behind n a x = (x, a, Err)) /\
    ((8 <= zlen w)%Z -> (zlen (header (history_ref H mv bs)) <= zlen w)%Z ->
       exists s' a', open_db H mv behind n a x = (s', a', Ok 0%Z) /\
         shows_first H (a', s', 0%Z) bs (zlen w - zlen (header (history_ref H mv bs)))).
  Proof.
    intros Ea P Fb Ft Ef Ew.
    pose proof (fits_data H mv _ Ft) as Ld.
    unfold fits in Ft. pose proof Ft as Ft'. unfold history_file in Ft', Ew. rewrite zlen_app in Ft'.
    pose proof (zlen_nonneg (history_data bs)).
    split; [|split].
    - intros L. destruct (open_with a x n w None 0 Ea Ef (retrieve_none H mv behind _ _ L)) as (i & _ & _ & E).
      cbv zeta in E. eexists _, _. split; [exact E|]. apply shows_nothing.
    - intros (L1 & L2). apply (open_err a x n w Ea Ef). destruct (history_ref H mv bs) as [r|] eqn:Er; [|cbn in L2; lia].
      apply (retrieve_cut _ r w (skipn (length w) (header (Some r)))); auto.
      + eapply history_ref_wf; eauto.
      + lia.
      + assert (X : w = firstn (length w) (header (Some r))).
        { assert (Y : firstn (length w) (w ++ v) = w) by (rewrite firstn_app, Nat.sub_diag, firstn_all; cbn; apply app_nil_r).
          rewrite Ew in Y. rewrite firstn_app in Y. unfold zlen in L2.
          replace (length w - length (header (Some r))) with 0 in Y by lia. cbn [firstn] in Y. now rewrite app_nil_r in Y. }
        rewrite X at 1. apply firstn_skipn.
      + intros X. apply (f_equal (@length byte)) in X. rewrite skipn_length in X. unfold zlen in L2. cbn [length] in X. lia.
    - intros L1 L2.
      set (hd := header (history_ref H mv bs)) in *.
      assert (X : w = hd ++ skipn (length hd) w).
      { rewrite <- (firstn_skipn (length hd) w) at 1. f_equal.
        assert (Y : firstn (length hd) (w ++ v) = hd) by (rewrite Ew, firstn_app, Nat.sub_diag, firstn_all; cbn; apply app_nil_r).
        rewrite firstn_app in Y. unfold zlen in L2. replace (length hd - length w) with 0 in Y by lia. cbn [firstn] in Y. now rewrite app_nil_r in Y. }
      set (area := skipn (length hd) w) in *.
      assert (Ed : area ++ v = history_data bs).
      { rewrite X, <- app_assoc in Ew. now apply app_inv_head in Ew. }
      assert (Nb : bs <> []).
      { intros E0. rewrite E0 in Ed. change (history_data []) with (@nil byte) in Ed.
        apply app_eq_nil in Ed as (Ea0 & _). assert (Eh : hd = []) by (unfold hd; now rewrite E0).
        rewrite Ea0, Eh in X. rewrite X in L1. unfold zlen in L1. cbn [length app] in L1. lia. }
      assert (La : (zlen (hd ++ area) < two63)%Z).
      { pose proof (f_equal zlen Ed) as Y. rewrite zlen_app in *. pose proof (zlen_nonneg v). lia. }
      assert (Er : retrieve_reference H mv behind (a_chunk a) w = Ok (history_ref H mv bs, zlen hd)).
      { rewrite X. apply retrieve_history; auto. congruence. }
      destruct (open_with a x n w _ _ Ea Ef Er) as (i & En & Edi & E). cbv zeta in E.
      eexists _, _. split; [exact E|].
      replace (zlen w - zlen hd)%Z with (zlen area) by (rewrite X at 1; rewrite zlen_app; lia).
      apply (shows_some _ _ _ _ i bs area v); auto.
      + cbn [f_handles with_handles]. rewrite nth_error_app2, Nat.sub_diag by lia. reflexivity.
      + change (data_of (with_handles x (f_handles x ++ [Handle i 0 true])) i) with (data_of x i). now rewrite Edi.
  Qed.
End Cut.

(** ** What a commit leaves on the disk *)
Section Remain.
  Variable H : bytes -> bytes.
  Variable mv : byte.
  Hypothesis HL : forall x, length (H x) = 64.
  Variables (a : dbapp) (s : fsys) (n : bytes) (id : Z) (bs : list batch) (pd : list content) (now : Z).
  Hypothesis Sy : synced H mv a s n id bs pd.
  Hypothesis Wb : ok_batch (pd, now).
  Hypothesis Ft : fits H mv (bs ++ [(pd, now)]).
  Hypothesis Ch : chunk_ok (a_chunk a) (history_data bs).
  Notation dn := (side n (a_dst a)).
  Notation bn := (side n (a_bck a)).
  Notation old := (history_file H mv bs).
  Notation new := (history_file H mv (bs ++ [(pd, now)])).
  Notation xs := (commit_states H mv now a s id).

  Definition fresh_or (d : nat) : Prop :=
    dir_get (f_dir s) dn = Some (EFile d) \/ (dir_get (f_dir s) dn = None /\ d = length (f_data s)).
  Definition passed (i d : nat) (x : fsys) : Prop :=
    (dir_get (f_dir x) n = Some (EFile i) \/ dir_get (f_dir x) n = None \/ dir_get (f_dir x) n = Some (EFile d)) /\
    data_of x i = old /\ (data_of x d = data_of s d \/ exists v, data_of x d ++ v = new).

  Lemma commit_passes : exists i d s', dir_get (f_dir s) n = Some (EFile i) /\ fresh_or d /\ d <> i /\
    Forall (passed i d) xs /\
    (exists x, In x xs /\ data_of x d = [] /\ d < length (f_data x)) /\
    In s' xs /\
    dir_get (f_dir s') n = Some (EFile d) /\ nothing_at s' dn /\ nothing_at s' bn.
  Proof.
    destruct (commit_parts H mv HL a s n id bs pd now Sy Wb Ft Ch) as (i & h & r & s1 & s6 & s7 & s8 & s9 & s10 & d & b & off & P).
    destruct Sy as (i0 & h0 & (A1 & A2 & A3 & A4 & A5 & A6 & A7 & A8 & A9 & A10 & A11) & Ec & Eh).
    assert (i0 = i) as -> by (pose proof (pa_name _ _ _ _ _ _ _ _ _ _ _ _ _ _ _ _ _ _ _ _ _ P); congruence).
    assert (h0 = h) as -> by (pose proof (pa_ctx _ _ _ _ _ _ _ _ _ _ _ _ _ _ _ _ _ _ _ _ _ P); congruence).
    set (c := Ctx id n h (history_ref H mv bs) (zlen (header (history_ref H mv bs))) pd) in *.
    pose proof (fits_data H mv _ Ft) as L. pose proof Ch as (Pc & _).
    assert (Nh : bs <> [] -> history_data bs <> []).
    { intros N E. pose proof (history_data_pos bs N A10) as X. rewrite E in X. cbn in X. lia. }
    assert (Hc : x_ref c <> None -> (0 < a_chunk a)%Z /\ (0 <= x_off c < zlen (data_of s i))%Z).
    { intros N. assert (Nb' : bs <> []) by (intros E; apply N; cbn [x_ref c]; now rewrite E). split; auto. cbn [x_off c].
      rewrite A9. unfold history_file. rewrite zlen_app.
      pose proof (zlen_nonneg (header (history_ref H mv bs))). specialize (Nh Nb').
      assert (0 < zlen (history_data bs))%Z by (unfold zlen; destruct (history_data bs); [congruence|cbn [length]; lia]). lia. }
    assert (Inj : forall e, dir_get (f_dir s) (side n e) <> Some (EFile i)).
    { intros e X. destruct A3 as (_ & I). apply (side_neq n e). eapply I; eauto. }
    assert (Lo : (zlen (data_of s i) < two63)%Z) by (rewrite A9; exact A11).
    assert (Li : i < length (f_data s)) by (now apply A3 in A5).
    set (fuel := S (length old)).
    assert (Lf : length (data_of s i) < fuel) by (rewrite A9; unfold fuel; lia).
    assert (Es1 : s1 = with_locks s [i]) by apply P. 
    assert (M0 : mid a c s s1 (Some (EFile i)) (dir_get (f_dir s) dn) (dir_get (f_dir s) bn) None None).
    { split; [|rewrite Es1; auto]. intros m. rewrite Es1. change (f_dir (with_locks s [i])) with (f_dir s). cbn [x_name c].
      destruct (bytes_eqb n m) eqn:X; [apply bytes_eqb_true in X; now subst|].
      destruct (bytes_eqb dn m) eqn:X1; [apply bytes_eqb_true in X1; now subst|].
      destruct (bytes_eqb bn m) eqn:X2; [apply bytes_eqb_true in X2; now subst|]. auto. }
    set (d0 := match dir_get (f_dir s) dn with Some (EFile j) => j | _ => length (f_data s) end).
    assert (Di : fresh_or d0).
    { unfold fresh_or, d0. destruct (dir_get (f_dir s) dn) as [[j|]|]; [now left|congruence|now right]. }
    destruct (growth_tri a c r s i i A1 (conj Li (conj (Inj _) (Inj _))) Eh A6 A7 Lo Hc s1 fuel d0 Lf M0) as (T & x0 & I0 & D0 & L0).
    { now rewrite Es1. } { now rewrite Es1. } { now rewrite Es1. } { now rewrite Es1. } { exact Di. }
    pose proof (pa_prepared _ _ _ _ _ _ _ _ _ _ _ _ _ _ _ _ _ _ _ _ _ P) as (M6 & _).
    pose proof (pa_prepare _ _ _ _ _ _ _ _ _ _ _ _ _ _ _ _ _ _ _ _ _ P) as R6. fold c in R6. fold fuel in R6.
    destruct T as (Fa & Q). rewrite R6 in Q. cbn [fst] in Q.
    assert (d = d0) as ->.
    { pose proof (mid_dn a c s _ _ _ _ _ _ M6) as Y. cbn [x_name c] in *. congruence. }
    assert (En : newfile a c r s i = new).
    { assert (X : data_of s6 d0 = newfile a c r s i) by apply (pa_prepared _ _ _ _ _ _ _ _ _ _ _ _ _ _ _ _ _ _ _ _ _ P).
      rewrite <- X. apply P. }
    assert (Fp : Forall (fun x => data_of x d0 = data_of s d0 \/ exists v, data_of x d0 ++ v = new) (states (prepare_files fuel a c r) s1)).
    { eapply Forall_impl; [|exact Fa]. intros x. unfold grown. now rewrite En. }
    pose proof (commit_phased H mv a s n id bs pd now i h r s1 s6 s7 s8 s9 s10 d0 b off P) as Ph.
    pose proof (commit_states_eq H mv a s n id bs pd now i h r s1 s6 s7 s8 s9 s10 d0 b off P) as Eq.
    rewrite states_p_commit in Ph, Eq.
    destruct (after_data H mv a s n id bs pd now i h r s1 s6 s7 s8 s9 s10 d0 b off P) as (D7 & D8 & D9 & D10).
    assert (D6 : data_of s6 d0 = new) by apply P.
    assert (Dn : forall x, f_data x = f_data s6 -> data_of x d0 = data_of s d0 \/ exists v, data_of x d0 ++ v = new).
    { intros x E. right. exists []. unfold data_of. rewrite E. rewrite app_nil_r. exact D6. }
    assert (E10 : f_dir s10 = f_dir s9) by (rewrite (pa_s10 _ _ _ _ _ _ _ _ _ _ _ _ _ _ _ _ _ _ _ _ _ P); reflexivity).
    pose proof (s9_dir H mv a s n id bs pd now i h r s1 s6 s7 s8 s9 s10 d0 b off P) as S9.
    assert (N1 : bytes_eqb bn n = false) by (apply bytes_eqb_neq, side_neq).
    assert (N2 : bytes_eqb bn dn = false) by (apply bytes_eqb_neq; intros X; apply side_inj in X; congruence).
    assert (N3 : bytes_eqb n dn = false) by (apply bytes_eqb_neq; intros X; symmetry in X; now apply side_neq in X).
    exists i, d0, (sys_unlock i s10). split; [exact A5|]. split; [exact Di|]. split; [apply P|]. split; [|split; [|split; [|split]]].
    - apply Forall_forall. intros x Ix. unfold passed.
      assert (X1 : (dir_get (f_dir x) n = Some (EFile i) \/ dir_get (f_dir x) n = None \/ dir_get (f_dir x) n = Some (EFile d0)) /\ data_of x i = old).
      { destruct (phased_each _ _ _ _ _ _ _ _ _ _ Ph Ix) as [(Y & Z)|[(Y & Z)|(Y & _ & Z)]]; auto. }
      split; [apply X1|]. split; [apply X1|]. rewrite Eq in Ix. destruct Ix as [<-|Ix]; [now left|].
      apply in_app_or in Ix as [Ix|Ix]; [rewrite Forall_forall in Fp; auto|].
      destruct Ix as [<-|[<-|[<-|[<-|[<-|[]]]]]]; apply Dn; auto.
    - exists x0. split; [|auto]. rewrite Eq. right. apply in_or_app. now left.
    - rewrite Eq. right. apply in_or_app. right. cbn. tauto.
    - cbn [sys_unlock with_locks f_dir]. rewrite E10, S9, N1, bytes_eqb_refl. reflexivity.
    - unfold nothing_at. cbn [sys_unlock with_locks f_dir]. rewrite E10, !S9, N2, N3, !bytes_eqb_refl. auto.
  Qed.

  Lemma remains d : may_remain xs d ->
    (nothing_at d n \/ file_at d n = Some old \/ (exists f, file_at s dn = Some f /\ file_at d n = Some f) \/
     exists w v, file_at d n = Some w /\ w ++ v = new) /\
    (forall m, m <> n -> m <> dn -> m <> bn -> file_at d m = file_at s m).
  Proof.
    intros ((x & Ix & Ed) & Dt & _).
    destruct commit_passes as (i & j & s' & En & Fo & Nj & Fp & _).
    rewrite Forall_forall in Fp. split.
    - assert (Ef : file_at d n = match dir_get (f_dir x) n with Some (EFile k) => Some (data_of d k) | _ => None end)
        by (unfold file_at; now rewrite Ed).
      unfold nothing_at. rewrite Ef, Ed. clear Ef. destruct (Fp x Ix) as ([E|[E|E]] & _).
      + right; left. rewrite E. destruct (Dt i) as (y & Iy & ->). f_equal. now apply (Fp y Iy).
      + left. exact E.
      + right; right. rewrite E. destruct (Dt j) as (y & Iy & ->). destruct (Fp y Iy) as (_ & _ & [D|(v & D)]).
        * destruct Fo as [F|(F & Ej)].
          -- left. exists (data_of s j). split; [unfold file_at; now rewrite F|now rewrite D].
          -- right. exists [], new. split; [|reflexivity]. rewrite D. f_equal. unfold data_of. apply nth_overflow. lia.
        * right. exists (data_of y j), v. auto.
    - intros m Nn Nd Nb. destruct Sy as (i0 & h0 & (_ & _ & A3 & _) & Ec & _).
      pose proof (commit_frame_all H mv now a s id _ A3 Ec) as Fr. cbn [x_name] in Fr. rewrite Forall_forall in Fr.
      destruct (Fr x Ix m Nn Nd Nb) as (E1 & _). unfold file_at. rewrite Ed, E1. destruct (dir_get (f_dir s) m) as [[k|]|] eqn:Em; auto.
      change (Some (data_of d k) = Some (data_of s k)).
      destruct (Dt k) as (y & Iy & ->). destruct (Fr y Iy m Nn Nd Nb) as (E2 & E3).
      unfold file_at in E3. rewrite E2, Em in E3. exact E3.
  Qed.

  (** All of it can be lost, after a commit that succeeds. *)
  Lemma all_lost : exists d, may_remain xs d /\ file_at d n = Some [] /\ nothing_at d dn /\ nothing_at d bn.
  Proof.
    destruct commit_passes as (i & j & s' & En & Fo & Nj & Fp & (x0 & I0 & D0 & L0) & Is & G1 & G2 & G3).
    destruct Sy as (i0 & h0 & (_ & _ & A3 & _) & _).
    assert (Mx : exists y, In y xs /\ forall x, In x xs -> length (f_data x) <= length (f_data y)).
    { assert (Ne : exists y, In y xs) by (now exists x0). clear - Ne. induction xs as [|z l IH]; [destruct Ne as (? & [])|].
      destruct l as [|z' l]; [exists z; split; [now left|]; intros x [<-|[]]; lia|].
      destruct IH as (y & Iy & My); [exists z'; now left|].
      destruct (Nat.le_gt_cases (length (f_data z)) (length (f_data y))) as [Le|Gt].
      - exists y. split; [now right|]. intros x [<-|Ix]; auto.
      - exists z. split; [now left|]. intros x [<-|Ix]; [lia|]. specialize (My x Ix). lia. }
    destruct Mx as (y & Iy & My).
    assert (Ly : j < length (f_data y)) by (specialize (My x0 I0); lia).
    exists (FSys (f_dir s') (set_nth (f_data y) j []) [] [] []).
    assert (Dj : forall k, data_of (FSys (f_dir s') (set_nth (f_data y) j []) [] [] []) k = if Nat.eqb k j then [] else data_of y k).
    { intros k. change (data_of (set_data y j []) k = if Nat.eqb k j then [] else data_of y k).
      destruct (Nat.eqb_spec k j) as [->|N]; [now apply data_set_same|apply data_set_other; congruence]. }
    split; [|split; [|split; [exact G2|exact G3]]].
    - split; [exists s'; auto|]. split; [|split; [|auto]].
      + intros k. rewrite Dj. destruct (Nat.eqb_spec k j) as [->|N]; [exists x0; auto|exists y; auto].
      + intros x Ix. cbn [f_data]. rewrite set_nth_length. auto.
    - unfold file_at. cbn [f_dir]. rewrite G1.
      change (Some (data_of (FSys (f_dir s') (set_nth (f_data y) j []) [] [] []) j) = Some (@nil byte)).
      rewrite Dj, Nat.eqb_refl. reflexivity.
  Qed.
End Remain.
