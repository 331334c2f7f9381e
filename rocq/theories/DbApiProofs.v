(** The operations of the database application on a database with a given history. *)
From Coq Require Import List ZArith NArith Lia Bool.
From Coq Require Import Init.Byte Strings.Byte.
From Verif Require Import Base BaseLemmas HashModel HashProofs SpecHash HashTreeModel HashTreeProofs
  RefModel RefProofs SpecRef DbModel SpecDb DbRefProofs DbFsProofs DbCommitProofs DbOpenProofs.
Import ListNotations.

(** ** Contexts *)
Lemma ctx_get_del l id j : ctx_get (ctx_del l id) j = if (id =? j)%Z then None else ctx_get l j.
Proof.
  unfold ctx_del. induction l as [|[k c] l IH]; cbn [filter ctx_get fst].
  - now destruct (id =? j)%Z.
  - destruct (Z.eqb_spec k id) as [->|N]; cbn [negb].
    + rewrite IH. destruct (Z.eqb_spec id j); auto.
    + cbn [ctx_get]. rewrite IH. destruct (Z.eqb_spec k j); auto.
      subst. destruct (Z.eqb_spec id j); auto. congruence.
Qed.

Lemma ctx_get_set l id c j : ctx_get (ctx_set l id c) j = if (id =? j)%Z then Some c else ctx_get l j.
Proof. unfold ctx_set; cbn [ctx_get]. destruct (id =? j)%Z eqn:E; auto. now rewrite ctx_get_del, E. Qed.

(** ** Where the contents of a history are *)
Definition located (data : bytes) (ct : content) (k : content_key) : Prop :=
  k_hash k = ct_hash ct /\ k_kind k = ct_kind ct /\
  p_length (k_content k) = zlen (ct_data ct) /\
  (0 <= p_from (k_content k))%Z /\ (p_from (k_content k) + zlen (ct_data ct) <= zlen data)%Z /\
  sub data (p_from (k_content k)) (p_length (k_content k)) = ct_data ct.

Lemma located_app d e ct k : located d ct k -> located (d ++ e) ct k.
Proof.
  intros (A & B & C & D & E & F). repeat split; auto.
  - rewrite zlen_app. pose proof (zlen_nonneg e). lia.
  - transitivity (sub d (p_from (k_content k)) (p_length (k_content k))); [|exact F]. unfold sub. rewrite C. rewrite skipn_app, firstn_app.
    unfold zlen in *. rewrite skipn_length.
    replace (Z.to_nat (Z.of_nat (length (ct_data ct))) - (length d - Z.to_nat (p_from (k_content k)))) with 0 by lia.
    cbn [firstn]. now rewrite app_nil_r.
Qed.

Lemma place_located h cs : forall pre,
  Forall2 (located (pre ++ batch_data cs)) cs (place h (zlen pre) cs).
Proof.
  induction cs as [|c cs IH]; intros pre; cbn [place]; constructor.
  - change (batch_data (c :: cs)) with (ct_data c ++ batch_data cs).
    repeat split; cbn [k_hash k_kind k_content p_from p_length]; auto.
    + apply zlen_nonneg.
    + rewrite !zlen_app. pose proof (zlen_nonneg (batch_data cs)). lia.
    + now apply sub_app_mid.
  - change (batch_data (c :: cs)) with (ct_data c ++ batch_data cs).
    rewrite <- zlen_app. rewrite app_assoc. apply IH.
Qed.

Lemma Forall2_impl' {A B} (P Q : A -> B -> Prop) l m :
  (forall a b, P a b -> Q a b) -> Forall2 P l m -> Forall2 Q l m.
Proof. intros HI F. induction F; constructor; auto. Qed.

Section Api.
  Variable H : bytes -> bytes.
  Variable mv : byte.
  Variable behind : bytes -> bytes.
  Hypothesis HL : forall x, length (H x) = 64.

  Lemma history_located bs : forall p pre,
    Forall2 (located (pre ++ history_data bs)) (history_contents bs) (history_keys H mv p (zlen pre) bs).
  Proof.
    induction bs as [|b bs IH]; intros p pre; cbn [history_keys]; [constructor|].
    change (history_contents (b :: bs)) with (fst b ++ history_contents bs).
    change (history_data (b :: bs)) with (batch_data (fst b) ++ history_data bs).
    apply Forall2_app.
    - rewrite app_assoc. eapply Forall2_impl'; [|apply place_located]. intros. now apply located_app.
    - rewrite app_assoc. rewrite <- zlen_app. apply IH.
  Qed.

  (** ** The state of an open database *)

  (** The database file [n] is inode [i], holds the history [bs] and can be committed to. *)
  Definition db_file (a : dbapp) (s : fsys) (n : bytes) (i : nat) (bs : list batch) : Prop :=
    a_dst a <> a_bck a /\ (0 < a_chunk a)%Z /\
    fs_ok s /\ f_faults s = [] /\
    dir_get (f_dir s) n = Some (EFile i) /\
    dir_get (f_dir s) (side n (a_dst a)) <> Some EDir /\
    dir_get (f_dir s) (side n (a_bck a)) <> Some EDir /\
    f_locks s = [] /\
    data_of s i = history_file H mv bs /\
    Forall ok_batch bs /\ fits H mv bs.

  (** Context [id] is open on it with these contents pending. *)
  Definition synced (a : dbapp) (s : fsys) (n : bytes) (id : Z) (bs : list batch) (pending : list content) : Prop :=
    exists i h,
      db_file a s n i bs /\
      ctx_get (a_ctxs a) id =
        Some (Ctx id n h (history_ref H mv bs) (zlen (header (history_ref H mv bs))) pending) /\
      nth_error (f_handles s) h = Some (Handle i 0 true).

  Lemma fits_data bs : fits H mv bs -> (zlen (history_data bs) < two63)%Z.
  Proof.
    unfold fits, history_file. rewrite zlen_app.
    pose proof (zlen_nonneg (header (history_ref H mv bs))). lia.
  Qed.

  (** ** Reading *)
  Lemma read_at_file s h i f n off : nth_error (f_handles s) h = Some (Handle i 0 true) ->
    data_of s i = f -> (0 <= off)%Z -> (0 <= n)%Z -> (off + n <= zlen f)%Z ->
    read_at s h n off = Ok (sub f off n).
  Proof.
    intros E D A B C. unfold read_at. rewrite E, D.
    replace (off <? 0)%Z with false by (symmetry; apply Z.ltb_ge; lia).
    destruct (Z.eqb_spec n 0) as [->|N]; [reflexivity|].
    destruct (Z.leb_spec (off + n) (zlen f)); [reflexivity|lia].
  Qed.

  Lemma sub_skip hd d off n : (0 <= off)%Z -> sub (hd ++ d) (zlen hd + off) n = sub d off n.
  Proof.
    intros A. unfold sub. f_equal. rewrite skipn_app. unfold zlen.
    rewrite skipn_all2 by lia. cbn [app]. f_equal. lia.
  Qed.

  Lemma read_synced a s n id bs pd from len : synced a s n id bs pd ->
    (0 <= from)%Z -> (0 <= len)%Z -> (from + len <= zlen (history_data bs))%Z ->
    read_db a s id (Pointer from len) = Ok (sub (history_data bs) from len).
  Proof.
    intros (i & h & (A1 & A2 & A3 & A4 & A5 & A6 & A7 & A8 & A9 & A10 & A11) & Ec & Eh) F L B.
    unfold fits in A11. unfold history_file in *. rewrite zlen_app in A11.
    set (hd := header (history_ref H mv bs)) in *. pose proof (zlen_nonneg hd).
    unfold read_db. rewrite Ec. cbn [x_conn x_off p_from p_length].
    replace (two63 <=? len)%Z with false by (symmetry; apply Z.leb_gt; lia).
    rewrite u64_small by (rewrite two63_val, two64_val in *; lia). rewrite i64_small by lia.
    rewrite (read_at_file _ _ _ _ _ _ Eh A9) by (rewrite ?zlen_app; lia).
    now rewrite sub_skip.
  Qed.

  (** Every content of the history is read back from the pointer of its key. *)
  Lemma read_keys a s n id bs pd : synced a s n id bs pd ->
    Forall2 (fun ct k => k_hash k = ct_hash ct /\ k_kind k = ct_kind ct /\
                         read_db a s id (k_content k) = Ok (ct_data ct))
            (history_contents bs) (history_keys H mv None 0 bs).
  Proof.
    intros S. pose proof (history_located bs None []) as L.
    eapply Forall2_impl'; [|exact L]. cbn [app]. intros ct k (A & B & C & D & E & F).
    repeat split; auto. destruct (k_content k) as [f l] eqn:Ek. cbn in *.
    rewrite (read_synced _ _ _ _ _ _ _ _ S) by (pose proof (zlen_nonneg (ct_data ct)); lia).
    now rewrite F.
  Qed.

  Lemma synced_keys a s n id bs pd : synced a s n id bs pd ->
    content_keys a id = match bs with [] => Err | _ => Ok (history_keys H mv None 0 bs) end.
  Proof.
    intros (i & h & _ & Ec & _). unfold content_keys. rewrite Ec. cbn [x_ref]. destruct bs; reflexivity.
  Qed.

  Lemma synced_commits a s n id bs pd : synced a s n id bs pd ->
    commits_db a id = match bs with [] => Err | _ => Ok (chain H mv None bs) end.
  Proof.
    intros (i & h & _ & Ec & _). unfold commits_db. rewrite Ec. cbn [x_ref]. destruct bs; reflexivity.
  Qed.

  Lemma last_such_Forall2 {A B} (R : A -> B -> Prop) (P : A -> Prop) (Q : B -> Prop) l m x :
    Forall2 R l m -> (forall a b, R a b -> (P a <-> Q b)) -> last_such P l x ->
    exists y, R x y /\ last_such Q m y.
  Proof.
    intros F E (l1 & l2 & -> & Px & N). apply Forall2_app_inv_l in F as (m1 & m2 & F1 & F2 & ->).
    inversion F2 as [|? y ? m2' Rxy F2']; subst. exists y. split; auto. exists m1, m2'. repeat split; auto.
    - now apply (E x y).
    - clear - F2' E N. induction F2' as [|? ? ? ? Rab F' IH]; constructor; inversion N; subst; auto.
      intros Qb. apply H1. now apply (E x y).
  Qed.

  Lemma last_such_unique {A} (P : A -> Prop) l : forall x y, last_such P l x -> last_such P l y -> x = y.
  Proof.
    induction l as [|z l IH]; intros x y (a & b & E & Px & N) (a' & b' & E' & Py & N').
    - destruct a; discriminate.
    - destruct a as [|u a], a' as [|u' a']; cbn in *.
      + inversion E; inversion E'. congruence.
      + injection E as E1 E2. injection E' as E1' E2'. subst. exfalso.
        rewrite Forall_forall in N. apply (N y); auto. apply in_app_iff. right. now left.
      + injection E as E1 E2. injection E' as E1' E2'. subst. exfalso.
        rewrite Forall_forall in N'. apply (N' x); auto. apply in_app_iff. right. now left.
      + inversion E; inversion E'; subst. apply IH; [exists a, b|exists a', b']; auto.
  Qed.

  Lemma read_hash_found a s n id bs pd h ct : synced a s n id bs pd ->
    last_such (fun c => ct_hash c = h) (history_contents bs) ct ->
    read_by_hash a s id h = Ok (ct_data ct).
  Proof.
    intros S L. pose proof (read_keys _ _ _ _ _ _ S) as R.
    destruct (last_such_Forall2 _ (fun c => ct_hash c = h) (fun k => k_hash k = h) _ _ ct R) as (k & (A & B & C) & Lk); auto.
    { intros c0 k0 (E & _). rewrite E. tauto. }
    unfold read_by_hash. rewrite (synced_keys _ _ _ _ _ _ S).
    destruct bs as [|b bs']; [destruct L as (l1 & l2 & E & _); destruct l1; discriminate|].
    cbn [bind].
    destruct (keys_fetch_spec (history_keys H mv None 0 (b :: bs')) h) as [(k' & -> & F)|(-> & F)]; cbn [bind].
    - rewrite (last_such_unique _ _ _ _ F Lk). exact C.
    - destruct Lk as (l1 & l2 & El & Ek & _). rewrite El in F. rewrite Forall_forall in F.
      exfalso. apply (F k); auto. apply in_app_iff. right; now left.
  Qed.

  Lemma read_hash_missing a s n id bs pd h : synced a s n id bs pd ->
    Forall (fun c => ct_hash c <> h) (history_contents bs) -> read_by_hash a s id h = Err.
  Proof.
    intros S N. pose proof (read_keys _ _ _ _ _ _ S) as R.
    unfold read_by_hash. rewrite (synced_keys _ _ _ _ _ _ S).
    destruct bs as [|b bs']; [reflexivity|]. cbn [bind].
    destruct (keys_fetch_spec (history_keys H mv None 0 (b :: bs')) h) as [(k' & -> & F)|(-> & F)]; [|reflexivity].
    exfalso. destruct F as (l1 & l2 & El & Ek & _). rewrite El in R.
    apply Forall2_app_inv_r in R as (m1 & m2 & _ & F2 & E2).
    inversion F2 as [|c0 k0 ? ? (A & _) ? Em Eq0]; subst. rewrite E2 in N.
    apply Forall_app in N as (_ & N). inversion N; subst. congruence.
  Qed.

  (** ** Opening *)
  Lemma open_ok a s n i bs : db_file a s n i bs ->
    existsb (fun x => bytes_eqb (x_name (snd x)) n) (a_ctxs a) = false ->
    exists s' a', open_db H mv behind n a s = (s', a', Ok (zlen (a_ctxs a))) /\
      synced a' s' n (zlen (a_ctxs a)) bs [] /\ db_file a' s' n i bs /\
      a' = with_ctxs a (a_ctxs a') /\ f_dir s' = f_dir s /\ f_data s' = f_data s /\
      f_locks s' = f_locks s /\ (exists x, f_handles s' = f_handles s ++ [x]).
  Proof.
    intros D N. pose proof D as (A1 & A2 & A3 & A4 & A5 & A6 & A7 & A8 & A9 & A10 & A11).
    unfold open_db. rewrite N, A5, A9. unfold history_file.
    assert (Er : retrieve_reference H mv behind (a_chunk a) (header (history_ref H mv bs) ++ history_data bs) =
                 Ok (history_ref H mv bs, zlen (header (history_ref H mv bs)))).
    { apply retrieve_history; auto; [now intros ->|now apply fits_data]. }
    rewrite Er. unfold sys_open. rewrite A5. eexists _, _. split; [reflexivity|].
    match goal with |- synced ?a' ?s' _ _ _ _ /\ _ => assert (D' : db_file a' s' n i bs) by exact D end.
    split; [|split; [exact D'|]; repeat (split; [reflexivity|]); eexists; reflexivity].
    exists i, (length (f_handles s)). split; [exact D'|]. split.
    - cbn [with_ctxs a_ctxs]. rewrite ctx_get_set, Z.eqb_refl. reflexivity.
    - cbn. rewrite nth_error_app2 by lia. now rewrite Nat.sub_diag.
  Qed.

  (** ** Write, cancel, close *)
  Lemma write_ok a s n id bs pd h d k : synced a s n id bs pd -> d <> [] ->
    exists a', write_db a id h d k = (a', Ok tt) /\ synced a' s n id bs (pd ++ [Content h d k]) /\
      a' = with_ctxs a (a_ctxs a').
  Proof.
    intros (i & hd & D & Ec & Eh) N. unfold write_db. rewrite Ec.
    destruct d as [|x d]; [congruence|]. cbn [content_now].
    eexists. split; [reflexivity|]. split; [|reflexivity]. exists i, hd. split; [exact D|]. split; auto.
    cbn [with_ctxs a_ctxs]. rewrite ctx_get_set, Z.eqb_refl. reflexivity.
  Qed.

  Lemma cancel_ok a s n id bs pd : synced a s n id bs pd ->
    exists a', cancel_db a id = (a', Ok tt) /\ synced a' s n id bs [] /\ a' = with_ctxs a (a_ctxs a').
  Proof.
    intros (i & hd & D & Ec & Eh). unfold cancel_db. rewrite Ec.
    eexists. split; [reflexivity|]. split; [|reflexivity]. exists i, hd. split; [exact D|]. split; auto.
    cbn [with_ctxs a_ctxs]. rewrite ctx_get_set, Z.eqb_refl. reflexivity.
  Qed.

  Lemma close_ok a s n id bs pd : synced a s n id bs pd ->
    exists s' a' i, close_db a s id = (s', a', Ok tt) /\ db_file a' s' n i bs /\
      ctx_get (a_ctxs a') id = None /\ a' = with_ctxs a (a_ctxs a') /\
      f_dir s' = f_dir s /\ f_data s' = f_data s.
  Proof.
    intros (i & hd & D & Ec & Eh). unfold close_db. rewrite Ec. cbn [x_conn].
    unfold sys_close. rewrite Eh. eexists _, _, i. split; [reflexivity|]. split; [exact D|].
    repeat split; auto. cbn [with_ctxs a_ctxs]. now rewrite ctx_get_del, Z.eqb_refl.
  Qed.

  (** ** Commit *)

  (** A general form: the inode read by the context and the one at the name may differ,
      and the data area may be anything. *)
  Lemma commit_general a s n id bs pd h i i' area now :
    a_dst a <> a_bck a -> fs_ok s -> f_faults s = [] ->
    dir_get (f_dir s) n = Some (EFile i') ->
    dir_get (f_dir s) (side n (a_dst a)) <> Some EDir ->
    dir_get (f_dir s) (side n (a_bck a)) <> Some EDir ->
    existsb (Nat.eqb i') (f_locks s) = false ->
    ctx_get (a_ctxs a) id = Some (Ctx id n h (history_ref H mv bs) (zlen (header (history_ref H mv bs))) pd) ->
    nth_error (f_handles s) h = Some (Handle i 0 true) ->
    i < length (f_data s) -> dir_get (f_dir s) (side n (a_dst a)) <> Some (EFile i) ->
    dir_get (f_dir s) (side n (a_bck a)) <> Some (EFile i) ->
    data_of s i = header (history_ref H mv bs) ++ area -> (zlen (data_of s i) < two63)%Z ->
    (bs <> [] -> (0 < a_chunk a)%Z /\ area <> []) ->
    Forall ok_batch bs -> ok_batch (pd, now) ->
    (zlen (history_data (bs ++ [(pd, now)])) < two63)%Z ->
    let kp := match bs with [] => [] | _ => kept (make_chunk (a_chunk a) (zlen area)) area end in
    let hd := header (history_ref H mv (bs ++ [(pd, now)])) in
    exists s' a',
      commit_db H mv now a s id = (s', a', Ok tt) /\
      a' = with_ctxs a (ctx_set (a_ctxs a) id
             (Ctx id n (length (f_handles s)) (history_ref H mv (bs ++ [(pd, now)])) (zlen hd) pd)) /\
      (exists d,
        (forall m, dir_get (f_dir s') m =
           if bytes_eqb n m then Some (EFile d)
           else if bytes_eqb (side n (a_dst a)) m then None
           else if bytes_eqb (side n (a_bck a)) m then None else dir_get (f_dir s) m) /\
        data_of s' d = hd ++ kp ++ batch_data pd /\
        (forall j, j < length (f_data s) -> dir_get (f_dir s) (side n (a_dst a)) <> Some (EFile j) ->
                   dir_get (f_dir s) (side n (a_bck a)) <> Some (EFile j) ->
                   j <> d /\ data_of s' j = data_of s j) /\
        f_handles s' = set_nth (f_handles s) h (Handle i (length (data_of s i)) false) ++ [Handle d 0 true]) /\
      f_faults s' = [] /\ length (f_data s) <= length (f_data s') /\ fs_ok s' /\ f_locks s' = f_locks s.
  Proof.
    intros A1 A2 A3 A4 A5 A6 A7 Ec Eh Li Nd Nb Ed Lo Hch F W L kp hd.
    set (c := Ctx id n h (history_ref H mv bs) (zlen (header (history_ref H mv bs))) pd) in *.
    destruct (update_reference_spec H mv HL c bs now) as (r & Er & Hr); auto.
    cbn [x_pending c] in Hr.
    unfold commit_db, commit_fuel. rewrite Ec, Er.
    assert (Hc : x_ref c <> None -> (0 < a_chunk a)%Z /\ (0 <= x_off c < zlen (data_of s i))%Z).
    { intros N. assert (Nb' : bs <> []) by (intros ->; now apply N).
      destruct (Hch Nb') as (P & Na). split; auto. cbn [x_off c]. rewrite Ed, zlen_app.
      pose proof (zlen_nonneg (header (history_ref H mv bs))).
      assert (0 < zlen area)%Z by (unfold zlen; destruct area; [congruence|cbn [length]; lia]). lia. }
    assert (T := update_database_tri a c r s i i' A1 A2 A3 A4 (conj Li (conj Nd Nb)) Eh A7 A5 A6 Lo Hc (S (conn_size s c))).
    assert (Lf : length (data_of s i) < S (conn_size s c)).
    { unfold conn_size. cbn [x_conn c]. rewrite Eh. cbn [h_ino]. lia. }
    specialize (T Lf). apply tri_run in T.
    destruct (run _ s) as [s' o]. cbn [fst snd] in T. destruct T as ((-> & d & D1 & D2 & D3 & D4 & D5 & D6 & D7) & D8).
    assert (Eh' : hd = reference_to_content r) by (unfold hd; rewrite Hr; reflexivity).
    assert (Ek : copied a c s i = kp).
    { unfold copied, kp. cbn [x_ref x_off c]. rewrite Ed.
      rewrite (skipn_app_exact _ area) by (unfold zlen; now rewrite Nat2Z.id). destruct bs; reflexivity. }
    eexists _, _. split; [reflexivity|]. split.
    { cbn [x_id x_name x_pending c]. rewrite <- Eh'. rewrite Hr. reflexivity. }
    split; [|repeat split; auto; apply D7].
    exists d. split; [exact D1|]. split; [|split; [exact D3|exact D4]].
    rewrite D2. unfold newfile. rewrite Ek, <- Eh'. reflexivity.
  Qed.

  Lemma kept_ok ck area : (0 < ck)%Z -> (zlen area <= ck)%Z \/ (exists k, zlen area = (k * ck)%Z) ->
    area <> [] -> kept (make_chunk ck (zlen area)) area = area.
  Proof.
    intros P C N. assert (0 < zlen area)%Z by (unfold zlen; destruct area; [congruence|cbn [length]; lia]).
    unfold make_chunk. destruct (Z.ltb_spec (zlen area) ck).
    - apply kept_all; auto. exists 1%Z. lia.
    - apply kept_all; auto. destruct C as [C|C]; auto. exists 1%Z. lia.
  Qed.

  (** The commit, when the old data is copied completely. *)
  Lemma commit_ok a s n id bs pd now : synced a s n id bs pd ->
    ok_batch (pd, now) -> fits H mv (bs ++ [(pd, now)]) -> chunk_ok (a_chunk a) (history_data bs) ->
    exists s' a', commit_db H mv now a s id = (s', a', Ok tt) /\
      synced a' s' n id (bs ++ [(pd, now)]) pd /\ a' = with_ctxs a (a_ctxs a') /\
      (forall m, m <> n -> m <> side n (a_dst a) -> m <> side n (a_bck a) -> file_at s' m = file_at s m).
  Proof.
    intros (i & h & (A1 & A2 & A3 & A4 & A5 & A6 & A7 & A8 & A9 & A10 & A11) & Ec & Eh) W Ft (Pc & Ch).
    assert (Inj : forall e, e = a_dst a \/ e = a_bck a -> dir_get (f_dir s) (side n e) <> Some (EFile i)).
    { intros e _ X. destruct A3 as (_ & I). apply (side_neq n e). eapply I; eauto. }
    assert (Nh : bs <> [] -> history_data bs <> []).
    { intros N E. pose proof (history_data_pos bs N A10) as X. rewrite E in X. cbn in X. lia. }
    destruct (commit_general a s n id bs pd h i i (history_data bs) now) as
      (s' & a' & E & Ea & (d & D1 & D2 & D3 & D4) & D5 & D6 & D7 & D8); auto.
    { now rewrite A8. }
    { now apply A3 in A5. }
    { rewrite A9. exact A11. }
    { now apply fits_data. }
    exists s', a'. split; [exact E|].
    assert (Ek : match bs with [] => [] | _ => kept (make_chunk (a_chunk a) (zlen (history_data bs))) (history_data bs) end
                 = history_data bs).
    { destruct bs; [reflexivity|]. apply kept_ok; auto. apply Nh. discriminate. }
    rewrite Ek in D2.
    assert (Ef : data_of s' d = history_file H mv (bs ++ [(pd, now)])).
    { rewrite D2. unfold history_file. rewrite history_data_app. unfold history_data at 3. cbn. now rewrite app_nil_r. }
    split; [|split].
    - exists d, (length (f_handles s)). split; [|split].
      + unfold db_file. rewrite Ea. cbn [with_ctxs a_dst a_bck a_chunk].
        repeat split; auto; try apply D7.
        * rewrite D1. now rewrite bytes_eqb_refl.
        * rewrite D1. rewrite (bytes_eqb_neq n) by (intros X; symmetry in X; now apply side_neq in X).
          rewrite bytes_eqb_refl. discriminate.
        * rewrite D1. rewrite (bytes_eqb_neq n) by (intros X; symmetry in X; now apply side_neq in X).
          rewrite bytes_eqb_refl. destruct (bytes_eqb (side n (a_dst a)) (side n (a_bck a))); discriminate.
        * now rewrite D8.
        * apply Forall_app. split; auto.
      + rewrite Ea. cbn [with_ctxs a_ctxs]. rewrite ctx_get_set, Z.eqb_refl. reflexivity.
      + rewrite D4. rewrite nth_error_app2 by (rewrite set_nth_length; lia).
        rewrite set_nth_length, Nat.sub_diag. reflexivity.
    - rewrite Ea. reflexivity.
    - intros m N1 N2 N3. apply file_at_same.
      + rewrite D1. now rewrite !bytes_eqb_neq by congruence.
      + intros j Ej. apply D3.
        * now apply A3 in Ej.
        * intros X. apply N2. destruct A3 as (_ & I). eapply I; eauto.
        * intros X. apply N3. destruct A3 as (_ & I). eapply I; eauto.
  Qed.
End Api.
