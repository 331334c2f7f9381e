(** New and Commit in the middle of a Commit, and how far the lock goes. *)
From Coq Require Import List ZArith NArith Lia Bool.
From Coq Require Import Init.Byte Strings.Byte.
From Verif Require Import Base BaseLemmas HashModel HashProofs SpecHash HashTreeModel HashTreeProofs
  RefModel RefProofs SpecRef DbModel SpecDb DbRefProofs DbFsProofs DbCommitProofs DbOpenProofs DbApiProofs
  DbSession DbSessionProofs DbMoreProofs DbMultiProofs DbFrameProofs DbForgeProofs DbConcurrent DbConcurrentProofs
  DbScheduleProofs DbSchedule2 DbSchedule3 DbSchedule4.
Import ListNotations.

Section Lost.
  Variable H : bytes -> bytes.
  Variable mv : byte.
  Hypothesis HL : forall x, length (H x) = 64.
  Variables (a : dbapp) (s : fsys) (n : bytes) (id : Z) (bs : list batch) (pd : list content) (now : Z).
  Hypothesis Sy : synced H mv a s n id bs pd.
  Hypothesis Wb : ok_batch (pd, now).
  Hypothesis Ft : fits H mv (bs ++ [(pd, now)]).
  Hypothesis Ch : chunk_ok (a_chunk a) (history_data bs).
  Notation dn := (side n (a_dst a)).
  Notation bn := (side n (a_bck a)).

  (** What the names stand for when the file has been removed. *)
  Lemma s7_names i h r s1 s6 s7 s8 s9 s10 d b off : parts H mv a s n id bs pd now i h r s1 s6 s7 s8 s9 s10 d b off ->
    nothing_at s7 n /\ dir_get (f_dir s7) dn = Some (EFile d) /\ dir_get (f_dir s7) bn = Some (EFile b) /\
    data_of s7 i = history_file H mv bs /\ f_faults s7 = [] /\ d < length (f_data s7) /\ i < length (f_data s7) /\
    gone i s7.
  Proof.
    intros P. pose proof (s7_dir H mv a s n id bs pd now i h r s1 s6 s7 s8 s9 s10 d b off P) as G.
    pose proof (sides_differ H mv a s n id bs pd Sy) as Nd.
    pose proof (pa_prepared _ _ _ _ _ _ _ _ _ _ _ _ _ _ _ _ _ _ _ _ _ P) as (M6 & Od & Ob & _ & _ & _ & Ld & Lb & _ & F6 & L6 & _ & _).
    pose proof (pa_live _ _ _ _ _ _ _ _ _ _ _ _ _ _ _ _ _ _ _ _ _ P) as Li.
    assert (N1 : bytes_eqb n dn = false) by (apply bytes_eqb_neq; intros X; symmetry in X; now apply side_neq in X).
    assert (N2 : bytes_eqb n bn = false) by (apply bytes_eqb_neq; intros X; symmetry in X; now apply side_neq in X).
    assert (N3 : bytes_eqb dn bn = false) by now apply bytes_eqb_neq.
    destruct M6 as (M6 & _). cbn [x_name] in M6.
    destruct (after_data H mv a s n id bs pd now i h r s1 s6 s7 s8 s9 s10 d b off P) as (D7 & _).
    assert (E7 : s7 = with_dir s6 (dir_del (f_dir s6) n)) by apply P.
    assert (L7 : i < length (f_data s7)) by (rewrite D7; lia).
    split; [|split; [|split; [|split; [|split; [|split; [|split]]]]]].
    - unfold nothing_at. now rewrite G, bytes_eqb_refl.
    - now rewrite G, N1, M6, N1, bytes_eqb_refl.
    - now rewrite G, N2, M6, N2, N3, bytes_eqb_refl.
    - unfold data_of. rewrite D7. apply P.
    - rewrite E7. exact F6.
    - rewrite D7. exact Ld.
    - exact L7.
    - split; [exact L7|]. intros m. rewrite G. destruct (bytes_eqb n m) eqn:X; [discriminate|].
      rewrite M6, X. destruct (bytes_eqb dn m).
      { intros Y. injection Y as Y. revert Y. apply P. }
      destruct (bytes_eqb bn m).
      { intros Y. injection Y as Y. revert Y. apply P. }
      intros Y. destruct Sy as (i' & h' & (_ & _ & (_ & I) & _) & _).
      apply bytes_eqb_false in X. apply X. eapply I; [apply P|exact Y].
  Qed.

  (** New looks in the gap and creates after the rename. *)
  Lemma new_schedule hs :
    exists w a', later (World (p_commit H mv now a s id) (f_handles s) (p_new n) hs s) w /\
      w_first w = Ret (Ok a') /\ w_second w = Ret (Ok tt) /\
      file_at (w_shared w) n = Some [] /\ nothing_at (w_shared w) dn /\ nothing_at (w_shared w) bn.
  Proof.
    destruct (commit_parts H mv HL a s n id bs pd now Sy Wb Ft Ch) as (i & h & r & s1 & s6 & s7 & s8 & s9 & s10 & d & bk & off & P).
    pose proof (s7_names _ _ _ _ _ _ _ _ _ _ _ _ P) as (G1 & G2 & G3 & _ & _ & Ld & _).
    set (w0 := World _ _ _ _ _).
    pose proof (reach_now (p_commit H mv now a s id) (f_handles s) (p_new n) hs s) as R. fold w0 in R.
    destruct (to_gap H mv a s n id bs pd now i h r s1 s6 s7 s8 s9 s10 d bk off P) as (xs & A0).
    eapply go_first in R; [|rewrite handles_eta; exact A0].
    destruct (alone_then (call (fun s => (s, Ok (sys_stat s n)))) (fun there => match there with
      | Some _ => Ret Err | None => let* _ <- call (sys_create n); Ret (Ok tt) end)
      (with_handles s7 hs) (with_handles s7 hs) None) as (ys & A1).
    { rewrite run_call. change (sys_stat (with_handles s7 hs) n) with (dir_get (f_dir s7) n). now rewrite G1. }
    eapply go_second in R; [|exact A1].
    destruct (gap_run a n id pd i r off s7 d bk G2 G3) as (t & a' & E2 & Dt & Ft' & _).
    { unfold nothing_at in G1. rewrite G1. discriminate. }
    { apply (sides_differ H mv a s n id bs pd Sy). }
    destruct (alone_run (at_gap a n id pd i r off) s7) as (zs & A2). rewrite E2 in A2. cbn [fst snd] in A2.
    eapply go_first in R; [|change (with_handles (with_handles s7 hs) (f_handles s7)) with (with_handles s7 (f_handles s7));
      rewrite handles_eta; exact A2].
    assert (N4 : bytes_eqb bn n = false) by (apply bytes_eqb_neq, side_neq).
    assert (Gt : dir_get (f_dir t) n = Some (EFile d)) by (rewrite Dt, N4; now rewrite bytes_eqb_refl).
    assert (E3 : run (let* _ <- call (sys_create n); Ret (Ok tt)) (with_handles t hs) = (set_data (with_handles t hs) d [], Ok tt)).
    { unfold andthen. rewrite run_catch, run_call. unfold sys_create. change (f_dir (with_handles t hs)) with (f_dir t).
      rewrite Gt. reflexivity. }
    match type of E3 with run ?p ?x = _ => destruct (alone_run p x) as (us & A3) end.
    rewrite E3 in A3. cbn [fst snd] in A3. eapply go_second in R; [|exact A3].
    destruct R as (u & L & Al). exists (World (Ret (Ok a')) (f_handles t) (Ret (Ok tt)) (f_handles (set_data (with_handles t hs) d [])) u), a'.
    split; [exact L|]. split; [reflexivity|]. split; [reflexivity|]. cbn [w_shared].
    assert (Ed : f_dir u = f_dir t) by exact (f_equal f_dir Al).
    assert (Ef : f_data u = set_nth (f_data t) d []) by exact (f_equal f_data Al).
    split; [|split].
    - unfold file_at. rewrite Ed, Gt, Ef. f_equal. change (data_of (set_data t d []) d = []). apply data_set_same. now rewrite Ft'.
    - unfold nothing_at. rewrite Ed, Dt. destruct (bytes_eqb bn dn); [reflexivity|].
      rewrite (bytes_eqb_neq n dn) by (intros X; symmetry in X; now apply side_neq in X). now rewrite bytes_eqb_refl.
    - unfold nothing_at. rewrite Ed, Dt. now rewrite bytes_eqb_refl.
  Qed.

  (** A second process that has the database open as well. *)
  Variables (b : dbapp) (hs : list handle) (id2 : Z) (pd2 : list content) (now2 : Z).
  Hypothesis Sb : synced H mv b (with_handles s hs) n id2 bs pd2.
  Hypothesis Wb2 : ok_batch (pd2, now2).
  Hypothesis Ft2 : fits H mv (bs ++ [(pd2, now2)]).
  Hypothesis Ch2 : chunk_ok (a_chunk b) (history_data bs).
  Hypothesis Ed2 : a_dst b = a_dst a.
  Hypothesis Eb2 : a_bck b = a_bck a.
  Notation both := (World (p_commit H mv now a s id) (f_handles s) (p_commit H mv now2 b (with_handles s hs) id2) hs s).

  Lemma commits_collide :
    (exists w a', later both w /\ w_first w = Ret (Ok a') /\
       file_at (w_shared w) n = Some [] /\ nothing_at (w_shared w) dn /\ nothing_at (w_shared w) bn) /\
    (exists w a', later both w /\ w_first w = Ret (Ok a') /\ w_second w = Ret Err /\
       nothing_at (w_shared w) n /\ nothing_at (w_shared w) dn /\
       file_at (w_shared w) bn = Some (history_file H mv bs)).
  Proof.
    destruct (commit_parts H mv HL a s n id bs pd now Sy Wb Ft Ch) as (i & h & r & s1 & s6 & s7 & s8 & s9 & s10 & d & bk & off & P).
    destruct (commit_parts H mv HL b (with_handles s hs) n id2 bs pd2 now2 Sb Wb2 Ft2 Ch2) as (j & h2 & r2 & u1 & u6 & u7 & u8 & u9 & u10 & d2 & bk2 & off2 & P2).
    assert (j = i).
    { pose proof (pa_name _ _ _ _ _ _ _ _ _ _ _ _ _ _ _ _ _ _ _ _ _ P) as X1.
      pose proof (pa_name _ _ _ _ _ _ _ _ _ _ _ _ _ _ _ _ _ _ _ _ _ P2) as X2. cbn [with_handles f_dir] in X2. congruence. }
    subst j.
    pose proof (s7_names _ _ _ _ _ _ _ _ _ _ _ _ P) as (G1 & G2 & G3 & Di & Ff & Ld & Li & _).
    set (w0 := World _ _ _ _ _).
    pose proof (reach_now (p_commit H mv now a s id) (f_handles s) (p_commit H mv now2 b (with_handles s hs) id2) hs s) as R. fold w0 in R.
    destruct (to_gap H mv a s n id bs pd now i h r s1 s6 s7 s8 s9 s10 d bk off P) as (xs & A0).
    eapply go_first in R; [|rewrite handles_eta; exact A0].
    (* the second process makes a new file, locks it and empties the destination *)
    set (c2 := Ctx id2 n h2 (history_ref H mv bs) (zlen (header (history_ref H mv bs))) pd2).
    set (fuel := S (length (history_file H mv bs))).
    set (k := length (f_data s7)). set (x7 := with_handles s7 hs).
    set (y1 := with_locks (with_data (with_dir x7 (dir_set (f_dir x7) n (EFile k))) (f_data x7 ++ [[]])) (k :: f_locks x7)).
    set (y2 := set_data y1 d []).
    assert (N1 : bytes_eqb n dn = false) by (apply bytes_eqb_neq; intros X; symmetry in X; now apply side_neq in X).
    assert (N2 : bytes_eqb n bn = false) by (apply bytes_eqb_neq; intros X; symmetry in X; now apply side_neq in X).
    assert (G : forall m, dir_get (f_dir y2) m = if bytes_eqb n m then Some (EFile k) else dir_get (f_dir s7) m).
    { intros m. change (f_dir y2) with (dir_set (f_dir s7) n (EFile k)). now rewrite dir_get_set. }
    assert (E1 : sys_trylock n x7 = (y1, Ok k)).
    { unfold sys_trylock. change (f_dir x7) with (f_dir s7) at 1. unfold nothing_at in G1. now rewrite G1. }
    assert (E2 : sys_create dn y1 = (y2, Ok d)).
    { unfold sys_create. change (f_dir y1) with (f_dir y2). rewrite G, N1, G2. reflexivity. }
    set (res := andthen (catch (andthen (andthen (after_create fuel b c2 r2 d) (after_destination b c2)) (replace_files b c2)) (unlocking k))
                  (finish b n id2 pd2 r2)).
    assert (A1 : exists ys, alone (p_commit H mv now2 b (with_handles s hs) id2) x7 res y2 ys).
    { rewrite (commit_prog H mv b (with_handles s hs) n id2 bs pd2 now2 i h2 r2 u1 u6 u7 u8 u9 u10 d2 bk2 off2 P2).
      fold c2. fold fuel.
      assert (X : exists ys, alone (update_database fuel b c2 r2) x7
        (catch (andthen (andthen (after_create fuel b c2 r2 d) (after_destination b c2)) (replace_files b c2)) (unlocking k)) y2 ys).
      { unfold update_database.
        destruct (alone_then (call (sys_trylock (x_name c2)))
          (fun lock => catch (swap_files fuel b c2 r2) (fun o => Step (fun s => (sys_unlock lock s, Ret o)))) x7 y1 k) as (z1 & B1).
        { rewrite run_call. exact E1. }
        destruct (alone_then (call (sys_create (side (x_name c2) (a_dst b)))) (after_create fuel b c2 r2) y1 y2 d) as (z2 & B2).
        { rewrite run_call. cbn [x_name c2]. rewrite Ed2. exact E2. }
        pose proof (alone_catch (fun o => match o with Ok v => after_destination b c2 v | Err => Ret Err | Panic => Ret Panic | Fuel => Ret Fuel end) _ _ _ _ _ B2) as B3.
        pose proof (alone_catch (fun o => match o with Ok v => replace_files b c2 v | Err => Ret Err | Panic => Ret Panic | Fuel => Ret Fuel end) _ _ _ _ _ B3) as B4.
        eapply alone_trans; [exact B1|]. exact (alone_catch (unlocking k) _ _ _ _ _ B4). }
      destruct X as (ys & X). exists ys. exact (alone_catch _ _ _ _ _ _ X). }
    destruct A1 as (ys & A1). eapply go_second in R; [|exact A1].
    (* the first one finishes *)
    set (z2 := with_handles y2 (f_handles s7)).
    destruct (gap_run a n id pd i r off z2 d bk) as (t & a' & E3 & Dt & Ft' & Fa').
    { change (f_dir z2) with (f_dir y2). now rewrite G, N1. }
    { change (f_dir z2) with (f_dir y2). now rewrite G, N2. }
    { change (f_dir z2) with (f_dir y2). rewrite G, bytes_eqb_refl. discriminate. }
    { apply (sides_differ H mv a s n id bs pd Sy). }
    destruct (alone_run (at_gap a n id pd i r off) z2) as (zs & A2). rewrite E3 in A2. cbn [fst snd] in A2.
    eapply go_first in R; [|exact A2].
    assert (N4 : bytes_eqb bn n = false) by (apply bytes_eqb_neq, side_neq).
    assert (Gt : dir_get (f_dir t) n = Some (EFile d)) by (rewrite Dt, N4; now rewrite bytes_eqb_refl).
    assert (Gd : dir_get (f_dir t) dn = None).
    { rewrite Dt. destruct (bytes_eqb bn dn); [reflexivity|]. rewrite N1. now rewrite bytes_eqb_refl. }
    assert (Gb : dir_get (f_dir t) bn = None) by (rewrite Dt; now rewrite bytes_eqb_refl).
    assert (Ly : length (f_data y2) = S (length (f_data s7))).
    { change (length (set_nth (f_data s7 ++ [[]]) d []) = S (length (f_data s7))). rewrite set_nth_length, app_length. cbn [length]. lia. }
    assert (Dd : data_of t d = []).
    { unfold data_of. rewrite Ft'. change (data_of (set_data y1 d []) d = []). apply data_set_same.
      change (f_data y1) with (f_data s7 ++ [[]]). rewrite app_length. lia. }
    assert (Nd : d <> i) by apply P.
    assert (Do : data_of t i = history_file H mv bs).
    { unfold data_of. rewrite Ft'. change (data_of (set_data y1 d []) i = history_file H mv bs). rewrite data_set_other by exact Nd.
      change (nth i (f_data s7 ++ [[]]) [] = history_file H mv bs). rewrite app_nth1 by exact Li. exact Di. }
    split.
    - destruct R as (u & L & Al). eexists _, a'. split; [exact L|]. split; [reflexivity|]. cbn [w_shared].
      assert (Eu : f_dir u = f_dir t) by exact (f_equal f_dir Al).
      assert (Ef : f_data u = f_data t) by exact (f_equal f_data Al).
      unfold file_at, nothing_at. rewrite Eu, Gt, Ef. split; [now f_equal|auto].
    - set (t0 := with_handles t hs).
      destruct (straggler fuel b c2 r2 i d k t0) as (t' & E4 & Q1 & Q2 & Q3).
      + destruct Sb as (? & ? & (X & _) & _). exact X.
      + change (data_of t0 i) with (data_of t i). rewrite Do. unfold fuel. lia.
      + change (f_data t0) with (f_data t). rewrite Ft'. change (f_data z2) with (f_data y2). lia.
      + change (f_data t0) with (f_data t). rewrite Ft'. change (f_data z2) with (f_data y2). lia.
      + exact Nd.
      + exact Dd.
      + change (data_of t0 i) with (data_of t i). rewrite Do. destruct (new_ok H mv a s n id bs pd now Sy Wb) as (_ & T1 & _). exact T1.
      + change (data_of t0 i) with (data_of t i). rewrite Do. cbn [x_ref x_off c2]. intros Nr.
        destruct (new_ok H mv a s n id bs pd now Sy Wb) as (F1 & _ & _).
        assert (Nb : bs <> []) by (intros ->; now apply Nr).
        split; [apply Ch2|]. pose proof (history_data_pos bs Nb F1) as Hp. unfold history_file. rewrite zlen_app.
        pose proof (zlen_nonneg (header (history_ref H mv bs))). lia.
      + change (f_faults t0) with (f_faults t). rewrite Fa'. exact Ff.
      + change (f_handles t0) with hs. cbn [x_conn c2]. exact (pa_conn _ _ _ _ _ _ _ _ _ _ _ _ _ _ _ _ _ _ _ _ _ P2).
      + exact Gt.
      + cbn [x_name c2]. unfold nothing_at. rewrite Ed2. exact Gd.
      + cbn [x_name c2]. unfold nothing_at. rewrite Eb2. exact Gb.
      + assert (E5 : run res t0 = (t', Err)).
        { unfold res, andthen at 1. rewrite run_catch, E4. reflexivity. }
        destruct (alone_run res t0) as (us & A3). rewrite E5 in A3. cbn [fst snd] in A3.
        eapply go_second in R; [|exact A3]. destruct R as (u & L & Al). eexists _, a'. split; [exact L|].
        split; [reflexivity|]. split; [reflexivity|]. cbn [w_shared].
        assert (Eu : f_dir u = f_dir t') by exact (f_equal f_dir Al).
        assert (Ef : f_data u = f_data t') by exact (f_equal f_data Al).
        cbn [x_name c2] in Q1, Q2, Q3. rewrite Ed2 in Q2. rewrite Eb2 in Q3.
        unfold nothing_at, file_at in *. rewrite Eu, Ef. split; [exact Q1|]. split; [exact Q2|].
        rewrite Q3. f_equal. change (data_of t0 i) with (data_of t i). exact Do.
  Qed.
End Lost.
