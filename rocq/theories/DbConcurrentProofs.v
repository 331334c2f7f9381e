(** Two processes in one directory: what schedules can and cannot do. *)
From Coq Require Import List ZArith NArith Lia Bool.
From Coq Require Import Init.Byte Strings.Byte.
From Verif Require Import Base BaseLemmas HashModel HashProofs SpecHash HashTreeModel HashTreeProofs
  RefModel RefProofs SpecRef DbModel SpecDb DbRefProofs DbFsProofs DbCommitProofs DbOpenProofs DbApiProofs
  DbSession DbSessionProofs DbMoreProofs DbMultiProofs DbFrameProofs DbConcurrent.
Import ListNotations.

Lemma handles_eta s : with_handles s (f_handles s) = s.
Proof. now destruct s. Qed.

(** ** One process alone, step after step *)
(** [alone p s p' s' xs]: from [p] in [s] to [p'] in [s'], through the states [xs], both ends included. *)
Inductive alone {A} : prog A -> fsys -> prog A -> fsys -> list fsys -> Prop :=
| alone_now p s : alone p s p s [s]
| alone_step f s s1 p1 p' s' xs : f s = (s1, p1) -> alone p1 s1 p' s' xs -> alone (Step f) s p' s' (s :: xs).

Lemma alone_states {A} (p : prog A) s p' s' xs : alone p s p' s' xs ->
  (exists pre, xs = pre ++ [s'] /\ states p s = pre ++ states p' s') /\ run p s = run p' s'.
Proof.
  induction 1 as [p s|f s s1 p1 p' s' xs E A0 ((pre & IH1 & IH2) & IH3)].
  - split; [now exists []|reflexivity].
  - split.
    + exists (s :: pre). cbn [states app]. rewrite E. now rewrite IH1, IH2.
    + cbn [run]. now rewrite E.
Qed.

Lemma states_cons {A} (p : prog A) s : exists l, states p s = s :: l.
Proof. destruct p; cbn; eauto. Qed.

Lemma alone_prefix {A} (p : prog A) s p' s' xs : alone p s p' s' xs -> exists rest, states p s = xs ++ rest.
Proof.
  intros A0. apply alone_states in A0 as ((pre & -> & E) & _). destruct (states_cons p' s') as (l & El).
  exists l. rewrite E, El. now rewrite <- app_assoc.
Qed.

Lemma states_catch_eq {A B} (k : outcome A -> prog B) p : forall s,
  states (catch p k) s = states p s ++ tl (states (k (snd (run p s))) (fst (run p s))).
Proof.
  induction p as [o|f IH] using prog_ind'; intros s; cbn [catch run states].
  - cbn [fst snd app]. destruct (states_cons (k o) s) as (l & ->). reflexivity.
  - specialize (IH s). destruct (f s) as [s' p']. cbn [snd] in IH. cbn [app]. now rewrite IH.
Qed.

Lemma states_then_eq {A B} (p : prog A) (k : A -> prog B) s s' a :
  run p s = (s', Ok a) -> states (andthen p k) s = states p s ++ tl (states (k a) s').
Proof. intros E. unfold andthen. now rewrite states_catch_eq, E. Qed.

(** ** A process that changes nothing but its own open files, watching another one *)
Inductive quiet {A} : prog A -> Prop :=
| quiet_ret o : quiet (Ret o)
| quiet_step f : (forall s, fst (f s) = with_handles s (f_handles (fst (f s))) /\ quiet (snd (f s))) -> quiet (Step f).


Section Quiet.
  Variables A B : Type.
  Lemma quiet_catch (p : prog A) (k : outcome A -> prog B) : quiet p -> (forall o, quiet (k o)) -> quiet (catch p k).
  Proof.
    intros Q K. induction p as [o|f IH] using prog_ind'; cbn [catch]; auto. constructor. intros s.
    inversion Q as [|f' Q1]; subst. destruct (Q1 s) as (E & Q2). specialize (IH s).
    destruct (f s) as [s' p']. cbn [fst snd] in *. auto.
  Qed.
  Lemma quiet_then (p : prog A) (k : A -> prog B) : quiet p -> (forall a, quiet (k a)) -> quiet (andthen p k).
  Proof. intros Q K. apply quiet_catch; auto. intros [a| | |]; auto; constructor. Qed.
  Lemma quiet_call (f : fsys -> fsys * outcome A) : (forall s, fst (f s) = with_handles s (f_handles (fst (f s)))) -> quiet (call f).
  Proof. intros E. constructor. intros s. specialize (E s). destruct (f s). cbn [fst snd] in *. split; auto. constructor. Qed.
End Quiet.

Lemma quiet_sys_open n : quiet (call (sys_open n)).
Proof. apply quiet_call. intros s. unfold sys_open. destruct (dir_get (f_dir s) n) as [[i|]|]; cbn [fst]; auto using eq_sym, handles_eta. Qed.

Lemma quiet_read h n off : quiet (p_read h n off).
Proof. apply quiet_call. intros s. cbn [fst]. now rewrite handles_eta. Qed.

(** [watch q h xs o h' ys]: the steps of [q] are made in states of [xs], in order, from open files [h];
    it ends with [o] and [h'], where [ys] are the states left. *)
Inductive watch {A} : prog A -> list handle -> list fsys -> outcome A -> list handle -> list fsys -> Prop :=
| watch_ret o h x xs : watch (Ret o) h (x :: xs) o h (x :: xs)
| watch_step f h x xs x' q' o h' ys : f (with_handles x h) = (x', q') ->
    watch q' (f_handles x') (x :: xs) o h' ys -> watch (Step f) h (x :: xs) o h' ys
| watch_skip q h x y xs o h' ys : watch q h (y :: xs) o h' ys -> watch q h (x :: y :: xs) o h' ys.

Lemma watch_suffix {A} (q : prog A) h xs o h' ys : watch q h xs o h' ys -> exists pre x l, xs = pre ++ ys /\ ys = x :: l.
Proof.
  induction 1 as [o h x xs|f h x xs x' q' o h' ys E W IH|q h x y xs o h' ys W (pre & z & l & E & E')].
  - now exists [], x, xs.
  - exact IH.
  - exists (x :: pre), z, l. cbn. now rewrite E.
Qed.

Lemma watch_catch {A B} (p : prog A) (k : outcome A -> prog B) h xs o h' ys :
  watch (catch p k) h xs o h' ys -> exists o1 h1 zs, watch p h xs o1 h1 zs /\ watch (k o1) h1 zs o h' ys.
Proof.
  intros W. remember (catch p k) as q eqn:E. revert p k E.
  induction W as [o h x xs|f h x xs x' q' o h' ys Ef W IH|q h x y xs o h' ys W IH]; intros p k E.
  - destruct p as [o1|g]; cbn [catch] in E; [|discriminate].
    exists o1, h, (x :: xs). split; [constructor|]. rewrite <- E. constructor.
  - destruct p as [o1|g]; cbn [catch] in E.
    + exists o1, h, (x :: xs). split; [constructor|]. rewrite <- E. econstructor; eauto.
    + injection E as ->. destruct (g (with_handles x h)) as [s1 p1] eqn:Eg. injection Ef as <- <-.
      destruct (IH p1 k eq_refl) as (o1 & h1 & zs & W1 & W2). exists o1, h1, zs. split; auto. econstructor; eauto.
  - destruct (IH p k E) as (o1 & h1 & zs & W1 & W2). exists o1, h1, zs. split; auto. now constructor.
Qed.

Lemma watch_done {A} (o1 o : outcome A) h xs h' ys : watch (Ret o1) h xs o h' ys -> o = o1 /\ h' = h.
Proof.
  intros W. remember (Ret o1) as q eqn:E. induction W; [injection E as ->; auto|discriminate|auto].
Qed.

Lemma watch_then {A B} (p : prog A) (k : A -> prog B) h xs o h' ys :
  watch (andthen p k) h xs o h' ys ->
  exists o1 h1 zs, watch p h xs o1 h1 zs /\
    match o1 with
    | Ok a => watch (k a) h1 zs o h' ys
    | Err => o = Err /\ h' = h1 | Panic => o = Panic /\ h' = h1 | Fuel => o = Fuel /\ h' = h1
    end.
Proof.
  intros W. apply watch_catch in W as (o1 & h1 & zs & W1 & W2). exists o1, h1, zs. split; auto.
  destruct o1; auto; now apply watch_done in W2.
Qed.

(** The one step of a call is made in one of the states. *)
Lemma watch_one {A} (f : fsys -> fsys * outcome A) h xs o h' ys : watch (call f) h xs o h' ys ->
  exists pre x l x', xs = pre ++ x :: l /\ f (with_handles x h) = (x', o) /\ h' = f_handles x' /\
    exists pre', x :: l = pre' ++ ys.
Proof.
  intros W. unfold call in W. remember (Step _) as q eqn:E. revert E.
  induction W as [o h x xs|g h x xs x' q' o h' ys Eg W IH|q h x y xs o h' ys W IH]; intros E; [discriminate| |].
  - injection E as ->. destruct (f (with_handles x h)) as [s1 o1] eqn:Ef. injection Eg as <- <-.
    pose proof (watch_suffix _ _ _ _ _ _ W) as (pre & z & l & E1 & E2).
    apply watch_done in W as (-> & ->). exists [], x, xs, s1. repeat split; auto. exists pre. exact E1.
  - destruct (IH E) as (pre & z & l & x' & -> & Q). exists (x :: pre), z, l, x'. split; auto.
Qed.

(** What a quiet process does while another one makes its steps. *)
Lemma later_watch {A B} (w w' : world A B) : later w w' -> quiet (w_second w) -> forall o2, w_second w' = Ret o2 ->
  exists xs ys,
    alone (w_first w) (with_handles (w_shared w) (w_files1 w)) (w_first w') (with_handles (w_shared w') (w_files1 w')) xs /\
    watch (w_second w) (w_files2 w) xs o2 (w_files2 w') ys.
Proof.
  induction 1 as [w|f h1 q h2 s s' p' w' E L IH|p h1 f h2 s s' q' w' E L IH]; intros Q o2 E2; cbn [w_first w_second w_files1 w_files2 w_shared] in *.
  - eexists _, _. split; [apply alone_now|]. rewrite E2. constructor.
  - destruct (IH Q o2 E2) as (xs & ys & A1 & W1). rewrite handles_eta in A1.
    exists (with_handles s h1 :: xs), ys. split; [econstructor; eauto|].
    inversion A1; subst; now apply watch_skip.
  - inversion Q as [|f' Q1]; subst. destruct (Q1 (with_handles s h2)) as (E1 & Q2). rewrite E in E1, Q2. cbn [fst snd] in E1, Q2.
    assert (S1 : with_handles s' h1 = with_handles s h1) by (rewrite E1; reflexivity).
    assert (S2 : with_handles (with_handles s' h1) h2 = with_handles s h2) by (rewrite S1; reflexivity).
    destruct (IH Q2 o2 E2) as (xs & ys & A1 & W1). exists xs, ys. split.
    + rewrite S1 in A1. exact A1.
    + assert (X : exists l, xs = with_handles s' h1 :: l) by (inversion A1; subst; eauto).
      destruct X as (l & ->). apply (watch_step _ _ _ _ s' q'); auto. now rewrite S2.
Qed.

(** ** What a watching process reads *)

(** What a name stands for keeps its bytes while the others work. *)
Definition steady (n : bytes) (xs : list fsys) : Prop :=
  forall pre x post j y, xs = pre ++ x :: post -> dir_get (f_dir x) n = Some (EFile j) -> In y (x :: post) ->
    data_of y j = data_of x j.

Lemma watch_read h n off hs xs o hs' ys j dat : watch (p_read h n off) hs xs o hs' ys ->
  nth_error hs h = Some (Handle j 0 true) -> (forall x, In x xs -> data_of x j = dat) -> (0 <= off)%Z ->
  o = (if (n =? 0)%Z then Ok []
       else if (off + n <=? zlen dat)%Z then Ok (firstn (Z.to_nat n) (skipn (Z.to_nat off) dat)) else Err) /\
  hs' = hs /\ (forall x, In x ys -> data_of x j = dat).
Proof.
  intros W E D P. pose proof (watch_suffix _ _ _ _ _ _ W) as (p0 & z & l0 & Exs & _).
  apply watch_one in W as (pre & x & l & x' & -> & Ef & -> & _). injection Ef as <- <-. split; [|split].
  - unfold read_at. cbn [with_handles f_handles]. rewrite E.
    change (data_of (with_handles x hs) j) with (data_of x j).
    rewrite D by (apply in_or_app; right; now left). ltb_false. reflexivity.
  - reflexivity.
  - intros y Iy. apply D. rewrite Exs. apply in_or_app. now right.
Qed.

Lemma watch_chunks h k : forall chunk last off hs xs o hs' ys j dat,
  watch (p_read_chunks h k chunk last off) hs xs o hs' ys ->
  nth_error hs h = Some (Handle j 0 true) -> (forall x, In x xs -> data_of x j = dat) -> (0 <= off)%Z ->
  o = read_chunks dat k chunk last off /\ hs' = hs.
Proof.
  induction k as [|k IH]; intros chunk last off hs xs o hs' ys j dat W E D P.
  - now apply watch_done in W.
  - set (n := if Nat.eqb (S k) 1 then last else chunk).
    change (read_chunks dat (S k) chunk last off) with
      (if (n <? 0)%Z then Panic else
       do b <- (if (n =? 0)%Z then Ok [] else if (off + n <=? zlen dat)%Z
       then Ok (firstn (Z.to_nat n) (skipn (Z.to_nat off) dat)) else Err);
       do r <- read_chunks dat k chunk last (off + n); Ok (b ++ fst r, snd r)).
    change (p_read_chunks h (S k) chunk last off) with
      (if (n <? 0)%Z then Ret Panic else
       let* b <- p_read h n off; let* r <- p_read_chunks h k chunk last (off + n); Ret (Ok (b ++ fst r, snd r))) in W.
    clearbody n. destruct (Z.ltb_spec n 0); [now apply watch_done in W|].
    apply watch_then in W as (o1 & h1 & zs & W1 & W2).
    pose proof (watch_suffix _ _ _ _ _ _ W1) as (p0 & z & l0 & Exs & _).
    pose proof (watch_read _ _ _ _ _ _ _ _ _ _ W1 E D P) as (E1 & -> & D1).
    assert (T : forall b, watch (let* r <- p_read_chunks h k chunk last (off + n); Ret (Ok (b ++ fst r, snd r))) hs zs o hs' ys ->
      o = (do r <- read_chunks dat k chunk last (off + n); Ok (b ++ fst r, snd r)) /\ hs' = hs).
    { intros b W3. apply watch_then in W3 as (o2 & h2 & zs2 & W3 & W4).
      destruct (IH _ _ _ _ _ _ _ _ _ _ W3 E D1 ltac:(lia)) as (E2 & ->). rewrite <- E2.
      destruct o2 as [r| | |]; cbn [bind]; [now apply watch_done in W4|exact W4 ..]. }
    subst o1. destruct (n =? 0)%Z; [now apply T|]. destruct (_ <=? _)%Z; [now apply T|exact W2].
Qed.

Section Reading.
  Variable H : bytes -> bytes.
  Variable mv : byte.
  Variable behind : bytes -> bytes.

  Lemma watch_reference chunk h hs xs o hs' ys j dat : watch (p_reference H mv behind chunk h) hs xs o hs' ys ->
    nth_error hs h = Some (Handle j 0 true) -> (forall x, In x xs -> data_of x j = dat) ->
    o = retrieve_reference H mv behind chunk dat /\ hs' = hs.
  Proof.
    intros W E D. unfold p_reference in W. apply watch_catch in W as (o1 & h1 & zs & W1 & W2).
    destruct (watch_read _ _ _ _ _ _ _ _ _ _ W1 E D ltac:(lia)) as (E1 & -> & D1).
    unfold retrieve_reference. cbn [Z.eqb] in E1. rewrite Z.add_0_l in E1.
    destruct (Z.leb_spec 8 (zlen dat)).
    2:{ subst o1. ltb_true. now apply watch_done in W2. }
    ltb_false. subst o1. cbn [Z.to_nat skipn] in W2.
    change (Pos.to_nat 8) with 8 in W2.
    set (len := i64 (unle (firstn 8 dat))) in *. set (size := i64 (make_chunk chunk (u64 len))) in *.
    destruct (Z.eqb_spec size 0); [now apply watch_done in W2|].
    set (amount := (Z.quot len size + 1)%Z) in *. set (last := (len - size * (amount - 1))%Z) in *.
    apply watch_then in W2 as (o2 & h2 & zs2 & W2 & W3).
    destruct (watch_chunks _ _ _ _ _ _ _ _ _ _ _ _ W2 E D1 ltac:(lia)) as (E2 & ->).
    assert (C : read_chunks dat (Z.to_nat amount) size last 8 =
                read_chunks dat (Z.to_nat (Z.min amount (zlen dat + 2))) size last 8).
    { pose proof (zlen_nonneg dat). destruct (Z.le_gt_cases amount (zlen dat + 2)); [now rewrite Z.min_l|].
      rewrite Z.min_r by lia. destruct (Z.lt_total size 0) as [|[|]]; [|lia|].
      - now rewrite !read_chunks_neg by lia.
      - apply read_chunks_clip; lia. }
    rewrite <- C, <- E2. destruct o2 as [r| | |]; cbn [bind]; [now apply watch_done in W3|exact W3 ..].
  Qed.

  Lemma nth_error_end {A} (l : list A) x : nth_error (l ++ [x]) (length l) = Some x.
  Proof. rewrite nth_error_app2 by lia. now rewrite Nat.sub_diag. Qed.

  Lemma set_nth_end {A} (l : list A) x y : set_nth (l ++ [x]) (length l) y = l ++ [y].
  Proof. induction l; cbn [length app set_nth]; [reflexivity|]. now rewrite IHl. Qed.

  Lemma watch_open n hs xs o hs' ys : watch (call (sys_open n)) hs xs o hs' ys ->
    exists pre x post, xs = pre ++ x :: post /\ (exists pre', x :: post = pre' ++ ys) /\
      match dir_get (f_dir x) n with
      | Some (EFile j) => o = Ok (length hs) /\ hs' = hs ++ [Handle j 0 true]
      | _ => o = Err /\ hs' = hs
      end.
  Proof.
    intros W. apply watch_one in W as (pre & x & post & x' & -> & E & -> & S). exists pre, x, post.
    split; [reflexivity|]. split; [exact S|]. unfold sys_open in E. cbn [with_handles f_dir f_handles] in E.
    destruct (dir_get (f_dir x) n) as [[j|]|]; injection E as <- <-; auto.
  Qed.

  (** The reference is that of what the name stood for when it was opened. *)
  Lemma watch_retrieve chunk n hs xs o hs' ys : steady n xs ->
    watch (p_retrieve H mv behind chunk n) hs xs o hs' ys ->
    exists pre x post, xs = pre ++ x :: post /\
      match dir_get (f_dir x) n with
      | Some (EFile j) =>
        o = retrieve_reference H mv behind chunk (data_of x j) /\ hs' = hs ++ [Handle j 0 false] /\
        (exists pre', x :: post = pre' ++ ys)
      | _ => o = Err
      end.
  Proof.
    intros St W. unfold p_retrieve in W. apply watch_then in W as (o1 & h1 & zs & W1 & W2).
    apply watch_open in W1 as (pre & x & post & Exs & (pre' & Es) & M). exists pre, x, post. split; [exact Exs|].
    destruct (dir_get (f_dir x) n) as [[j|]|] eqn:Ed; [|destruct M as (-> & ->); now destruct W2 ..].
    destruct M as (-> & ->). apply watch_catch in W2 as (o2 & h2 & zs2 & W2 & W3).
    assert (D : forall y, In y zs -> data_of y j = data_of x j).
    { intros y Iy. eapply St; [exact Exs|exact Ed|]. rewrite Es. apply in_or_app. now right. }
    destruct (watch_reference _ _ _ _ _ _ _ j (data_of x j) W2 (nth_error_end _ _) D) as (E2 & ->).
    pose proof (watch_suffix _ _ _ _ _ _ W2) as (p2 & z2 & l2 & S2 & _).
    pose proof (watch_suffix _ _ _ _ _ _ W3) as (p3 & z3 & l3 & S3 & _).
    assert (X : o = o2 /\ hs' = hs ++ [Handle j 0 false]).
    { clear - W3. remember (Step _) as q eqn:E in W3. remember (hs ++ [Handle j 0 true]) as hh eqn:Eh in W3.
      induction W3 as [oo h x xs|f h x xs x' q' oo h' ys Ef W IH|q h x y xs oo h' ys W IH]; [discriminate| |auto].
      injection E as ->. injection Ef as <- <-. apply watch_done in W as (-> & ->). split; [reflexivity|].
      unfold sys_close. cbn [with_handles f_handles]. rewrite Eh, nth_error_end. cbn. apply set_nth_end. }
    destruct X as (-> & ->). split; [exact E2|]. split; [reflexivity|].
    exists (pre' ++ p2 ++ p3). rewrite Es, S2, S3. now rewrite <- !app_assoc.
  Qed.

  Definition opened (b : dbapp) (n : bytes) (conn : nat) (r : option reference * Z) : dbapp :=
    with_ctxs b (ctx_set (a_ctxs b) (zlen (a_ctxs b)) (Ctx (zlen (a_ctxs b)) n conn (fst r) (snd r) [])).

  (** Open takes the reference from one state and the data from the same or a later one. *)
  Lemma watch_p_open b n hs xs o hs' ys : steady n xs ->
    existsb (fun x => bytes_eqb (x_name (snd x)) n) (a_ctxs b) = false ->
    watch (p_open H mv behind b n) hs xs o hs' ys ->
    exists pre x post, xs = pre ++ x :: post /\
      match dir_get (f_dir x) n with
      | Some (EFile j) =>
        match retrieve_reference H mv behind (a_chunk b) (data_of x j) with
        | Ok r =>
          exists y, In y (x :: post) /\
          match dir_get (f_dir y) n with
          | Some (EFile k) =>
            o = Ok (opened b n (S (length hs)) r, zlen (a_ctxs b)) /\
            hs' = hs ++ [Handle j 0 false; Handle k 0 true]
          | _ => o = Err
          end
        | Err => o = Err | Panic => o = Panic | Fuel => o = Fuel
        end
      | _ => o = Err
      end.
  Proof.
    intros St N W. unfold p_open in W. rewrite N in W. apply watch_then in W as (o1 & h1 & zs & W1 & W2).
    apply watch_retrieve in W1 as (pre & x & post & Exs & M); auto. exists pre, x, post. split; [exact Exs|].
    destruct (dir_get (f_dir x) n) as [[j|]|]; [|subst o1; apply W2 ..].
    destruct M as (E1 & -> & (pre' & Es)). rewrite <- E1. destruct o1 as [r| | |]; [|apply W2 ..].
    apply watch_then in W2 as (o2 & h2 & zs2 & W2 & W3).
    apply watch_open in W2 as (pre2 & y & post2 & Ezs & _ & M2). exists y. split.
    { rewrite Es, Ezs. apply in_or_app. right. apply in_or_app. right. now left. }
    destruct (dir_get (f_dir y) n) as [[k|]|]; [|destruct M2 as (-> & ->); apply W3 ..].
    destruct M2 as (-> & ->). apply watch_done in W3 as (-> & ->). rewrite app_length, <- app_assoc. cbn [length app].
    rewrite Nat.add_1_r. split; reflexivity.
  Qed.

  Lemma quiet_p_chunks h k : forall chunk last off, quiet (p_read_chunks h k chunk last off).
  Proof.
    induction k as [|k IH]; intros chunk last off; cbn [p_read_chunks]; [constructor|].
    destruct (_ <? 0)%Z; [constructor|]. apply quiet_then; [apply quiet_read|]. intros x. apply quiet_then; auto. constructor.
  Qed.

  Lemma quiet_p_retrieve chunk n : quiet (p_retrieve H mv behind chunk n).
  Proof.
    unfold p_retrieve. apply quiet_then; [apply quiet_sys_open|]. intros h. apply quiet_catch.
    - unfold p_reference. apply quiet_catch; [apply quiet_read|]. intros [x| | |]; try constructor.
      destruct (_ =? 0)%Z; [constructor|]. apply quiet_then; [apply quiet_p_chunks|]. constructor.
    - intros o. constructor. intros s. cbn [fst snd]. split; [|constructor]. unfold sys_close.
      destruct (nth_error (f_handles s) h) as [[i p [|]]|]; cbn [fst]; auto using eq_sym, handles_eta.
  Qed.

  Lemma quiet_p_open b n : quiet (p_open H mv behind b n).
  Proof.
    unfold p_open. destruct (existsb _ _); [constructor|]. apply quiet_then.
    - apply quiet_p_retrieve.
    - intros r. apply quiet_then; [apply quiet_sys_open|]. constructor.
  Qed.
End Reading.

(** A quiet program alone watches one state. *)
Lemma watch_alone {A} (q : prog A) : quiet q -> forall s h, 
  watch q h [s] (snd (run q (with_handles s h))) (f_handles (fst (run q (with_handles s h)))) [s] /\
  fst (run q (with_handles s h)) = with_handles s (f_handles (fst (run q (with_handles s h)))).
Proof.
  induction q as [o|f IH] using prog_ind'; intros Q s h; cbn [run].
  - split; [constructor|reflexivity].
  - inversion Q as [|f' Q1]; subst. destruct (Q1 (with_handles s h)) as (E & Q2). specialize (IH (with_handles s h)).
    destruct (f (with_handles s h)) as [s1 q1] eqn:Ef. cbn [fst snd] in *.
    specialize (IH Q2 s (f_handles s1)).
    replace (with_handles s (f_handles s1)) with s1 in IH by (rewrite E at 1; reflexivity).
    destruct IH as (W & E2). split; [|exact E2]. econstructor; eauto.
Qed.

(** ** Invariants that hold whatever the others do between the steps *)
Section Safe.
  Variable J : fsys -> Prop.

  Inductive safe {A} (R : A -> Prop) : prog A -> Prop :=
  | safe_ret o : (forall v, o = Ok v -> R v) -> safe R (Ret o)
  | safe_step f : (forall x, J x -> J (fst (f x)) /\ safe R (snd (f x))) -> safe R (Step f).

  Definition any {A} (v : A) : Prop := True.

  Lemma safe_catch {A B} (R : A -> Prop) (R' : B -> Prop) (p : prog A) (k : outcome A -> prog B) :
    safe R p -> (forall o, (forall v, o = Ok v -> R v) -> safe R' (k o)) -> safe R' (catch p k).
  Proof.
    intros P K. induction p as [o|f IH] using prog_ind'; cbn [catch].
    - inversion P; subst. now apply K.
    - constructor. intros x Jx. inversion P as [|f' P1]; subst. destruct (P1 x Jx) as (J1 & P2). specialize (IH x).
      destruct (f x) as [x' p']. cbn [fst snd] in *. auto.
  Qed.

  Lemma safe_fail {A} (R : A -> Prop) o : (forall v : A, o <> Ok v) -> safe R (Ret o).
  Proof. intros N. constructor. intros v E. now apply N in E. Qed.

  Lemma safe_then {A B} (R : A -> Prop) (R' : B -> Prop) (p : prog A) (k : A -> prog B) :
    safe R p -> (forall v, R v -> safe R' (k v)) -> safe R' (andthen p k).
  Proof.
    intros P K. eapply safe_catch; [exact P|]. intros [v| | |] Rv; auto; apply safe_fail; discriminate.
  Qed.

  Lemma safe_call {A} (R : A -> Prop) (f : fsys -> fsys * outcome A) :
    (forall x, J x -> J (fst (f x)) /\ forall v, snd (f x) = Ok v -> R v) -> safe R (call f).
  Proof. intros P. constructor. intros x Jx. specialize (P x Jx). destruct (f x). cbn [fst snd] in *. split; [apply P|constructor; apply P]. Qed.

  Lemma safe_states {A} (R : A -> Prop) (p : prog A) : safe R p -> forall x, J x -> Forall J (states p x).
  Proof.
    induction p as [o|f IH] using prog_ind'; intros P x Jx; cbn [states]; [auto|].
    inversion P as [|f' P1]; subst. destruct (P1 x Jx) as (J1 & P2). specialize (IH x).
    destruct (f x) as [x' p']. cbn [fst snd] in *. auto.
  Qed.

  Variable F : nat -> Prop.
  Hypothesis J_data : forall x j d, J x -> F j -> J (set_data x j d).
  Hypothesis J_faults : forall x fs, J x -> J (with_faults x fs).
  Hypothesis J_handles : forall x hs, J x -> J (with_handles x hs).

  Lemma safe_bytes j w : F j -> forall off res, safe any (p_bytes j off w res).
  Proof.
    intros Fj. induction w as [|b w IH]; intros off res; cbn [p_bytes]; [now constructor|].
    constructor. intros x Jx. cbn [fst snd]. auto.
  Qed.

  Lemma safe_write j off w : F j -> safe any (p_write j off w).
  Proof.
    intros Fj. unfold p_write. constructor. intros x Jx.
    destruct (f_faults x) as [|[k|] fs]; cbn [fst snd]; auto using safe_bytes.
  Qed.

  Lemma safe_copy_loop conn ck j : F j -> forall fuel roff woff, safe any (copy_loop fuel conn ck roff j woff).
  Proof.
    intros Fj. induction fuel as [|fuel IH]; intros roff woff; cbn [copy_loop]; [now constructor|].
    constructor. intros x Jx. cbn [fst snd]. split; [exact Jx|].
    destruct (read_at x conn ck roff); try (now constructor).
    eapply safe_catch; [now apply safe_write|]. intros [u| | |] _; auto; now constructor.
  Qed.

  Lemma safe_pending j l : F j -> forall woff, safe any (write_pending j woff l).
  Proof.
    intros Fj. induction l as [|c l IH]; intros woff; cbn [write_pending]; [now constructor|].
    eapply safe_catch; [now apply safe_write|]. intros [u| | |] _; auto; now constructor.
  Qed.

  Variable a : dbapp.
  Variable c : ctx.
  Hypothesis J_dst : forall x, J x -> J (fst (sys_create (side (x_name c) (a_dst a)) x)) /\
    forall v, snd (sys_create (side (x_name c) (a_dst a)) x) = Ok v -> F v.
  Hypothesis J_bck : forall x, J x -> J (fst (sys_create (side (x_name c) (a_bck a)) x)) /\
    forall v, snd (sys_create (side (x_name c) (a_bck a)) x) = Ok v -> F v.

  Lemma J_close x h : J x -> J (fst (sys_close h x)).
  Proof. intros Jx. unfold sys_close. destruct (nth_error (f_handles x) h) as [[i p [|]]|]; cbn [fst]; auto. Qed.

  Lemma J_open x n : J x -> J (fst (sys_open n x)).
  Proof. intros Jx. unfold sys_open. destruct (dir_get (f_dir x) n) as [[j|]|]; cbn [fst]; auto. Qed.

  Lemma safe_prepare fuel r : safe any (prepare_files fuel a c r).
  Proof.
    unfold prepare_files. apply (safe_then any).
    - unfold write_destination. apply (safe_then F); [now apply safe_call|].
      intros d Fd. apply (safe_then any); [now apply safe_write|]. intros _ _. apply (safe_then any).
      + destruct (x_ref c); [|now constructor]. apply (safe_then any).
        * apply safe_call. intros x Jx. cbn [fst]. split; [exact Jx|now intros].
        * intros size _. destruct (_ <=? _)%Z; [now constructor|]. now apply safe_copy_loop.
      + intros woff _. apply (safe_then any); [now apply safe_pending|]. intros _ _. now constructor.
    - intros off _. apply (safe_then F); [now apply safe_call|]. intros b Fb. apply (safe_then any).
      + unfold p_copy. apply (safe_then any).
        * apply safe_call. intros x Jx. split; [|now intros].
          destruct (nth_error (f_handles x) (x_conn c)) as [[i p [|]]|]; cbn [fst]; auto.
        * intros [|d0 d] _; [now constructor|now apply safe_write].
      + intros _ _. apply (safe_then any); [|now constructor].
        apply safe_call. intros x Jx. split; [now apply J_close|now intros].
  Qed.

  Hypothesis J_remove : forall x m, J x -> J (fst (sys_remove m x)).
  Hypothesis J_rename : forall x m m', J x -> J (fst (sys_rename m m' x)).
  Hypothesis J_lock : forall x, J x -> J (fst (sys_trylock (x_name c) x)).
  Hypothesis J_unlock : forall x i, J x -> J (sys_unlock i x).

  Lemma safe_update fuel r : safe any (update_database fuel a c r).
  Proof.
    assert (C : forall (A : Type) (f : fsys -> fsys * outcome A), (forall x, J x -> J (fst (f x))) -> safe any (call f)).
    { intros A f Hf. apply safe_call. intros x Jx. split; [auto|now intros]. }
    unfold update_database. apply (safe_then any); [now apply C|]. intros lock _.
    apply (safe_catch any).
    - unfold swap_files. apply (safe_then any); [apply safe_prepare|]. intros off _. unfold replace_files.
      apply (safe_then any); [apply C; auto|]. intros _ _.
      apply (safe_then any); [apply C; auto|]. intros _ _.
      apply (safe_then any); [apply C; auto|]. intros _ _.
      apply (safe_then any); [apply C; auto using J_open|]. intros conn _. now constructor.
    - intros o _. constructor. intros x Jx. cbn [fst snd]. split; [auto|now constructor].
  Qed.
End Safe.

Lemma later_safe {A B} (J : fsys -> Prop) (RA : A -> Prop) (RB : B -> Prop) (w w' : world A B) : 
  (forall x hs, J x -> J (with_handles x hs)) -> later w w' ->
  safe J RA (w_first w) -> safe J RB (w_second w) -> J (w_shared w) ->
  safe J RA (w_first w') /\ safe J RB (w_second w') /\ J (w_shared w').
Proof.
  intros Jh. induction 1 as [w|f h1 q h2 s s' p' w' E L IH|p h1 f h2 s s' q' w' E L IH]; intros P Q Js; auto;
    cbn [w_first w_second w_shared] in *; apply IH; auto.
  - inversion P as [|f' P1]; subst. pose proof (P1 _ (Jh s h1 Js)) as X. rewrite E in X. apply X.
  - inversion P as [|f' P1]; subst. pose proof (P1 _ (Jh s h1 Js)) as X. rewrite E in X. apply X.
  - inversion Q as [|f' Q1]; subst. pose proof (Q1 _ (Jh s h2 Js)) as X. rewrite E in X. apply X.
  - inversion Q as [|f' Q1]; subst. pose proof (Q1 _ (Jh s h2 Js)) as X. rewrite E in X. apply X.
Qed.

(** No name stands for the inode, and none will. *)
Definition gone (i : nat) (x : fsys) : Prop :=
  i < length (f_data x) /\ forall m, dir_get (f_dir x) m <> Some (EFile i).

Lemma gone_create i n x : gone i x -> gone i (fst (sys_create n x)).
Proof.
  intros (L & G). unfold sys_create. destruct (dir_get (f_dir x) n) as [[j|]|] eqn:E; cbn [fst].
  - split; [cbn; now rewrite set_nth_length|exact G].
  - now split.
  - split; cbn [with_data with_dir f_data f_dir].
    + rewrite app_length. lia.
    + intros m. rewrite dir_get_set. destruct (bytes_eqb n m); [|apply G]. intros X. injection X as X. lia.
Qed.

Lemma gone_safe i fuel a c r : safe (gone i) any (update_database fuel a c r).
Proof.
  apply (safe_update _ (fun _ => True)); auto.
  - intros x j d (L & G) _. split; [cbn; now rewrite set_nth_length|exact G].
  - intros x Gx. split; auto. now apply gone_create.
  - intros x Gx. split; auto. now apply gone_create.
  - intros x m (L & G). unfold sys_remove. destruct (dir_get (f_dir x) m) as [[j|]|]; cbn [fst]; [|now split ..].
    split; [exact L|]. intros q. cbn [with_dir f_dir]. rewrite dir_get_del. destruct (bytes_eqb m q); [discriminate|apply G].
  - intros x m m' (L & G). unfold sys_rename. destruct (dir_get (f_dir x) m) as [[j|]|] eqn:E; [|now split ..].
    assert (K : gone i (with_dir x (dir_set (dir_del (f_dir x) m) m' (EFile j)))).
    { split; [exact L|]. intros q. cbn [with_dir f_dir]. rewrite dir_get_set, dir_get_del.
      destruct (bytes_eqb m' q); [intros X; injection X as ->; now apply G in E|].
      destruct (bytes_eqb m q); [discriminate|apply G]. }
    destruct (dir_get (f_dir x) m') as [[k|]|]; cbn [fst]; auto. now split.
  - intros x Gx. pose proof (gone_create i (x_name c) x Gx) as K. unfold sys_trylock, sys_create in *.
    destruct (dir_get (f_dir x) (x_name c)) as [[j|]|]; cbn [fst] in *; auto.
    destruct (existsb _ _); cbn [fst]; auto.
Qed.
