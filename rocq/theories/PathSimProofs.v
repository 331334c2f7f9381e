(** With plain names the application with paths behaves as in one directory. *)
From Coq Require Import List ZArith NArith Lia Bool.
From Coq Require Import Init.Byte Strings.Byte.
From Verif Require Import Base BaseLemmas HashModel HashTreeModel RefModel DbModel DbFsProofs PathModel SpecPath PathProofs.
Import ListNotations.

Lemma render_name l : render l = place_name l.
Proof. reflexivity. Qed.

Lemma place_snoc D n : place_name (D ++ [n]) = place_name D ++ x2f :: n.
Proof. unfold place_name. rewrite map_app, concat_app. cbn. now rewrite app_nil_r. Qed.

Lemma place_inj D n m : place_name (D ++ [n]) = place_name (D ++ [m]) -> n = m.
Proof. rewrite !place_snoc. intros E. apply app_inv_head in E. now injection E. Qed.

Lemma place_above D n : place_name D <> place_name (D ++ [n]).
Proof. rewrite place_snoc. intros E. apply (f_equal (@length byte)) in E. rewrite app_length in E. cbn in E. lia. Qed.

Lemma plain_side n e : plain n -> ~ In x2f e -> plain (side n e).
Proof.
  intros (A & B & C & D) N. unfold side. repeat split.
  - destruct n; discriminate.
  - intros X. apply in_app_or in X. cbn in X. destruct X as [X|[X|X]]; [auto|discriminate|auto].
  - destruct n as [|b n]; [congruence|]. destruct n; discriminate.
  - intros X. apply C. destruct n as [|b [|c n]]; [congruence| |].
    + cbn in X. injection X as X _. now subst.
    + cbn in X. injection X as _ _ X. destruct n; discriminate.
Qed.

Section Sim.
  Variable H : bytes -> bytes.
  Variable mv : byte.
  Variable behind : bytes -> bytes.
  Variable cwd : list bytes.
  Variable dir : bytes.
  Hypothesis Hd : dir <> [].

  Notation D := (resolve cwd dir).

  Variable S0 : fsys.
  Definition rel (s S : fsys) : Prop := holds D s S /\ only_within D S0 S.

  (** [names n m]: the name [n] stands for the file [m] of the directory, and so do those with extensions. *)
  Definition names (n m : bytes) : Prop :=
    plain m /\ exists es, elements n = es ++ [m] /\ fold_left go es D = D.

  Lemma names_plain n : plain n -> names n n.
  Proof. intros P. split; [exact P|]. exists []. split; [|reflexivity]. apply elements_one. now apply plain_free. Qed.

  Lemma elements_tail n es m e : elements n = es ++ [m] -> ~ In x2f e -> elements (n ++ e) = es ++ [m ++ e].
  Proof.
    revert es m. induction n as [|b n IH]; intros es m E N; cbn [elements app] in *.
    - destruct es as [|x es]; [|destruct es; discriminate]. injection E as <-. cbn [app]. now apply elements_one.
    - destruct (is_slash b) eqn:Eb.
      + destruct es as [|x es]; [exfalso; injection E as _ E; now apply (elements_nil_ne n)|].
        injection E as <- E. cbn [app]. now rewrite (IH es m E N).
      + destruct (elements n) as [|y ys] eqn:En; [now apply elements_nil_ne in En|].
        destruct es as [|x es].
        * injection E as E1 E2. subst. rewrite (IH [] y eq_refl N). reflexivity.
        * injection E as E1 E2. subst. rewrite (IH (y :: es) m eq_refl N). reflexivity.
  Qed.

  Lemma names_side n m e : names n m -> ~ In x2f e -> names (side n e) (side m e).
  Proof.
    intros (P & es & E & G) N. split; [now apply plain_side|]. exists es. split; [|exact G].
    unfold side. apply elements_tail; [exact E|]. intros [X|X]; [discriminate|now apply N].
  Qed.

  Lemma place_names n m : names n m -> place_of cwd dir n = D ++ [m].
  Proof.
    intros (P & es & E & G). unfold place_of. rewrite join_resolve by exact Hd. rewrite E, fold_left_app, G. cbn [fold_left]. now apply go_plain.
  Qed.

  Lemma nowhere_names n m : names n m -> nowhere cwd dir n = false.
  Proof.
    intros P. unfold nowhere. pose proof (join_ne dir n Hd). rewrite (place_names n m P).
    destruct (join dir n); [congruence|]. destruct D; reflexivity.
  Qed.

  Lemma at_names n m : names n m -> at_name cwd dir n = place_name (D ++ [m]).
  Proof. intros P. unfold at_name. now rewrite (place_names n m P). Qed.

  Lemma entry_plain S n : entry_at S (D ++ [n]) = dir_get (f_dir S) (place_name (D ++ [n])).
  Proof. unfold entry_at. destruct D; reflexivity. Qed.

  Lemma entry_D s S : rel s S -> entry_at S D = Some EDir.
  Proof.
    intros (([A|A] & _) & _); unfold entry_at; [now rewrite A|]. destruct D; [reflexivity|exact A].
  Qed.

  Lemma creatable_names s S n m : rel s S -> names n m -> creatable S (place_of cwd dir n) = true.
  Proof.
    intros Re P. unfold creatable. rewrite (place_names n m P). rewrite removelast_snoc, (entry_D s S Re).
    destruct D; reflexivity.
  Qed.

  Lemma stat_names s S n m : rel s S -> names n m -> path_stat cwd dir S n = sys_stat s m.
  Proof.
    intros Re P. unfold path_stat, sys_stat. pose proof (join_ne dir n Hd). rewrite (place_names n m P).
    destruct (join dir n); [congruence|]. rewrite entry_plain. apply Re. apply P.
  Qed.

  Lemma get_plain s S n : rel s S -> plain n -> dir_get (f_dir S) (place_name (D ++ [n])) = dir_get (f_dir s) n.
  Proof. intros Re P. now apply Re. Qed.

  Lemma eqb_place n m : bytes_eqb (place_name (D ++ [n])) (place_name (D ++ [m])) = bytes_eqb n m.
  Proof.
    destruct (bytes_eqb n m) eqn:E.
    - apply bytes_eqb_true in E. subst. apply bytes_eqb_refl.
    - apply bytes_eqb_false in E. apply bytes_eqb_false. intros X. now apply place_inj in X.
  Qed.

  (** *** What keeps the relation *)
  Lemma rel_data s S d : rel s S -> rel (with_data s d) (with_data S d).
  Proof. intros ((A & B & E1 & E2 & E3 & E4) & O). repeat split; assumption. Qed.
  Lemma rel_handles s S d : rel s S -> rel (with_handles s d) (with_handles S d).
  Proof. intros ((A & B & E1 & E2 & E3 & E4) & O). repeat split; assumption. Qed.
  Lemma rel_locks s S d : rel s S -> rel (with_locks s d) (with_locks S d).
  Proof. intros ((A & B & E1 & E2 & E3 & E4) & O). repeat split; assumption. Qed.
  Lemma rel_faults s S d : rel s S -> rel (with_faults s d) (with_faults S d).
  Proof. intros ((A & B & E1 & E2 & E3 & E4) & O). repeat split; assumption. Qed.

  Lemma rel_dir s S f F : rel s S ->
    (forall n, plain n -> dir_get F (place_name (D ++ [n])) = dir_get f n) ->
    (forall k, (forall n, plain n -> k <> place_name (D ++ [n])) -> dir_get F k = dir_get (f_dir S) k) ->
    rel (with_dir s f) (with_dir S F).
  Proof.
    intros ((A & B & E1 & E2 & E3 & E4) & O) G K. split; [|intros k X; cbn; rewrite K by exact X; now apply O].
    repeat split; try assumption. destruct A as [A|A]; [now left|]. right. cbn. rewrite K; [exact A|]. intros n _. apply place_above.
  Qed.

  Lemma rel_set s S n e : rel s S -> plain n ->
    rel (with_dir s (dir_set (f_dir s) n e)) (with_dir S (dir_set (f_dir S) (place_name (D ++ [n])) e)).
  Proof.
    intros Re P. apply rel_dir; [exact Re| |].
    - intros m Pm. rewrite !dir_get_set, eqb_place. now rewrite (get_plain s S m Re Pm).
    - intros k K. rewrite dir_get_set. assert (bytes_eqb (place_name (D ++ [n])) k = false) as ->; [|reflexivity].
      apply bytes_eqb_false. intros X. now apply (K n P).
  Qed.

  Lemma rel_del s S n : rel s S -> plain n ->
    rel (with_dir s (dir_del (f_dir s) n)) (with_dir S (dir_del (f_dir S) (place_name (D ++ [n])))).
  Proof.
    intros Re P. apply rel_dir; [exact Re| |].
    - intros m Pm. rewrite !dir_get_del, eqb_place. now rewrite (get_plain s S m Re Pm).
    - intros k K. rewrite dir_get_del. assert (bytes_eqb (place_name (D ++ [n])) k = false) as ->; [|reflexivity].
      apply bytes_eqb_false. intros X. now apply (K n P).
  Qed.

  Lemma rel_of_data s S : rel s S -> f_data S = f_data s. Proof. intros Re. apply Re. Qed.
  Lemma rel_of_handles s S : rel s S -> f_handles S = f_handles s. Proof. intros Re. apply Re. Qed.
  Lemma rel_of_locks s S : rel s S -> f_locks S = f_locks s. Proof. intros Re. apply Re. Qed.
  Lemma rel_of_faults s S : rel s S -> f_faults S = f_faults s. Proof. intros Re. apply Re. Qed.
  Lemma data_of_rel s S i : rel s S -> data_of S i = data_of s i.
  Proof. intros Re. unfold data_of. now rewrite (rel_of_data s S Re). Qed.
  Lemma set_data_rel s S i d : rel s S -> rel (set_data s i d) (set_data S i d).
  Proof. intros Re. unfold set_data. rewrite (rel_of_data s S Re). now apply rel_data. Qed.

  (** *** System calls *)
  Definition agree {A} (f F : fsys -> fsys * A) : Prop :=
    forall s S, rel s S -> rel (fst (f s)) (fst (F S)) /\ snd (F S) = snd (f s).

  Lemma agree_create n m : names n m -> agree (sys_create m) (path_create cwd dir n).
  Proof.
    intros P s S Re. unfold path_create. rewrite (nowhere_names n m P), (creatable_names s S n m Re P), (at_names n m P). cbn [negb andb].
    destruct P as (P & _). unfold sys_create. rewrite (get_plain s S m Re P). destruct (dir_get (f_dir s) m) as [[i|]|]; cbn [fst snd].
    - split; [now apply set_data_rel|reflexivity].
    - auto.
    - pose proof (rel_of_data s S Re) as E. rewrite E. split; [|reflexivity]. cbn. apply rel_data. now apply rel_set.
  Qed.

  Lemma agree_open n m : names n m -> agree (sys_open m) (path_open cwd dir n).
  Proof.
    intros P s S Re. unfold path_open. rewrite (nowhere_names n m P), (at_names n m P). destruct P as (P & _).
    unfold sys_open. rewrite (get_plain s S m Re P). destruct (dir_get (f_dir s) m) as [[i|]|]; cbn [fst snd]; auto.
    pose proof (rel_of_handles s S Re) as E. rewrite E. split; [|reflexivity]. now apply rel_handles.
  Qed.

  Lemma agree_remove n m : names n m -> agree (sys_remove m) (path_remove cwd dir n).
  Proof.
    intros P s S Re. unfold path_remove. rewrite (nowhere_names n m P), (at_names n m P). destruct P as (P & _).
    unfold sys_remove. rewrite (get_plain s S m Re P). destruct (dir_get (f_dir s) m) as [[i|]|]; cbn [fst snd]; auto.
    split; [|reflexivity]. now apply rel_del.
  Qed.

  Lemma agree_rename n m n' m' : names n m -> names n' m' -> agree (sys_rename m m') (path_rename cwd dir n n').
  Proof.
    intros P Q s S Re. unfold path_rename.
    rewrite (nowhere_names n m P), (nowhere_names n' m' Q), (creatable_names s S n' m' Re Q), (at_names n m P), (at_names n' m' Q). cbn [negb andb].
    destruct P as (P & _), Q as (Q & _).
    unfold sys_rename. rewrite (get_plain s S m Re P), (get_plain s S m' Re Q).
    destruct (dir_get (f_dir s) m) as [[i|]|]; cbn [fst snd]; auto.
    assert (G : rel (with_dir s (dir_set (dir_del (f_dir s) m) m' (EFile i)))
                    (with_dir S (dir_set (dir_del (f_dir S) (place_name (D ++ [m]))) (place_name (D ++ [m'])) (EFile i)))).
    { pose proof (rel_set _ _ m' (EFile i) (rel_del s S m Re P) Q) as G. exact G. }
    destruct (dir_get (f_dir s) m') as [[j|]|]; cbn [fst snd]; auto.
  Qed.

  Lemma agree_trylock n m : names n m -> agree (sys_trylock m) (path_trylock cwd dir n).
  Proof.
    intros P s S Re. unfold path_trylock. rewrite (nowhere_names n m P), (creatable_names s S n m Re P), (at_names n m P). cbn [negb andb].
    destruct P as (P & _).
    unfold sys_trylock. rewrite (get_plain s S m Re P), (rel_of_locks s S Re), (rel_of_data s S Re).
    destruct (dir_get (f_dir s) m) as [[i|]|]; cbn [fst snd]; auto.
    - destruct (existsb (Nat.eqb i) (f_locks s)); cbn [fst snd]; auto. split; [now apply rel_locks|reflexivity].
    - split; [|reflexivity]. apply rel_locks. apply rel_data. now apply rel_set.
  Qed.

  Lemma agree_close h : agree (sys_close h) (sys_close h).
  Proof.
    intros s S Re. unfold sys_close. rewrite (rel_of_handles s S Re). destruct (nth_error (f_handles s) h) as [[i p []]|]; cbn [fst snd]; auto.
    split; [now apply rel_handles|reflexivity].
  Qed.

  Lemma read_at_rel s S h n off : rel s S -> read_at S h n off = read_at s h n off.
  Proof.
    intros Re. unfold read_at. rewrite (rel_of_handles s S Re). destruct (nth_error (f_handles s) h) as [[i p []]|]; try reflexivity.
    now rewrite (data_of_rel s S i Re).
  Qed.

  (** *** Programs *)
  Inductive psim {A} : prog A -> prog A -> Prop :=
  | psim_ret o : psim (Ret o) (Ret o)
  | psim_step f F :
      (forall s S, rel s S -> rel (fst (f s)) (fst (F S))) ->
      (forall s S, rel s S -> psim (snd (f s)) (snd (F S))) -> psim (Step f) (Step F).

  Lemma psim_run {A} (p P : prog A) : psim p P -> forall s S, rel s S ->
    rel (fst (run p s)) (fst (run P S)) /\ snd (run P S) = snd (run p s).
  Proof.
    induction 1 as [o|f F R1 R2 IH]; intros s S Re; cbn; [auto|].
    specialize (R1 s S Re). specialize (IH s S Re). destruct (f s) as [s' p']. destruct (F S) as [S' P']. cbn [fst snd] in *. now apply IH.
  Qed.

  Lemma psim_catch {A B} (p P : prog A) (k K : outcome A -> prog B) : psim p P -> (forall o, psim (k o) (K o)) -> psim (catch p k) (catch P K).
  Proof.
    intros S0' Hk. induction S0' as [o|f F R1 R2 IH]; cbn; [apply Hk|]. constructor.
    - intros s S Re. specialize (R1 s S Re). destruct (f s), (F S). exact R1.
    - intros s S Re. specialize (IH s S Re). destruct (f s), (F S). exact IH.
  Qed.

  Lemma psim_then {A B} (p P : prog A) (k K : A -> prog B) : psim p P -> (forall a, psim (k a) (K a)) -> psim (andthen p k) (andthen P K).
  Proof. intros S0' Hk. apply psim_catch; [exact S0'|]. intros [a| | |]; [apply Hk|constructor..]. Qed.

  Lemma psim_call {A} (f F : fsys -> fsys * outcome A) : agree f F -> psim (call f) (call F).
  Proof.
    intros G. constructor; intros s S Re; destruct (G s S Re) as (G1 & G2); destruct (f s), (F S); cbn [fst snd] in *; [exact G1|].
    subst. constructor.
  Qed.

  Lemma psim_bytes ino d r : forall off, psim (p_bytes ino off d r) (p_bytes ino off d r).
  Proof.
    induction d as [|b d IH]; intros off; cbn; constructor; intros s S Re; cbn [fst snd]; [|apply IH].
    rewrite (data_of_rel s S ino Re). now apply set_data_rel.
  Qed.

  Lemma psim_write ino off d : psim (p_write ino off d) (p_write ino off d).
  Proof.
    constructor; intros s S Re; rewrite (rel_of_faults s S Re); destruct (f_faults s) as [|[n|] fs]; cbn [fst snd]; auto;
      try (now apply rel_faults); apply psim_bytes.
  Qed.

  Lemma psim_copy_loop fuel conn chunk : forall roff dst woff, psim (copy_loop fuel conn chunk roff dst woff) (copy_loop fuel conn chunk roff dst woff).
  Proof.
    induction fuel as [|fuel IH]; intros roff dst woff; cbn [copy_loop]; [constructor|].
    constructor; intros s S Re; cbn [fst snd]; [exact Re|]. rewrite (read_at_rel s S _ _ _ Re).
    destruct (read_at s conn chunk roff); [|constructor..]. apply psim_catch; [apply psim_write|]. intros [x| | |]; [apply IH|constructor..].
  Qed.

  Lemma psim_pending dst l : forall woff, psim (write_pending dst woff l) (write_pending dst woff l).
  Proof.
    induction l as [|c l IH]; intros woff; cbn [write_pending]; [constructor|].
    apply psim_catch; [apply psim_write|]. intros [x| | |]; [apply IH|constructor..].
  Qed.

  Lemma psim_copy b c : psim (p_copy b c) (p_copy b c).
  Proof.
    apply psim_then.
    - apply psim_call. intros s S Re. rewrite (rel_of_handles s S Re). destruct (nth_error (f_handles s) c) as [[i p []]|]; cbn [fst snd]; auto.
      rewrite (data_of_rel s S i Re). split; [now apply rel_handles|reflexivity].
    - intros [|x d]; [constructor|apply psim_write].
  Qed.

  (** A context under another name of its file; identifiers do not matter. *)
  Definition known_as (c C : ctx) : Prop :=
    names (x_name C) (x_name c) /\ x_conn C = x_conn c /\ x_ref C = x_ref c /\ x_off C = x_off c /\ x_pending C = x_pending c.
  Definition configured (a A : dbapp) : Prop :=
    a_dst A = a_dst a /\ a_bck A = a_bck a /\ a_chunk A = a_chunk a /\ ~ In x2f (a_dst a) /\ ~ In x2f (a_bck a).

  Lemma psim_write_destination fuel a A c C r : configured a A -> known_as c C ->
    psim (write_destination fuel a c r) (path_write_destination cwd dir fuel A C r).
  Proof.
    intros (C1 & C2 & C3 & C4 & C5) (K1 & K2 & K3 & K4 & K5).
    unfold write_destination, path_write_destination. rewrite C1, C3, K2, K3, K4, K5.
    apply psim_then; [now apply psim_call, agree_create, names_side|]. intros dst. cbv zeta.
    apply psim_then; [apply psim_write|]. intros _. apply psim_then.
    - destruct (x_ref c); [|constructor]. apply psim_then.
      + apply psim_call. intros s S Re. rewrite (rel_of_handles s S Re). cbn [fst snd]. split; [exact Re|].
        destruct (nth_error (f_handles s) (x_conn c)) as [[i p []]|]; try reflexivity. now rewrite (data_of_rel s S i Re).
      + intros size. destruct (two63 <=? make_chunk (a_chunk a) (u64 (size - x_off c)))%Z; [constructor|apply psim_copy_loop].
    - intros woff. apply psim_then; [apply psim_pending|]. intros _. constructor.
  Qed.

  Lemma psim_update fuel a A c C r : configured a A -> known_as c C ->
    psim (update_database fuel a c r) (path_update_database cwd dir fuel A C r).
  Proof.
    intros Cf K. pose proof Cf as (C1 & C2 & C3 & C4 & C5). pose proof K as (K1 & K2 & K3 & K4 & K5).
    unfold update_database, path_update_database, swap_files, prepare_files, path_prepare_files, replace_files, path_replace_files.
    rewrite C1, C2, K2.
    apply psim_then; [now apply psim_call, agree_trylock|]. intros lock. apply psim_catch.
    - apply psim_then.
      + apply psim_then; [now apply psim_write_destination|]. intros off. apply psim_then; [now apply psim_call, agree_create, names_side|]. intros b.
        apply psim_then; [apply psim_copy|]. intros _. apply psim_then; [apply psim_call, agree_close|]. intros _. constructor.
      + intros off. apply psim_then; [now apply psim_call, agree_remove|]. intros _.
        apply psim_then; [apply psim_call, agree_rename; [now apply names_side|exact K1]|]. intros _.
        apply psim_then; [now apply psim_call, agree_remove, names_side|]. intros _.
        apply psim_then; [now apply psim_call, agree_open|]. intros conn. constructor.
    - intros o. constructor; intros s S Re; cbn [fst snd]; [|constructor]. unfold sys_unlock. rewrite (rel_of_locks s S Re). now apply rel_locks.
  Qed.

  (** *** Calls *)
  Lemma make_dir_there s S : rel s S -> make_dir cwd dir S = (S, Ok tt).
  Proof.
    intros Re. unfold make_dir. rewrite (entry_D s S Re). destruct dir; [congruence|reflexivity].
  Qed.

  Lemma ctx_plain a id c : plain_app a -> ctx_get (a_ctxs a) id = Some c -> plain (x_name c).
  Proof.
    intros (_ & _ & F) E. induction (a_ctxs a) as [|[i x] l IH]; cbn in E; [discriminate|]. inversion F; subst.
    destruct (i =? id)%Z; [injection E as <-; assumption|auto].
  Qed.

  Lemma conn_size_rel s S c : rel s S -> conn_size S c = conn_size s c.
  Proof.
    intros Re. unfold conn_size. rewrite (rel_of_handles s S Re). destruct (nth_error (f_handles s) (x_conn c)) as [h|]; [|reflexivity].
    now rewrite (data_of_rel s S _ Re).
  Qed.

  Lemma ctx_del_plain l id : Forall (fun x : Z * ctx => plain (x_name (snd x))) l -> Forall (fun x => plain (x_name (snd x))) (ctx_del l id).
  Proof. intros F. unfold ctx_del. induction F as [|x l P F IH]; cbn; [constructor|]. destruct (negb (fst x =? id)%Z); auto. Qed.

  Lemma plain_set a id c : plain_app a -> plain (x_name c) -> plain_app (with_ctxs a (ctx_set (a_ctxs a) id c)).
  Proof. intros (A & B & F) P. repeat split; try assumption. cbn. constructor; [exact P|]. now apply ctx_del_plain. Qed.

  Lemma read_db_rel a s S id p : rel s S -> read_db a S id p = read_db a s id p.
  Proof. intros Re. unfold read_db. destruct (ctx_get (a_ctxs a) id); [|reflexivity]. now rewrite (read_at_rel s S _ _ _ Re). Qed.
  Lemma read_by_hash_rel a s S id h : rel s S -> read_by_hash a S id h = read_by_hash a s id h.
  Proof.
    intros Re. unfold read_by_hash. destruct (content_keys a id); try reflexivity. cbn [bind]. destruct (keys_fetch a0 h); try reflexivity.
    cbn [bind]. now apply read_db_rel.
  Qed.
  Lemma read_all_rel a s S id : rel s S -> forall ps, read_all a S id ps = read_all a s id ps.
  Proof. intros Re. induction ps as [|p ps IH]; cbn; [reflexivity|]. now rewrite (read_db_rel a s S id p Re), IH. Qed.
  Lemma read_all_by_rel a s S id : rel s S -> forall ps, read_all_by_hashes a S id ps = read_all_by_hashes a s id ps.
  Proof. intros Re. induction ps as [|p ps IH]; cbn; [reflexivity|]. now rewrite (read_by_hash_rel a s S id p Re), IH. Qed.

  Definition same_step (x X : dbapp * fsys * answer) : Prop :=
    fst (fst X) = fst (fst x) /\ snd X = snd x /\ rel (snd (fst x)) (snd (fst X)) /\ plain_app (fst (fst x)).

  Ltac fin := refine (conj eq_refl (conj eq_refl (conj _ _))); cbn [fst snd]; try assumption.

  Lemma call_sim c a s S : plain_app a -> plain_call c -> rel s S ->
    same_step (name_call H mv behind c a s) (path_call H mv behind cwd dir c a S).
  Proof.
    intros Pa Pc Re. destruct c; cbn [name_call path_call nameless_call].
    - assert (P : plain n) by now apply Pc. unfold path_new. rewrite (make_dir_there s S Re), (stat_names s S n n Re (names_plain n P)).
      unfold new_db. destruct (sys_stat s n); [fin|]. destruct (agree_create n n (names_plain n P) s S Re) as (A & B).
      destruct (sys_create n s), (path_create cwd dir n S). cbn [fst snd] in *. subst. fin.
    - assert (P : plain n) by now apply Pc. unfold path_exists, exists_db. rewrite (stat_names s S n n Re (names_plain n P)). fin.
    - assert (P : plain n) by now apply Pc. unfold path_delete, delete_db. rewrite (stat_names s S n n Re (names_plain n P)).
      destruct (sys_stat s n) as [[i|]|]; try (fin; fail).
      destruct (agree_remove n n (names_plain n P) s S Re) as (A & B). destruct (sys_remove n s), (path_remove cwd dir n S). cbn [fst snd] in *. subst.
      fin.
    - assert (P : plain n) by now apply Pc. unfold path_open_db, open_db. rewrite (stat_names s S n n Re (names_plain n P)). unfold sys_stat.
      destruct (existsb (fun x => bytes_eqb (x_name (snd x)) n) (a_ctxs a)); [fin|].
      destruct (dir_get (f_dir s) n) as [[i|]|]; try (fin; fail).
      rewrite (data_of_rel s S i Re). destruct (retrieve_reference H mv behind (a_chunk a) (data_of s i)) as [[ref off]| | |];
        try (fin; fail).
      destruct (agree_open n n (names_plain n P) s S Re) as (A & B). destruct (sys_open n s) as [s' o]. destruct (path_open cwd dir n S) as [S' o']. cbn [fst snd] in *. subst.
      destruct o; try (fin; fail).
      fin; apply plain_set; auto.
    - fin.
    - fin.
    - fin.
    - rewrite (read_db_rel a s S id p Re). fin.
    - rewrite (read_by_hash_rel a s S id h Re). fin.
    - rewrite (read_all_rel a s S id Re). fin.
    - rewrite (read_all_by_rel a s S id Re). fin.
    - unfold write_db. destruct (ctx_get (a_ctxs a) id) as [c|] eqn:E; [|fin].
      destruct (content_now h data kind) eqn:Ec; try (fin; fail).
      fin. apply plain_set; [exact Pa|]. exact (ctx_plain a id c Pa E).
    - unfold cancel_db. destruct (ctx_get (a_ctxs a) id) as [c|] eqn:E; [|fin].
      fin. apply plain_set; [exact Pa|]. exact (ctx_plain a id c Pa E).
    - unfold commit_db, path_commit, commit_fuel. destruct (ctx_get (a_ctxs a) id) as [c|] eqn:E; [|fin].
      destruct (update_reference H mv c now) as [r| | |]; try (fin; fail).
      pose proof (ctx_plain a id c Pa E) as Pn. pose proof Pa as (P1 & P2 & P3).
      rewrite (conn_size_rel s S c Re).
      destruct (psim_run _ _ (psim_update (Datatypes.S (conn_size s c)) a a c c r (conj eq_refl (conj eq_refl (conj eq_refl (conj P1 P2)))) (conj (names_plain _ Pn) (conj eq_refl (conj eq_refl (conj eq_refl eq_refl))))) s S Re) as (A & B).
      destruct (run (update_database (Datatypes.S (conn_size s c)) a c r) s) as [s' o].
      destruct (run (path_update_database cwd dir (Datatypes.S (conn_size s c)) a c r) S) as [S' o']. cbn [fst snd] in *. subst.
      destruct o as [[conn off]| | |]; try (fin; fail).
      fin. split; [exact P1|split; [exact P2|]]. cbn. constructor; [exact Pn|]. now apply ctx_del_plain.
    - unfold close_db. destruct (ctx_get (a_ctxs a) id) as [c|] eqn:E; [|fin].
      destruct (agree_close (x_conn c) s S Re) as (A & B). destruct (sys_close (x_conn c) s), (sys_close (x_conn c) S). cbn [fst snd] in *. subst.
      destruct o; try (fin; fail). pose proof Pa as (P1 & P2 & P3).
      fin. split; [exact P1|split; [exact P2|]]. cbn. now apply ctx_del_plain.
  Qed.

  Lemma calls_sim cs : forall a s S, plain_app a -> Forall plain_call cs -> rel s S ->
    let x := run_calls (name_call H mv behind) cs a s in
    let X := run_calls (path_call H mv behind cwd dir) cs a S in
    fst (fst X) = fst (fst x) /\ snd X = snd x /\ rel (snd (fst x)) (snd (fst X)) /\ plain_app (fst (fst x)).
  Proof.
    induction cs as [|c cs IH]; intros a s S Pa Pc Re; cbn [run_calls]; [cbn; fin|].
    inversion Pc; subst. destruct (call_sim c a s S Pa H2 Re) as (A & B & C & E).
    destruct (name_call H mv behind c a s) as [[a1 s1] r]. destruct (path_call H mv behind cwd dir c a S) as [[a2 s2] r2]. cbn [fst snd] in *. subst.
    specialize (IH a1 s1 s2 E H3 C).
    destruct (run_calls (name_call H mv behind) cs a1 s1) as [[a3 s3] rs]. destruct (run_calls (path_call H mv behind cwd dir) cs a1 s2) as [[a4 s4] rs2].
    cbn [fst snd] in *. destruct IH as (I1 & I2 & I3 & I4). subst. fin.
  Qed.
End Sim.
