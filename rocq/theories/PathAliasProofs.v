(** Directories that are made, directories of a file system, and two names of one database. *)
From Coq Require Import List ZArith NArith Lia Bool.
From Coq Require Import Init.Byte Strings.Byte.
From Verif Require Import Base BaseLemmas HashModel HashProofs SpecHash HashTreeModel HashTreeProofs
  RefModel RefProofs SpecRef DbModel SpecDb DbRefProofs DbFsProofs DbCommitProofs DbOpenProofs DbApiProofs
  DbSession DbSessionProofs DbMoreProofs DbMultiProofs PathModel SpecPath PathProofs PathSimProofs.
Import ListNotations.

(** ** The directory of a file system *)
Fixpoint strip (p k : bytes) : option bytes :=
  match p, k with
  | [], _ => Some k
  | x :: p', y :: k' => if Byte.eqb x y then strip p' k' else None
  | _, [] => None
  end.

Lemma strip_some p : forall k n, strip p k = Some n <-> k = p ++ n.
Proof.
  induction p as [|x p IH]; intros k n; cbn.
  - split; [now intros [= ->]|now intros ->].
  - destruct k as [|y k]; [split; discriminate|]. destruct (Byte.eqb x y) eqn:E.
    + apply byte_dec_bl in E. subst y. rewrite IH. split; [now intros ->|now intros [= ->]].
    + split; [discriminate|]. intros [= -> _]. rewrite byte_dec_lb in E by reflexivity. discriminate.
Qed.

Definition listing (p : bytes) (d : list (bytes * entry)) : list (bytes * entry) :=
  concat (map (fun x => match strip p (fst x) with Some n => [(n, snd x)] | None => [] end) d).

Lemma listing_get p d n : dir_get (listing p d) n = dir_get d (p ++ n).
Proof.
  induction d as [|[k e] d IH]; [reflexivity|]. unfold listing in *. cbn [map concat fst snd dir_get].
  destruct (strip p k) as [m|] eqn:E.
  - apply strip_some in E. subst k. cbn [app dir_get]. rewrite IH.
    destruct (bytes_eqb m n) eqn:E.
    + apply bytes_eqb_true in E. subst. now rewrite bytes_eqb_refl.
    + assert (bytes_eqb (p ++ m) (p ++ n) = false) as ->; [|reflexivity]. apply bytes_eqb_false in E. apply bytes_eqb_false.
      intros X. now apply app_inv_head in X.
  - cbn [app]. rewrite IH. assert (bytes_eqb k (p ++ n) = false) as ->; [|reflexivity]. apply bytes_eqb_false. intros X.
    apply strip_some in X. congruence.
Qed.

Lemma holds_exists D S : D = [] \/ dir_get (f_dir S) (place_name D) = Some EDir -> exists s, holds D s S.
Proof.
  intros A. exists (with_dir S (listing (place_name D ++ [x2f]) (f_dir S))). repeat split; auto.
  intros n _. cbn [with_dir f_dir]. rewrite listing_get, place_snoc, <- app_assoc. reflexivity.
Qed.

Lemma place_app q r : place_name (q ++ r) = place_name q ++ place_name r.
Proof. unfold place_name. now rewrite map_app, concat_app. Qed.

(** ** MkdirAll *)
Definition same_but_dir (S S' : fsys) : Prop :=
  f_data S' = f_data S /\ f_handles S' = f_handles S /\ f_locks S' = f_locks S /\ f_faults S' = f_faults S.

Lemma entry_at_ne S l : l <> [] -> entry_at S l = dir_get (f_dir S) (place_name l).
Proof. destruct l; [congruence|reflexivity]. Qed.

Lemma mkdir_all_ok es : forall from S,
  (forall q r, es = q ++ r -> q <> [] -> dir_get (f_dir S) (place_name (from ++ q)) = None \/ dir_get (f_dir S) (place_name (from ++ q)) = Some EDir) ->
  exists S', mkdir_all from es S = (S', Ok tt) /\ same_but_dir S S' /\
    (forall k, dir_get (f_dir S) k = Some EDir -> dir_get (f_dir S') k = Some EDir) /\
    (es <> [] -> dir_get (f_dir S') (place_name (from ++ es)) = Some EDir) /\
    (forall k, (forall q r, es = q ++ r -> q <> [] -> k <> place_name (from ++ q)) -> dir_get (f_dir S') k = dir_get (f_dir S) k).
Proof.
  induction es as [|e es IH]; intros from S C; cbn [mkdir_all].
  - exists S. repeat split; auto. congruence.
  - assert (Ne : from ++ [e] <> []) by (destruct from; discriminate).
    rewrite (entry_at_ne S _ Ne).
    assert (Step : forall S1, same_but_dir S S1 ->
      (forall k, dir_get (f_dir S) k = Some EDir -> dir_get (f_dir S1) k = Some EDir) ->
      dir_get (f_dir S1) (place_name (from ++ [e])) = Some EDir ->
      (forall k, k <> place_name (from ++ [e]) -> dir_get (f_dir S1) k = dir_get (f_dir S) k) ->
      exists S', mkdir_all (from ++ [e]) es S1 = (S', Ok tt) /\ same_but_dir S S' /\
        (forall k, dir_get (f_dir S) k = Some EDir -> dir_get (f_dir S') k = Some EDir) /\
        (e :: es <> [] -> dir_get (f_dir S') (place_name (from ++ e :: es)) = Some EDir) /\
        (forall k, (forall q r, e :: es = q ++ r -> q <> [] -> k <> place_name (from ++ q)) -> dir_get (f_dir S') k = dir_get (f_dir S) k)).
    { intros S1 (B1 & B2 & B3 & B4) M1 M2 M3. destruct (IH (from ++ [e]) S1) as (S' & E & (B1' & B2' & B3' & B4') & K & L & N).
      - intros q r -> Nq. rewrite <- app_assoc. cbn [app]. destruct (C (e :: q) r eq_refl ltac:(discriminate)) as [X|X]; [|right; now apply M1].
        destruct (bytes_eq_dec (place_name (from ++ e :: q)) (place_name (from ++ [e]))) as [Y|Y]; [right; now rewrite Y|left; now rewrite M3].
      - exists S'. split; [exact E|]. split; [repeat split; congruence|]. split; [auto|]. split.
        + intros _. destruct es as [|e2 es]; [now apply K|]. specialize (L ltac:(discriminate)). rewrite <- app_assoc in L. exact L.
        + intros k Hk. rewrite N.
          * apply M3. apply (Hk [e] es); [reflexivity|discriminate].
          * intros q r -> Nq. rewrite <- app_assoc. apply (Hk (e :: q) r); [reflexivity|discriminate]. }
    destruct (C [e] es eq_refl ltac:(discriminate)) as [X|X]; rewrite X.
    + apply Step.
      * repeat split.
      * intros k Y. cbn [with_dir f_dir]. rewrite dir_get_set. destruct (bytes_eqb (render (from ++ [e])) k); auto.
      * cbn [with_dir f_dir]. rewrite dir_get_set, render_name, bytes_eqb_refl. reflexivity.
      * intros k Y. cbn [with_dir f_dir]. rewrite dir_get_set, render_name.
        assert (bytes_eqb (place_name (from ++ [e])) k = false) as ->; [|reflexivity]. apply bytes_eqb_false. congruence.
    + apply Step; auto. repeat split.
Qed.

Lemma new_makes cwd dir n S : dir <> [] -> plain n ->
  (forall q r, resolve cwd dir = q ++ r -> q <> [] ->
     dir_get (f_dir S) (place_name q) = None \/ dir_get (f_dir S) (place_name q) = Some EDir) ->
  dir_get (f_dir S) (place_name (resolve cwd dir ++ [n])) = None ->
  exists S' i, path_new cwd dir n S = (S', Ok tt) /\
    (resolve cwd dir = [] \/ dir_get (f_dir S') (place_name (resolve cwd dir)) = Some EDir) /\
    dir_get (f_dir S') (place_name (resolve cwd dir ++ [n])) = Some (EFile i) /\ data_of S' i = [] /\
    (forall j, j < length (f_data S) -> data_of S' j = data_of S j) /\ i = length (f_data S) /\
    (forall k, k <> place_name (resolve cwd dir ++ [n]) ->
       (forall q r, resolve cwd dir = q ++ r -> q <> [] -> k <> place_name q) -> dir_get (f_dir S') k = dir_get (f_dir S) k).
Proof.
  intros Hd P C Fr. set (D := resolve cwd dir) in *.
  assert (M : exists S1, make_dir cwd dir S = (S1, Ok tt) /\ same_but_dir S S1 /\
    (D = [] \/ dir_get (f_dir S1) (place_name D) = Some EDir) /\
    (forall k, (forall q r, D = q ++ r -> q <> [] -> k <> place_name q) -> dir_get (f_dir S1) k = dir_get (f_dir S) k)).
  { assert (E : make_dir cwd dir S = match entry_at S D with Some _ => (S, Ok tt) | None => mkdir_all [] D S end).
    { unfold make_dir. destruct dir; [congruence|reflexivity]. }
    rewrite E. destruct D as [|d D'] eqn:ED.
    - exists S. cbn. repeat split; auto.
    - rewrite entry_at_ne by discriminate. destruct (C (d :: D') [] ltac:(now rewrite app_nil_r) ltac:(discriminate)) as [X|X]; rewrite X.
      + destruct (mkdir_all_ok (d :: D') [] S) as (S1 & E1 & B & _ & L & N); [exact C|].
        exists S1. split; [exact E1|]. split; [exact B|]. split; [right; apply L; discriminate|exact N].
      + exists S. repeat split; auto. }
  destruct M as (S1 & E1 & (B1 & B2 & B3 & B4) & Dd & N1).
  assert (R : rel cwd dir S1 (with_dir S1 (listing (place_name D ++ [x2f]) (f_dir S1))) S1).
  { split; [|intros k _; reflexivity]. repeat split; auto. intros m _. cbn [with_dir f_dir]. rewrite listing_get, place_snoc, <- app_assoc. reflexivity. }
  unfold path_new. rewrite E1. 
  assert (Fr1 : dir_get (f_dir S1) (place_name (D ++ [n])) = None).
  { rewrite N1; [exact Fr|]. intros q r E _ X. apply (f_equal (@length byte)) in X. rewrite place_snoc, E, place_app, !app_length in X. cbn [length] in X. lia. }
  rewrite (stat_names cwd dir Hd S1 _ S1 n n R (names_plain cwd dir n P)). unfold sys_stat. cbn [with_dir f_dir]. rewrite listing_get.
  rewrite place_snoc in Fr1. rewrite <- app_assoc. cbn [app]. rewrite Fr1.
  unfold path_create. rewrite (nowhere_names cwd dir Hd n n (names_plain cwd dir n P)), (creatable_names cwd dir Hd S1 _ S1 n n R (names_plain cwd dir n P)).
  cbn [negb andb]. rewrite (at_names cwd dir Hd n n (names_plain cwd dir n P)). fold D. unfold sys_create. rewrite place_snoc, Fr1.
  eexists _, (length (f_data S1)). split; [reflexivity|]. cbn [with_data with_dir f_dir f_data].
  split; [|split; [|split; [|split; [|split]]]].
  - destruct Dd as [Dd|Dd]; [now left|right]. rewrite dir_get_set.
    assert (bytes_eqb (place_name D ++ x2f :: n) (place_name D) = false) as ->; [|exact Dd].
    apply bytes_eqb_false. rewrite <- place_snoc. intros X. symmetry in X. now apply place_above in X.
  - now rewrite dir_get_set, bytes_eqb_refl.
  - unfold data_of. cbn. rewrite app_nth2 by lia. now rewrite Nat.sub_diag.
  - intros j Hj. unfold data_of. cbn. rewrite B1. now rewrite app_nth1.
  - now rewrite B1.
  - intros k Nk Hk. rewrite dir_get_set. assert (bytes_eqb (place_name D ++ x2f :: n) k = false) as ->; [apply bytes_eqb_false; congruence|].
    now apply N1.
Qed.

Lemma mkdir_stops s i q r : forall from, q <> [] -> dir_get (f_dir s) (place_name (from ++ q)) = Some (EFile i) ->
  (forall p t, q = p ++ t -> p <> [] -> t <> [] -> dir_get (f_dir s) (place_name (from ++ p)) = Some EDir) ->
  mkdir_all from (q ++ r) s = (s, Err).
Proof.
  induction q as [|x q IH]; intros from Nq Fi Di; [congruence|]. cbn [app mkdir_all].
  assert (Ne : from ++ [x] <> []) by (destruct from; discriminate). rewrite (entry_at_ne s _ Ne). destruct q as [|y q].
  - now rewrite Fi.
  - rewrite (Di [x] (y :: q)) by (reflexivity || discriminate). apply IH; [discriminate|now rewrite <- app_assoc|].
    intros p t E Np Nt. rewrite <- app_assoc. apply (Di ([x] ++ p) t); [cbn; now rewrite E|discriminate|exact Nt].
Qed.
(** What is at a place, from what is below it. *)
Lemma rooted_above S l : rooted S -> forall r e, l <> [] -> r <> [] -> dir_get (f_dir S) (place_name (l ++ r)) = Some e ->
  dir_get (f_dir S) (place_name l) = Some EDir.
Proof.
  intros R r. induction r as [|x r IH] using rev_ind; intros e Nl Nr E; [congruence|].
  destruct r as [|y r]; [now apply (R l x e)|]. apply (IH EDir); [exact Nl|discriminate|].
  apply (R (l ++ y :: r) x e); [destruct l; discriminate|now rewrite <- app_assoc].
Qed.
Lemma new_fails cwd dir n S : dir <> [] -> plain n -> rooted S ->
  (exists q r i, resolve cwd dir = q ++ r /\ q <> [] /\ dir_get (f_dir S) (place_name q) = Some (EFile i)) \/
  dir_get (f_dir S) (place_name (resolve cwd dir ++ [n])) <> None ->
  path_new cwd dir n S = (S, Err).
Proof.
  intros Hd P Ro C. set (D := resolve cwd dir) in *.
  assert (Em : make_dir cwd dir S = match entry_at S D with Some _ => (S, Ok tt) | None => mkdir_all [] D S end).
  { unfold make_dir. destruct dir; [congruence|reflexivity]. }
  assert (St : forall S', path_stat cwd dir S' n = dir_get (f_dir S') (place_name (D ++ [n]))).
  { intros S'. pose proof (nowhere_names cwd dir Hd n n (names_plain cwd dir n P)) as W. unfold nowhere in W. unfold path_stat.
    destruct (join dir n); [discriminate|]. rewrite (place_names cwd dir Hd n n (names_plain cwd dir n P)). apply entry_plain. }
  unfold path_new. rewrite Em. destruct C as [(q & r & i & ED & Nq & Fi)|Ex].
  - destruct r as [|x r].
    + rewrite app_nil_r in ED. assert (E : entry_at S D = Some (EFile i)) by (rewrite ED, entry_at_ne by exact Nq; exact Fi).
      rewrite E, St. destruct (dir_get (f_dir S) (place_name (D ++ [n]))) as [e|] eqn:X; [reflexivity|].
      unfold path_create, creatable. rewrite (nowhere_names cwd dir Hd n n (names_plain cwd dir n P)), (place_names cwd dir Hd n n (names_plain cwd dir n P)).
      fold D. rewrite removelast_last, E. cbn. destruct (D ++ [n]); reflexivity.
    + assert (N : D <> []) by (rewrite ED; destruct q; discriminate).
      assert (X : dir_get (f_dir S) (place_name D) = None).
      { destruct (dir_get (f_dir S) (place_name D)) as [e|] eqn:X; [|reflexivity]. rewrite ED in X.
        rewrite (rooted_above S q Ro (x :: r) e Nq) in Fi; [discriminate|discriminate|exact X]. }
      rewrite (entry_at_ne S D N), X, ED. rewrite (mkdir_stops S i q (x :: r) []); [reflexivity|exact Nq|exact Fi|].
      intros p t -> Np Nt. cbn [app]. now apply (rooted_above S p Ro t (EFile i)).
  - destruct (dir_get (f_dir S) (place_name (D ++ [n]))) as [e|] eqn:X; [|congruence].
    assert (E : entry_at S D = Some EDir).
    { destruct D as [|d D'] eqn:ED; [reflexivity|]. rewrite entry_at_ne by discriminate. now apply (Ro _ n e); [discriminate|]. }
    now rewrite E, St, X.
Qed.

(** ** Two contexts on one file *)
Section Alias.
  Variable H : bytes -> bytes.
  Variable mv : byte.
  Variable behind : bytes -> bytes.
  Hypothesis HL : forall x, length (H x) = 64.

  (** A session has one context, number zero. *)
  Definition single (n : bytes) (st : state) : Prop :=
    let '(a, s, id) := st in id = 0%Z /\ exists c, a_ctxs a = [(0%Z, c)] /\ x_name c = n.

  Lemma open_single n a s s' a' id : open_db H mv behind n (with_ctxs a []) s = (s', a', Ok id) -> single n (a', s', id).
  Proof.
    unfold open_db. cbn [with_ctxs a_ctxs existsb]. destruct (dir_get (f_dir s) n) as [[i|]|]; try discriminate.
    destruct (retrieve_reference H mv behind _ (data_of s i)) as [[r o]| | |]; try discriminate.
    destruct (sys_open n s) as [s1 [h| | |]]; try discriminate. intros E. injection E as <- <- <-.
    split; [reflexivity|]. eexists. split; reflexivity.
  Qed.

  Lemma step_single n st o st' : single n st -> exec_step H mv behind n st o = Ok st' -> single n st'.
  Proof.
    destruct st as [[a s] id]. intros (-> & c & Ec & En) E. destruct o; cbn [exec_step] in E.
    - unfold write_db in E. rewrite Ec in E. cbn [ctx_get Z.eqb] in E. destruct (content_now h data kind); try discriminate.
      cbn [bind] in E. injection E as <-. split; [reflexivity|]. eexists. split; [reflexivity|exact En].
    - unfold cancel_db in E. rewrite Ec in E. cbn [ctx_get Z.eqb] in E. cbn [bind] in E. injection E as <-.
      split; [reflexivity|]. eexists. split; [reflexivity|exact En].
    - unfold commit_db, commit_fuel in E. rewrite Ec in E. cbn [ctx_get Z.eqb] in E.
      destruct (update_reference H mv c now); try discriminate.
      destruct (run (update_database (S (conn_size s c)) a c a0) s) as [s1 [[conn off]| | |]]; try discriminate.
      cbn [bind] in E. injection E as <-. split; [reflexivity|]. eexists. split; [reflexivity|exact En].
    - destruct (close_db a s 0) as [[s1 a1] [x| | |]]; try discriminate. cbn [bind] in E.
      destruct (open_db H mv behind n (with_ctxs a1 []) s1) as [[s2 a2] [id2| | |]] eqn:Eo; try discriminate.
      cbn [bind] in E. injection E as <-. eapply open_single; eauto.
  Qed.

  Lemma session_single a0 n s0 os st : session H mv behind a0 n s0 os st -> single n st.
  Proof.
    intros (_ & _ & _ & _ & _ & st0 & E0 & E).
    assert (S0 : single n st0).
    { unfold start in E0. destruct (new_db n s0) as [s1 [x| | |]]; try discriminate. cbn [bind] in E0.
      destruct (open_db H mv behind n (with_ctxs a0 []) s1) as [[s2 a2] [id2| | |]] eqn:Eo; try discriminate.
      cbn [bind] in E0. injection E0 as <-. eapply open_single; eauto. }
    clear E0. revert st0 S0 E. induction os as [|o os IH]; intros st0 S0 E; cbn [exec] in E; [injection E as <-; exact S0|].
    destruct (exec_step H mv behind n st0 o) as [st1| | |] eqn:E1; try discriminate. cbn [bind] in E.
    eapply IH; [|exact E]. eapply step_single; eauto.
  Qed.

  (** Contexts that read the same. *)
  Definition reads_as (a : dbapp) (s : fsys) (id : Z) (a' : dbapp) (s' : fsys) (id' : Z) : Prop :=
    f_data s' = f_data s /\ f_handles s' = f_handles s /\
    exists c c', ctx_get (a_ctxs a) id = Some c /\ ctx_get (a_ctxs a') id' = Some c' /\
      x_conn c' = x_conn c /\ x_ref c' = x_ref c /\ x_off c' = x_off c.

  Lemma shows_as a s id a' s' id' bs : reads_as a s id a' s' id' -> shows H (a, s, id) bs -> shows H (a', s', id') bs.
  Proof.
    intros (Ed & Eh & c & c' & Ec & Ec' & E1 & E2 & E3).
    assert (K : content_keys a' id' = content_keys a id) by (unfold content_keys; now rewrite Ec, Ec', E2).
    assert (R : forall p, read_db a' s' id' p = read_db a s id p).
    { intros p. unfold read_db. rewrite Ec, Ec', E1, E3. destruct (two63 <=? p_length p)%Z; [reflexivity|].
      unfold read_at. rewrite Eh. destruct (nth_error (f_handles s) (x_conn c)) as [[i q []]|]; try reflexivity. unfold data_of. now rewrite Ed. }
    assert (B : forall h, read_by_hash a' s' id' h = read_by_hash a s id h).
    { intros h. unfold read_by_hash. rewrite K. destruct (content_keys a id); try reflexivity. cbn [bind].
      destruct (keys_fetch a0 h); try reflexivity. cbn [bind]. apply R. }
    assert (Cm : commits_db a' id' = commits_db a id) by (unfold commits_db; now rewrite Ec, Ec', E2).
    intros (S1 & (ks & S2 & S3) & S4 & S5). split; [|split; [|split]].
    - rewrite Cm. exact S1.
    - exists ks. split.
      + clear -S2 R. induction S2 as [|x y l l' Hx F IH]; constructor; [|exact IH]. rewrite R. exact Hx.
      + intros kind sel Hs. unfold content_keys_by_kind. rewrite K. now apply S3.
    - intros h ct L. rewrite B. now apply S4.
    - intros h F. rewrite B. now apply S5.
  Qed.

  Lemma writes_ctx l : forall a id c, Forall ok_content l -> ctx_get (a_ctxs a) id = Some c ->
    ctx_get (a_ctxs (writes a id l)) id = Some (with_pending c (x_pending c ++ l)) /\
    (forall j, j <> id -> ctx_get (a_ctxs (writes a id l)) j = ctx_get (a_ctxs a) j) /\
    a_dst (writes a id l) = a_dst a /\ a_bck (writes a id l) = a_bck a /\ a_chunk (writes a id l) = a_chunk a.
  Proof.
    unfold writes. induction l as [|x l IH]; intros a id c F E; cbn [fold_left].
    - rewrite app_nil_r. destruct c. auto.
    - inversion F as [|? ? (L & N & K) Fl]; subst.
      assert (W : fst (write_db a id (ct_hash x) (ct_data x) (ct_kind x)) = with_ctxs a (ctx_set (a_ctxs a) id (with_pending c (x_pending c ++ [x])))).
      { unfold write_db. rewrite E. destruct x as [h d k]. cbn [ct_hash ct_data ct_kind] in *. destruct d; [congruence|reflexivity]. }
      rewrite W. destruct (IH (with_ctxs a (ctx_set (a_ctxs a) id (with_pending c (x_pending c ++ [x])))) id (with_pending c (x_pending c ++ [x])) Fl) as (I1 & I2 & I3).
      { cbn [with_ctxs a_ctxs]. now rewrite ctx_get_set, Z.eqb_refl. }
      split; [rewrite I1; cbn [with_pending x_pending]; rewrite <- app_assoc; reflexivity|]. split; [|exact I3].
      intros j Nj. rewrite I2 by exact Nj. cbn [with_ctxs a_ctxs]. rewrite ctx_get_set.
      destruct (id =? j)%Z eqn:Ej; [apply Z.eqb_eq in Ej; congruence|reflexivity].
  Qed.

  Variable cwd : list bytes.
  Variable dir : bytes.
  Hypothesis Hd : dir <> [].

  Lemma reference_as c C now : x_ref C = x_ref c -> x_pending C = x_pending c -> update_reference H mv C now = update_reference H mv c now.
  Proof. intros E1 E2. unfold update_reference. now rewrite E1, E2. Qed.

  Lemma commit_as S0 now a s id s' a' c A S ID C :
    rel cwd dir S0 s S -> configured a A -> known_as cwd dir c C ->
    ctx_get (a_ctxs a) id = Some c -> ctx_get (a_ctxs A) ID = Some C ->
    commit_db H mv now a s id = (s', a', Ok tt) ->
    exists S' A', path_commit H mv cwd dir now A S ID = (S', A', Ok tt) /\ rel cwd dir S0 s' S' /\
      (exists c' C', ctx_get (a_ctxs a') id = Some c' /\ ctx_get (a_ctxs A') ID = Some C' /\
         x_conn C' = x_conn c' /\ x_ref C' = x_ref c' /\ x_off C' = x_off c') /\
      (forall j, j <> ID -> ctx_get (a_ctxs A') j = ctx_get (a_ctxs A) j) /\
      a_dst A' = a_dst A /\ a_bck A' = a_bck A /\ a_chunk A' = a_chunk A.
  Proof.
    intros Re Cf K Ec EC. unfold commit_db, commit_fuel, path_commit. rewrite Ec, EC.
    pose proof K as (K1 & K2 & K3 & K4 & K5). rewrite (reference_as c C now K3 K5).
    destruct (update_reference H mv c now) as [r| | |]; try discriminate.
    assert (Sz : conn_size S C = conn_size s c).
    { rewrite <- (conn_size_rel cwd dir S0 s S c Re). unfold conn_size. now rewrite K2. }
    rewrite Sz.
    destruct (psim_run cwd dir S0 _ _ (psim_update cwd dir Hd S0 (Datatypes.S (conn_size s c)) a A c C r Cf K) s S Re) as (R1 & R2).
    destruct (run (update_database (Datatypes.S (conn_size s c)) a c r) s) as [s1 o].
    destruct (run (path_update_database cwd dir (Datatypes.S (conn_size s c)) A C r) S) as [S1 o']. cbn [fst snd] in *. subst o'.
    destruct o as [[conn off]| | |]; try discriminate. intros E. injection E as <- <-.
    eexists _, _. split; [reflexivity|]. split; [exact R1|]. cbn [with_ctxs a_ctxs]. split; [|split].
    - rewrite !ctx_get_set, !Z.eqb_refl. eexists _, _. split; [reflexivity|]. split; [reflexivity|]. auto.
    - intros j Nj. rewrite ctx_get_set. destruct (ID =? j)%Z eqn:Ej; [apply Z.eqb_eq in Ej; congruence|reflexivity].
    - auto.
  Qed.

  Lemma alias_loses S a0 n s0 os a s id n2 t1 t2 pd2 :
    session H mv behind a0 n s0 os (a, s, id) -> plain n -> ~ In x2f (a_dst a0) -> ~ In x2f (a_bck a0) ->
    holds (resolve cwd dir) s S -> names cwd dir n2 n -> n2 <> n ->
    allowed H mv (a_chunk a0) (committed os, pending os) (OCommit t1) ->
    allowed H mv (a_chunk a0) (committed os, pd2) (OCommit t2) -> Forall ok_content pd2 ->
    exists id2 S1 A1 S2 A2 S3 A3,
      path_open_db H mv behind cwd dir n2 a S = (S1, A1, Ok id2) /\ id2 <> id /\
      path_commit H mv cwd dir t1 (writes A1 id2 pd2) S1 id = (S2, A2, Ok tt) /\
      path_commit H mv cwd dir t2 A2 S2 id2 = (S3, A3, Ok tt) /\
      shows H (A2, S2, id) (committed os ++ [(pending os, t1)]) /\
      shows H (A3, S3, id2) (committed os ++ [(pd2, t2)]) /\
      file_at S3 (place_name (resolve cwd dir ++ [n])) = Some (history_file H mv (committed os ++ [(pd2, t2)])).
  Proof.
    intros Se Pn Nd Nb Ho Na Nn (Np & T & Ft & Ck) (Np2 & T2 & Ft2 & Ck2) F2. cbn [fst snd] in *.
    destruct (session_synced H mv behind HL _ _ _ _ _ _ _ Se) as (Sy & F & Ch & Ed & Eb).
    pose proof (session_single _ _ _ _ _ Se) as (Eid & c0 & Ea & En). subst id.
    destruct (second_opener H mv behind HL a0 n a s 0%Z (committed os) (pending os) Sy Ch Ed Eb)
      as (s1 & b1 & E1 & Sy1 & Sb & Sc & Nc).
    destruct (writes_synced H mv pd2 b1 s1 n 0%Z (committed os) [] Sb F2) as (Sb2 & Sc2 & Nw). cbn [app] in Sb2.
    destruct Sc as (C1 & C2 & C3), Sc2 as (C4 & C5 & C6).
    destruct (commit_other H mv HL a (writes b1 0 pd2) s1 n 0%Z 0%Z (committed os) (pending os) pd2 t1 t2)
      as (s2 & a2 & s3 & b3 & Q1 & Q2 & Q3 & Q4 & Q5); auto.
    { congruence. } { congruence. }
    { intros c1 c2 Y1 Y2. destruct (Nw _ Y2) as (c2' & Y2' & ->). eauto. }
    { split; auto. } { split; auto. } { now rewrite Ch. } { now rewrite C6, C3. }
    (* the open *)
    assert (Re : rel cwd dir S s S) by (split; [exact Ho|intros k _; reflexivity]).
    assert (Op : exists S1 hx, path_open_db H mv behind cwd dir n2 a S =
              (S1, with_ctxs a (ctx_set (a_ctxs a) 1 (Ctx 1 n2 hx (history_ref H mv (committed os)) (zlen (header (history_ref H mv (committed os)))) [])), Ok 1%Z) /\
              rel cwd dir S s1 S1 /\ ctx_get (a_ctxs b1) 0 = Some (Ctx 0 n hx (history_ref H mv (committed os)) (zlen (header (history_ref H mv (committed os)))) [])).
    { destruct Sb as (i1 & h1 & _ & Eb1 & _).
      unfold open_db in E1. cbn [with_ctxs a_ctxs existsb] in E1.
      unfold path_open_db. rewrite Ea. cbn [existsb snd]. rewrite En.
      assert (bytes_eqb n n2 = false) as -> by (apply bytes_eqb_false; congruence). cbn [orb].
      rewrite (stat_names cwd dir Hd S s S n2 n Re Na). unfold sys_stat.
      destruct (dir_get (f_dir s) n) as [[i|]|] eqn:Ei; try discriminate. cbn [with_ctxs a_chunk] in E1.
      rewrite (data_of_rel cwd dir S s S i Re), Ch.
      destruct (retrieve_reference H mv behind (a_chunk a0) (data_of s i)) as [[ref off]| | |]; try discriminate.
      destruct (agree_open cwd dir Hd S n2 n Na s S Re) as (Ra & Rb).
      destruct (sys_open n s) as [s1' o]. destruct (path_open cwd dir n2 S) as [S1 o']. cbn [fst snd] in *. subst o'.
      destruct o as [hx| | |]; try discriminate. injection E1 as <- <-.
      cbn [with_ctxs a_ctxs ctx_set ctx_del filter ctx_get] in Eb1. change (zlen (@nil (Z * ctx))) with 0%Z in Eb1. cbn [Z.eqb] in Eb1.
      assert (Ee : Ctx 0 n hx ref off [] = Ctx 0 n h1 (history_ref H mv (committed os)) (zlen (header (history_ref H mv (committed os)))) []) by congruence.
      injection Ee as -> -> ->.
      exists S1, h1. split; [|split; [exact Ra|reflexivity]]. reflexivity. }
    destruct Op as (S1 & hx & Op & Re1 & Eb0).
    set (A1 := with_ctxs a (ctx_set (a_ctxs a) 1 (Ctx 1 n2 hx (history_ref H mv (committed os)) (zlen (header (history_ref H mv (committed os)))) []))) in *.
    assert (G1 : ctx_get (a_ctxs A1) 1 = Some (Ctx 1 n2 hx (history_ref H mv (committed os)) (zlen (header (history_ref H mv (committed os)))) [])).
    { unfold A1. cbn [with_ctxs a_ctxs]. now rewrite ctx_get_set. }
    destruct (writes_ctx pd2 A1 1 _ F2 G1) as (W1 & W2 & W3 & W4 & W5). cbn [with_pending x_pending app x_id x_name x_conn x_ref x_off] in W1.
    destruct (writes_ctx pd2 b1 0 _ F2 Eb0) as (V1 & _ & _). cbn [with_pending x_pending app x_id x_name x_conn x_ref x_off] in V1.
    assert (G0 : ctx_get (a_ctxs (writes A1 1 pd2)) 0 = ctx_get (a_ctxs a) 0).
    { rewrite W2 by lia. unfold A1. cbn [with_ctxs a_ctxs]. now rewrite ctx_get_set. }
    assert (Gc : ctx_get (a_ctxs a) 0 = Some c0) by (rewrite Ea; reflexivity).
    assert (Cf1 : configured a (writes A1 1 pd2)).
    { unfold configured. rewrite W3, W4, W5. cbn. rewrite Ed, Eb. repeat split; auto. }
    assert (Kn : known_as cwd dir c0 c0).
    { split; [rewrite En; now apply names_plain|auto]. }
    destruct (commit_as S t1 a s1 0 s2 a2 c0 (writes A1 1 pd2) S1 0 c0 Re1 Cf1 Kn Gc ltac:(now rewrite G0) Q1)
      as (S2 & A2 & P1 & Re2 & (c' & C' & Y1 & Y2 & Y3) & Oth & D1 & D2 & D3).
    assert (Cf2 : configured (writes b1 0 pd2) A2).
    { unfold configured. rewrite D1, D2, D3, W3, W4, W5. unfold A1. cbn. unfold same_config in *. cbn in *.
      rewrite Ed, Eb, Ch. repeat split; congruence || (rewrite ?C4, ?C5, ?C1, ?C2; assumption). }
    assert (G2 : ctx_get (a_ctxs A2) 1 = Some (Ctx 1 n2 hx (history_ref H mv (committed os)) (zlen (header (history_ref H mv (committed os)))) pd2)).
    { rewrite Oth by lia. exact W1. }
    assert (Kn2 : known_as cwd dir (Ctx 0 n hx (history_ref H mv (committed os)) (zlen (header (history_ref H mv (committed os)))) pd2)
                                   (Ctx 1 n2 hx (history_ref H mv (committed os)) (zlen (header (history_ref H mv (committed os)))) pd2)).
    { unfold known_as. cbn [x_name x_conn x_ref x_off x_pending]. auto. }
    destruct (commit_as S t2 (writes b1 0 pd2) s2 0 s3 b3 _ A2 S2 1 _ Re2 Cf2 Kn2 V1 G2 Q4)
      as (S3 & A3 & P2 & Re3 & (c3 & C3' & Z1 & Z2 & Z3) & _).
    exists 1%Z, S1, A1, S2, A2, S3, A3. split; [exact Op|]. split; [lia|]. split; [exact P1|]. split; [exact P2|]. split; [|split].
    - eapply shows_as; [|eapply synced_shows; eauto]. split; [apply Re2|]. split; [apply Re2|]. exists c', C'. auto.
    - eapply shows_as; [|eapply synced_shows; eauto]. split; [apply Re3|]. split; [apply Re3|]. exists c3, C3'. auto.
    - destruct Q5 as (j & hj & (_ & _ & _ & _ & X5 & _ & _ & _ & X9 & _) & _).
      unfold file_at. rewrite (get_plain cwd dir S s3 S3 n Re3 Pn), X5. f_equal.
      pose proof (data_of_rel cwd dir S s3 S3 j Re3) as Y. unfold data_of in Y, X9. now rewrite Y.
  Qed.
End Alias.
