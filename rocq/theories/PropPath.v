(** Property theorems for names, paths and directories (C152, C153, C154). *)
From Coq Require Import List ZArith NArith Lia Bool String.
From Coq Require Import Init.Byte Strings.Byte.
From Verif Require Import Base BaseLemmas HashModel HashProofs SpecHash HashTreeModel HashTreeProofs
  RefModel RefProofs SpecRef DbModel SpecDb DbRefProofs DbFsProofs DbCommitProofs DbOpenProofs DbApiProofs
  DbSession DbSessionProofs DbMoreProofs DbMultiProofs PathModel SpecPath PathProofs PathSimProofs PathAliasProofs
  PropHash PropRef PropDb.
Import ListNotations.

Definition text (s : string) : bytes := list_byte_of_string s.
Arguments text s%string_scope.

(** *** C152 *)
(** A name is a walk that starts in the directory, even if it begins with "/". *)
Theorem C152_where_names_lead : forall cwd dir n l, dir <> [] ->
  (leads cwd (join dir n) l <-> exists from es, leads cwd dir from /\ parts n es /\ walk from es l).
Proof.
  intros cwd dir n l Hd. rewrite resolve_leads, join_resolve by exact Hd. split.
  - intros E. exists (resolve cwd dir), (elements n). split; [now apply resolve_leads|]. split; [now apply parts_elements|].
    apply walk_go; [apply elements_free|exact E].
  - intros (from & es & A & B & C). apply resolve_leads in A. apply parts_elements in B. subst.
    apply walk_go in C; [exact C|apply elements_free].
Qed.
Print Assumptions C152_where_names_lead.

(** Without a directory the name itself is the path. *)
Theorem C152_where_names_lead_without_directory : forall cwd n l, n <> [] ->
  (leads cwd (join [] n) l <-> leads cwd n l).
Proof.
  intros cwd n l N. assert (E : join [] n = clean n) by (destruct n; [congruence|reflexivity]).
  rewrite E, !resolve_leads, clean_resolve. reflexivity.
Qed.
Print Assumptions C152_where_names_lead_without_directory.

(** Plain names are the files of the directory: different names, different files. *)
Theorem C152_plain_names_are_files_of_the_directory : forall cwd dir D n l, leads cwd dir D -> plain n ->
  (leads cwd (join dir n) l <-> l = D ++ [n]).
Proof.
  intros cwd dir D n l L P. apply resolve_leads in L. subst D. rewrite resolve_leads.
  destruct dir as [|b dir].
  - assert (E : join [] n = clean n) by (destruct P as (P & _); destruct n; [congruence|reflexivity]).
    assert (R : resolve cwd n = cwd ++ [n]).
    { unfold resolve. rewrite elements_one by (now apply plain_free). cbn [fold_left].
      destruct P as (P1 & P2 & P3). destruct n as [|b n]; [congruence|].
      assert (is_slash b = false) as -> by (apply is_slash_false; intros ->; apply P2; now left).
      apply go_plain. repeat split; tauto. }
    rewrite E, clean_resolve, R. change (resolve cwd []) with cwd. split; congruence.
  - rewrite join_plain by (auto; discriminate). split; congruence.
Qed.
Print Assumptions C152_plain_names_are_files_of_the_directory.

(** Other names can leave the directory. *)
Theorem C152_names_stay_in_the_directory_refuted : forall cwd dir D d x, dir <> [] ->
  leads cwd dir (D ++ [d]) -> plain x ->
  leads cwd (join dir (text "../" ++ x)) (D ++ [x]).
Proof.
  intros cwd dir D d x Hd L P. apply C152_where_names_lead; [exact Hd|].
  exists (D ++ [d]), [text ".."; x]. split; [exact L|]. split.
  - apply parts_elements. change (text "../" ++ x) with (text ".." ++ x2f :: x).
    rewrite elements_more by (cbn; intuition discriminate). now rewrite elements_one by (now apply plain_free).
  - apply walk_up. apply walk_down; [exact P|]. constructor.
Qed.
Print Assumptions C152_names_stay_in_the_directory_refuted.

(** And a file has more than one name. *)
Theorem C152_a_file_has_one_name_refuted : forall cwd dir D n, dir <> [] -> leads cwd dir D -> plain n ->
  leads cwd (join dir (text "./" ++ n)) (D ++ [n]) /\
  leads cwd (join dir (text "/" ++ n)) (D ++ [n]) /\
  leads cwd (join dir n) (D ++ [n]).
Proof.
  intros cwd dir D n Hd L P. split; [|split].
  - apply C152_where_names_lead; [exact Hd|]. exists D, [text "."; n]. split; [exact L|]. split.
    + apply parts_elements. change (text "./" ++ n) with (text "." ++ x2f :: n).
      rewrite elements_more by (cbn; intuition discriminate). now rewrite elements_one by (now apply plain_free).
    + apply walk_stay; [now right|]. apply walk_down; [exact P|]. constructor.
  - apply C152_where_names_lead; [exact Hd|]. exists D, [[]; n]. split; [exact L|]. split.
    + apply parts_elements. change (text "/" ++ n) with ([] ++ x2f :: n).
      rewrite elements_more by (cbn; tauto). now rewrite elements_one by (now apply plain_free).
    + apply walk_stay; [now left|]. apply walk_down; [exact P|]. constructor.
  - now apply (C152_plain_names_are_files_of_the_directory cwd dir D n _ L P).
Qed.
Print Assumptions C152_a_file_has_one_name_refuted.

Example C152_ex_join :
  join (text "db") (text "users") = text "db/users" /\
  join (text "./x/../db/") (text "//a/./b/../c") = text "db/a/c" /\
  join (text "../db") (text "../../x") = text "../../x" /\
  join (text "/") (text "..") = text "/" /\ join [] (text "..a/...") = text "..a/..." /\
  join (text "a") (text "..") = text "." /\ join (text "/a/b") (text "../../../c") = text "/c".
Proof. vm_compute. repeat split. Qed.

Example C152_ex : plain (text "users") /\ leads [text "home"] (text "../srv//db") [text "srv"; text "db"].
Proof.
  split; [|apply resolve_leads; vm_compute; reflexivity].
  repeat split; try discriminate. intros X. vm_compute in X. repeat (destruct X as [X|X]; [discriminate|]). exact X.
Qed.

(** *** C153 *)
(** With plain names, all calls give what they give in the model of one directory. *)
Theorem C153_calls_in_a_directory : forall H mv behind cwd dir D s S a cs, dir <> [] ->
  leads cwd dir D -> holds D s S -> plain_app a -> Forall plain_call cs ->
  let alone := run_calls (name_call H mv behind) cs a s in
  let there := run_calls (path_call H mv behind cwd dir) cs a S in
  snd there = snd alone /\ fst (fst there) = fst (fst alone) /\
  holds D (snd (fst alone)) (snd (fst there)) /\ only_within D S (snd (fst there)).
Proof.
  intros H mv behind cwd dir D s S a cs Hd L Ho Pa Pc. apply resolve_leads in L. subst D. cbv zeta.
  assert (Re : rel cwd dir S s S) by (split; [exact Ho|intros k _; reflexivity]).
  pose proof (calls_sim H mv behind cwd dir Hd S cs a s S Pa Pc Re) as (A & B & (C1 & C2) & _).
  split; [exact B|]. split; [exact A|]. split; [exact C1|exact C2].
Qed.
Print Assumptions C153_calls_in_a_directory.

(** Every directory is one of those. *)
Theorem C153_every_directory : forall D S, D = [] \/ dir_get (f_dir S) (place_name D) = Some EDir ->
  exists s, holds D s S.
Proof. exact holds_exists. Qed.
Print Assumptions C153_every_directory.

(** New makes the directories that are missing. *)
Theorem C153_new_makes_the_directory : forall cwd dir D n S, dir <> [] -> leads cwd dir D -> plain n ->
  (forall q r, D = q ++ r -> q <> [] ->
     dir_get (f_dir S) (place_name q) = None \/ dir_get (f_dir S) (place_name q) = Some EDir) ->
  dir_get (f_dir S) (place_name (D ++ [n])) = None ->
  exists S', path_new cwd dir n S = (S', Ok tt) /\
    (D = [] \/ dir_get (f_dir S') (place_name D) = Some EDir) /\ file_at S' (place_name (D ++ [n])) = Some [] /\
    (forall j, j < List.length (f_data S) -> data_of S' j = data_of S j) /\
    (forall k, k <> place_name (D ++ [n]) -> (forall q r, D = q ++ r -> q <> [] -> k <> place_name q) ->
       dir_get (f_dir S') k = dir_get (f_dir S) k).
Proof.
  intros cwd dir D n S Hd L P C Fr. apply resolve_leads in L. subst D.
  destruct (new_makes cwd dir n S Hd P C Fr) as (S' & i & E & A & B & Da & O & _ & K).
  exists S'. split; [exact E|]. split; [exact A|]. split; [|split; [exact O|exact K]].
  unfold file_at. rewrite B. f_equal. exact Da.
Qed.
Print Assumptions C153_new_makes_the_directory.

(** Otherwise, a file being on the way or the name being there, New returns an error and changes nothing. *)
Theorem C153_new_fails_otherwise : forall cwd dir D n S, dir <> [] -> leads cwd dir D -> plain n -> rooted S ->
  (exists q r i, D = q ++ r /\ q <> [] /\ dir_get (f_dir S) (place_name q) = Some (EFile i)) \/
  dir_get (f_dir S) (place_name (D ++ [n])) <> None ->
  path_new cwd dir n S = (S, Err).
Proof. intros cwd dir D n S Hd L P Ro C. apply resolve_leads in L. subst D. now apply new_fails. Qed.
Print Assumptions C153_new_fails_otherwise.

(** The file system of a directory, at the root of another one. *)
Definition at_root (s : fsys) : fsys := with_dir s (map (fun x => (x2f :: fst x, snd x)) (f_dir s)).

Lemma at_root_holds s : holds [] s (at_root s).
Proof.
  repeat split; auto. intros n _. cbn. rewrite app_nil_r. induction (f_dir s) as [|[m e] d IH]; [reflexivity|].
  cbn. rewrite IH. reflexivity.
Qed.

(** A database below a directory that New has to make. *)
Definition ex_calls : list api :=
  [CNew (text "users"); COpen (text "users"); CWrite 0 (ex_h x01) [x0a; x0b] 2; CCommit 5 0; CReadByHash 0 (ex_h x01);
   CClose 0; COpen (text "users"); CReadByHash 0 (ex_h x01); CExists (text "users"); CDelete (text "users"); CExists (text "users")].
Definition ex_world : fsys := FSys [(text "/home", EDir); (text "/home/users", EFile 0)] [[x01]] [] [] [].
Definition ex_answers := run_calls (path_call toy_sha x00 no_behind [text "home"] (text "data/db")) ex_calls (ex_app 100) ex_world.
Example C153_ex :
  snd ex_answers =
    [AUnit (Ok tt); AId (Ok 0%Z); AUnit (Ok tt); AUnit (Ok tt); ABytes (Ok [x0a; x0b]);
     AUnit (Ok tt); AId (Ok 0%Z); ABytes (Ok [x0a; x0b]); ABool true; AUnit (Ok tt); ABool false] /\
  dir_get (f_dir (snd (fst ex_answers))) (text "/home/data/db") = Some EDir /\
  file_at (snd (fst ex_answers)) (text "/home/users") = Some [x01] /\
  snd (run_calls (name_call toy_sha x00 no_behind) ex_calls (ex_app 100) ex_fs) = snd ex_answers.
Proof. vm_compute. repeat split. Qed.

(** A directory that is a file is in the way. *)
Definition ex_file_world : fsys := FSys [(text "/home", EFile 0)] [[x01]] [] [] [].
Example C153_fails_ex : rooted ex_file_world /\ path_new [] (text "/home/data") (text "users") ex_file_world = (ex_file_world, Err) /\
  path_new [] (text "/home") (text "users") ex_file_world = (ex_file_world, Err).
Proof.
  refine (conj _ (conj eq_refl eq_refl)). intros l n e Nl E. exfalso.
  destruct (bytes_eqb (text "/home") (place_name (l ++ [n]))) eqn:B;
    [|unfold ex_file_world in E; cbn [f_dir dir_get] in E; rewrite B in E; discriminate]. apply bytes_eqb_true in B.
  destruct l as [|x l]; [congruence|]. change (text "/home") with (x2f :: text "home") in B.
  assert (B' : text "home" = x ++ place_name (l ++ [n])) by (unfold place_name in *; cbn [app map concat] in B; now injection B).
  assert (F : In x2f (text "home")).
  { rewrite B'. apply in_or_app. right. destruct l as [|y l]; cbn; now left. }
  cbn in F. intuition discriminate.
Qed.

(** *** C154: false. *)
(** One application opens a database a second time under another name; both commit: the first batch is gone. *)
Theorem C154_one_application_keeps_all_commits_refuted : forall H mv behind, sha_ok H ->
  forall a0 n s0 os a s id, session H mv behind a0 n s0 os (a, s, id) -> plain n ->
  ~ In x2f (a_dst a0) -> ~ In x2f (a_bck a0) ->
  forall cwd dir D S, dir <> [] -> leads cwd dir D -> holds D s S ->
  forall es n2, parts n2 (es ++ [n]) -> walk D es D -> n2 <> n ->
  forall t1 t2 pd2,
  allowed H mv (a_chunk a0) (committed os, pending os) (OCommit t1) ->
  allowed H mv (a_chunk a0) (committed os, pd2) (OCommit t2) -> Forall ok_content pd2 ->
  exists id2 S1 A1 S2 A2 S3 A3,
    path_open_db H mv behind cwd dir n2 a S = (S1, A1, Ok id2) /\ id2 <> id /\
    path_commit H mv cwd dir t1 (writes A1 id2 pd2) S1 id = (S2, A2, Ok tt) /\
    path_commit H mv cwd dir t2 A2 S2 id2 = (S3, A3, Ok tt) /\
    shows H (A2, S2, id) (committed os ++ [(pending os, t1)]) /\
    shows H (A3, S3, id2) (committed os ++ [(pd2, t2)]) /\
    file_at S3 (place_name (D ++ [n])) = Some (history_file H mv (committed os ++ [(pd2, t2)])).
Proof.
  intros H mv behind HL a0 n s0 os a s id Se Pn Nd Nb cwd dir D S Hd L Ho es n2 Ps W Nn t1 t2 pd2 A1 A2 F.
  apply resolve_leads in L. subst D. apply parts_elements in Ps.
  eapply (alias_loses H mv behind HL cwd dir Hd S a0 n s0 os a s id n2 t1 t2 pd2); eauto.
  split; [exact Pn|]. exists es. split; [exact Ps|]. apply walk_go in W; [exact W|].
  pose proof (elements_free n2) as Fe. rewrite Ps in Fe. apply Forall_app in Fe. apply Fe.
Qed.
Print Assumptions C154_one_application_keeps_all_commits_refuted.

Example C154_ex : plain ex_name /\ ~ In x2f (a_dst (ex_app 100)) /\ ~ In x2f (a_bck (ex_app 100)) /\
  leads [] (text "/") [] /\ (forall s, holds [] s (at_root s)) /\
  parts (text "./" ++ ex_name) ([text "."] ++ [ex_name]) /\ walk [] [text "."] [] /\ text "./" ++ ex_name <> ex_name.
Proof.
  assert (P : plain ex_name).
  { repeat split; try discriminate. intros X. vm_compute in X. repeat (destruct X as [X|X]; [discriminate|]). exact X. }
  split; [exact P|]. split; [|split; [|split; [|split; [exact at_root_holds|split; [|split]]]]].
  - intros X. vm_compute in X. repeat (destruct X as [X|X]; [discriminate|]). exact X.
  - intros X. vm_compute in X. repeat (destruct X as [X|X]; [discriminate|]). exact X.
  - apply resolve_leads. reflexivity.
  - apply parts_elements. vm_compute. reflexivity.
  - apply walk_stay; [now right|constructor].
  - discriminate.
Qed.
