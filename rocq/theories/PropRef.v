(** Property theorems for contents, content keys, commits and references (C15 - C23). *)
From Coq Require Import List ZArith NArith Lia Bool.
From Coq Require Import Init.Byte.
From Verif Require Import Base BaseLemmas HashModel HashProofs SpecHash HashTreeModel HashTreeProofs
  RefModel SpecRef RefProofs PropHash.
Import ListNotations.

(** Values used in the examples. *)
Definition ex_hash (b : byte) : bytes := repeat b 64.
Definition ex_tree : hashtree :=
  match build_tree toy_sha (Some [ex_hash x01; ex_hash x02]) with
  | Ok t => t | _ => HashTree [] (LHead []) (LHead [])
  end.
Definition ex_key (b : byte) (from : Z) : content_key :=
  ContentKey (ex_hash b) 7 (Pointer from 5) (ex_hash xaa).

Example ex_tree_wf : wf_ht ex_tree.
Proof. vm_compute. auto. Qed.

(** *** C15 (database part): false. *)
Theorem C15_database_decoding_never_panics_refuted : forall H mv,
  exists b1 b2 b3 b4 b5,
    contents_of_content H (sl b1) = Panic /\
    keys_of_content H (sl b2) = Panic /\
    commit_of_content H mv (sl b3) = Panic /\
    commits_of_content H mv (sl b4) = Panic /\
    reference_of_content H mv (sl b5) = Panic.
Proof.
  intros H mv.
  exists (repeat xff 100), (repeat x01 200), (repeat xff 300), (repeat xff 300),
         (put_u64 (2 ^ 63) ++ repeat xff 400).
  repeat split; vm_compute; reflexivity.
Qed.
Print Assumptions C15_database_decoding_never_panics_refuted.

Theorem C15_database_decoding_terminates : forall H mv s,
  content_of_content H s <> Fuel /\ contents_of_content H s <> Fuel /\
  pointer_of_content s <> Fuel /\ key_of_content H s <> Fuel /\ keys_of_content H s <> Fuel /\
  commit_of_content H mv s <> Fuel /\ commits_of_content H mv s <> Fuel /\
  reference_of_content H mv s <> Fuel.
Proof.
  intros. auto 10 using content_of_content_total, contents_of_content_total, pointer_of_content_total,
    key_of_content_total, keys_of_content_total, commit_of_content_total, commits_of_content_total,
    reference_of_content_total.
Qed.
Print Assumptions C15_database_decoding_terminates.

(** *** C16 *)
Theorem C16_pointer_and_key_roundtrip : forall H,
  (forall from len behind, (0 <= from < two64)%Z -> (0 < len < two64)%Z ->
     length (pointer_content (Pointer from len)) = 16 /\
     pointer_of_content (GSlice (pointer_content (Pointer from len)) behind) = Ok (Pointer from len)) /\
  (forall h kind from len commit behind,
     length h = 64 -> (0 <= kind < two64)%Z -> (0 <= from < two64)%Z -> (0 < len < two64)%Z ->
     length commit = 64 ->
     let k := ContentKey h kind (Pointer from len) commit in
     length (key_content k) = 152 /\
     key_of_content H (GSlice (key_content k) behind) = Ok k).
Proof.
  intros H. split.
  - intros. split; [apply pointer_content_length|apply pointer_roundtrip; split; auto].
  - intros. assert (wf_key k) by (unfold wf_key, wf_pointer, is_u64; cbn; repeat split; tauto).
    split; [apply key_content_length|apply key_roundtrip]; auto.
Qed.
Print Assumptions C16_pointer_and_key_roundtrip.

Example C16_example :
  key_of_content toy_sha (GSlice (key_content (ex_key x01 3)) [xff]) = Ok (ex_key x01 3).
Proof. vm_compute. reflexivity. Qed.

(** *** C17 *)
Theorem C17_keys_roundtrip : forall H ks behind,
  ks <> [] -> Forall wf_key ks -> (zlen (keys_content ks) < two63)%Z ->
  keys_of_content H (GSlice (keys_content ks) behind) = Ok ks.
Proof. intros; now apply keys_roundtrip. Qed.
Print Assumptions C17_keys_roundtrip.

Theorem C17_fetch_and_list_exact : forall ks,
  (forall h, (exists k, keys_fetch ks h = Ok k /\ last_such (fun k => k_hash k = h) ks k) \/
             (keys_fetch ks h = Err /\ Forall (fun k => k_hash k <> h) ks)) /\
  (forall kind, selects (fun k => k_kind k = kind) ks (keys_by_kind ks kind)) /\
  (Forall (fun k => 0 <= p_from (k_content k) /\ 0 < p_length (k_content k) /\
                    p_from (k_content k) + p_length (k_content k) < two63)%Z ks ->
   greatest (map (fun k => p_from (k_content k) + p_length (k_content k))%Z ks) (keys_next ks)).
Proof.
  intros ks. split; [|split].
  - intros h. apply keys_fetch_spec.
  - intros kind. apply keys_by_kind_spec.
  - intros F. destruct (keys_next_from_spec ks 0 ltac:(lia) F) as (A & B & C).
    repeat split; auto.
Qed.
Print Assumptions C17_fetch_and_list_exact.

Example C17_example :
  let ks := [ex_key x01 0; ex_key x02 5; ex_key x01 10] in
  keys_of_content toy_sha (sl (keys_content ks)) = Ok ks /\
  keys_fetch ks (ex_hash x01) = Ok (ex_key x01 10) /\ keys_next ks = 15%Z.
Proof. vm_compute. auto. Qed.

(** *** C18 *)
Theorem C18_commit_roundtrip : forall H mv values time parent proof behind,
  wf_ht values -> (- two63 <= time < two63)%Z ->
  (forall p, parent = Some p -> length p = 64) ->
  (forall z, proof = Some z -> (0 <= z)%Z) ->
  let c := commit_now H mv values time parent proof in
  (zlen (commit_content c) < two63)%Z ->
  commit_of_content H mv (GSlice (commit_content c) behind) = Ok c.
Proof.
  intros. apply commit_roundtrip; auto. exists values, time, parent, proof. auto.
Qed.
Print Assumptions C18_commit_roundtrip.

(** Trees made from blocks meet the hypothesis. *)
Theorem C18_built_trees_are_well_formed : forall H, sha_ok H ->
  forall blocks t, build_tree H (Some blocks) = Ok t -> wf_ht t.
Proof. intros H HL blocks t E. eapply build_tree_wf; eauto. Qed.
Print Assumptions C18_built_trees_are_well_formed.

Example C18_example :
  let c := commit_now toy_sha x00 ex_tree (-5) (Some (ex_hash x09)) (Some 70000%Z) in
  commit_of_content toy_sha x00 (GSlice (commit_content c) [x01; x02]) = Ok c.
Proof. vm_compute. reflexivity. Qed.

(** *** C19: the sign of a proof is lost, and nothing else. *)
Theorem C19_negative_proof_roundtrip_refuted : forall H mv values time parent z behind,
  wf_ht values -> (- two63 <= time < two63)%Z ->
  (forall p, parent = Some p -> length p = 64) -> (z < 0)%Z ->
  let c := commit_now H mv values time parent (Some z) in
  let c' := commit_now H mv values time parent (Some (- z)%Z) in
  (zlen (commit_content c) < two63)%Z ->
  commit_of_content H mv (GSlice (commit_content c) behind) = Ok c' /\
  c' <> c /\ c_hash c' = c_hash c.
Proof.
  intros H mv values time parent z behind Wv Wt Wp Hz c c' L.
  assert (Ea : Z.abs z = (- z)%Z) by lia.
  assert (Ec : commit_content c = commit_content c')
    by (unfold c, c'; rewrite commit_content_abs, Ea; reflexivity).
  split; [|split].
  - rewrite Ec in *. apply C18_commit_roundtrip; auto. intros y E. injection E as <-. lia.
  - unfold c, c'. intros E. apply (f_equal c_mine) in E. cbn [c_mine commit_now] in E.
    injection E as _ E _. lia.
  - unfold c, c'. cbn [c_hash commit_now].
    assert (E : big_bytes (- z) = big_bytes z) by (unfold big_bytes; now rewrite Z.abs_opp).
    now rewrite E.
Qed.
Print Assumptions C19_negative_proof_roundtrip_refuted.

Example C19_example :
  let c := commit_now toy_sha x00 ex_tree 5 None (Some (-3)%Z) in
  match commit_of_content toy_sha x00 (sl (commit_content c)) with
  | Ok c' => option_map m_proof (c_mine c') = Some 3%Z
  | _ => False
  end.
Proof. vm_compute. reflexivity. Qed.

(** *** C20 *)
Theorem C20_commits_roundtrip : forall H mv cs behind,
  cs <> [] -> Forall (wf_commit H mv) cs -> (zlen (commits_content cs) < two63)%Z ->
  commits_of_content H mv (GSlice (commits_content cs) behind) = Ok cs.
Proof. intros; now apply commits_roundtrip. Qed.
Print Assumptions C20_commits_roundtrip.

Theorem C20_reference_roundtrip : forall H mv keys cs after behind,
  keys <> [] -> Forall wf_key keys -> cs <> [] -> Forall (wf_commit H mv) cs ->
  let r := Reference keys cs in
  (zlen (reference_content r ++ after) < two63)%Z ->
  reference_of_content H mv (GSlice (reference_content r ++ after) behind) = Ok r.
Proof. intros. apply reference_roundtrip; auto. repeat split; auto. Qed.
Print Assumptions C20_reference_roundtrip.

Theorem C20_commit_fetch_exact : forall cs h,
  (exists c, commits_fetch cs h = Ok c /\ last_such (fun c => c_hash c = h) cs c) \/
  (commits_fetch cs h = Err /\ Forall (fun c => c_hash c <> h) cs).
Proof. intros. apply commits_fetch_spec. Qed.
Print Assumptions C20_commit_fetch_exact.

Example C20_example :
  let c1 := commit_now toy_sha x00 ex_tree 5 None None in
  let c2 := commit_now toy_sha x00 ex_tree 6 (Some (c_hash c1)) None in
  let r := Reference [ex_key x01 0; ex_key x02 5] [c1; c2] in
  reference_of_content toy_sha x00 (GSlice (reference_content r ++ [x05]) [x06]) = Ok r.
Proof. vm_compute. reflexivity. Qed.

Example C20_wf_example : wf_commit toy_sha x00 (commit_now toy_sha x00 ex_tree 5 None None).
Proof.
  exists ex_tree, 5%Z, None, None. split; [reflexivity|]. split; [apply ex_tree_wf|].
  unfold is_i64. rewrite two63_val. repeat split; try lia; discriminate.
Qed.

(** *** C21 *)
Theorem C21_contents_roundtrip : forall H cs behind,
  cs <> [] ->
  Forall (fun c => length (ct_hash c) = 64 /\ (0 <= ct_kind c < two64)%Z /\ ct_data c <> []) cs ->
  (zlen (contents_content cs) < two63)%Z ->
  contents_of_content H (GSlice (contents_content cs) behind) = Ok cs.
Proof. intros; now apply contents_roundtrip. Qed.
Print Assumptions C21_contents_roundtrip.

Example C21_example :
  let cs := [Content (ex_hash x01) [x0a] 3; Content (ex_hash x02) [x0b; x0c] 4] in
  contents_of_content toy_sha (GSlice (contents_content cs) [x07]) = Ok cs.
Proof. vm_compute. reflexivity. Qed.

(** *** C22 *)
Theorem C22_commit_hash_binds_without_proof : forall H mv v1 t1 p1 v2 t2 p2,
  length (ht_head v1) = 64 -> length (ht_head v2) = 64 ->
  (- two63 <= t1 < two63)%Z -> (- two63 <= t2 < two63)%Z ->
  (forall p, p1 = Some p -> length p = 64) -> (forall p, p2 = Some p -> length p = 64) ->
  forall d1 d2, decimal t1 d1 -> decimal t2 d2 ->
  c_hash (commit_now H mv v1 t1 p1 None) = c_hash (commit_now H mv v2 t2 p2 None) ->
  (ht_head v1 = ht_head v2 /\ t1 = t2 /\ p1 = p2) \/
  collide H (eq (ht_head v1 ++ d1 ++ match p1 with Some p => p | None => [] end))
            (eq (ht_head v2 ++ d2 ++ match p2 with Some p => p | None => [] end)).
Proof. intros until 6. now apply commit_hash_binding. Qed.
Print Assumptions C22_commit_hash_binds_without_proof.

(** The hash is SHA-512 of exactly these fields: root, time, parent, proof. *)
Theorem C22_commit_hash_covers_its_fields : forall H mv v t p proof d,
  length (ht_head v) = 64 -> (- two63 <= t < two63)%Z -> decimal t d ->
  c_hash (commit_now H mv v t p proof) =
    H (ht_head v ++ d ++ match p with Some p => p | None => [] end ++
       match proof with Some z => big_bytes z | None => [] end).
Proof.
  intros H mv v t p proof d L R D. apply dec_string_spec in D as <-; auto.
  cbn [c_hash commit_now]. unfold from_multi.
  match goal with |- from_bytes H ?a = H ?b => replace a with b end.
  - apply from_bytes_other. pose proof (dec_string_len t). rewrite !app_length. lia.
  - destruct p, proof; cbn [concat app]; rewrite ?app_nil_r; reflexivity.
Qed.
Print Assumptions C22_commit_hash_covers_its_fields.

(** A time before 1970 and one after. *)
Example C22_decimals : decimal (-105) [x2d; x31; x30; x35] /\ decimal 17 [x31; x37] /\ decimal 0 [x30].
Proof.
  unfold decimal. split; [right|split; left]; (split; [lia|]).
  - eexists. split; [reflexivity|]. apply (digits_more 10 5 [x31; x30]); [lia| |lia|reflexivity].
    apply (digits_more 1 0 [x31]); [lia| |lia|reflexivity]. constructor; [lia|reflexivity].
  - apply (digits_more 1 7 [x31]); [lia| |lia|reflexivity]. constructor; [lia|reflexivity].
  - constructor; [lia|reflexivity].
Qed.

(** With proofs the fields run into each other, whatever SHA-512 does. *)
Theorem C22_commit_hash_binds_refuted : forall H mv values,
  (exists parent proof, forall time,
     c_hash (commit_now H mv values time (Some parent) None) =
     c_hash (commit_now H mv values time None (Some proof))) /\
  (exists t1 z1 t2 z2, t1 <> t2 /\
     c_hash (commit_now H mv values t1 None (Some z1)) =
     c_hash (commit_now H mv values t2 None (Some z2))).
Proof.
  intros H mv values. split.
  - exists (repeat x01 64), (big_set (repeat x01 64)). intros time.
    cbn [c_hash commit_now]. do 2 f_equal.
  - exists 1%Z, 50%Z, 12%Z, 0%Z. split; [lia|]. reflexivity.
Qed.
Print Assumptions C22_commit_hash_binds_refuted.

(** *** C23 *)
Theorem C23_mining_result_and_score : forall H, sha_ok H ->
  forall mv values time parent z,
  let c := commit_now H mv values time parent (Some z) in
  exists m, c_mine c = Some m /\ m_proof m = z /\
    block_hash H (c_hash c ++ big_bytes z) (m_result m) /\
    leading mv (m_result m) (m_score m) /\ m_score m <= 64.
Proof.
  intros H HL mv values time parent z c. eexists. split; [reflexivity|].
  cbn [m_proof m_result m_score]. split; [reflexivity|]. split; [|split].
  - unfold from_multi. cbn [concat]. rewrite app_nil_r.
    apply (C01_hash_is_64_bytes_and_idempotent H HL).
  - apply lead_score_spec.
  - etransitivity; [apply lead_score_le|]. unfold from_multi. rewrite from_bytes_length by exact HL. lia.
Qed.
Print Assumptions C23_mining_result_and_score.

(** A proof of zero costs nothing: the result is the commit's hash itself. *)
Theorem C23_zero_proof_result_is_hash : forall H, sha_ok H ->
  forall mv values time parent m,
  c_mine (commit_now H mv values time parent (Some 0%Z)) = Some m ->
  m_result m = c_hash (commit_now H mv values time parent (Some 0%Z)).
Proof.
  intros H HL mv values time parent m E. cbn [c_mine commit_now] in E. injection E as <-.
  cbn [m_result c_hash commit_now]. change (big_bytes 0) with (@nil byte).
  match goal with |- from_multi H [?a; _] = _ => set (h := a) end.
  assert (Lh : length h = 64) by (unfold h, from_multi; now apply from_bytes_length).
  change (from_multi H [h; []] = h). clearbody h.
  unfold from_multi. cbn [concat]. rewrite !app_nil_r. now apply from_bytes_64.
Qed.
Print Assumptions C23_zero_proof_result_is_hash.

Example C23_example :
  option_map m_score (c_mine (commit_now toy_sha x41 ex_tree 5 None (Some 9%Z))) = Some 1.
Proof. vm_compute. reflexivity. Qed.
