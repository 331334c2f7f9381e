(** The commits of a history have different hashes, and lookups by hash. *)
From Coq Require Import List ZArith NArith Lia Bool Arith.
From Coq Require Import Init.Byte Strings.Byte.
From Verif Require Import Base BaseLemmas HashModel HashProofs SpecHash HashTreeModel HashTreeProofs
  RefModel RefProofs SpecRef DbModel SpecDb DbRefProofs DbFsProofs DbCommitProofs DbOpenProofs DbApiProofs
  DbSession DbSessionProofs.
Import ListNotations.

(** ** Every number has a decimal text *)
Lemma digit_exists d : (0 <= d <= 9)%Z -> exists c, Z.of_N (Byte.to_N c) = (48 + d)%Z.
Proof.
  intros R. exists (byte_of_Z (48 + d)). change (Z_of_byte (byte_of_Z (48 + d)) = 48 + d)%Z.
  rewrite Z_of_byte_of_Z. apply Z.mod_small. lia.
Qed.

Lemma digits_exist k : forall n, (0 <= n < Z.of_nat k)%Z -> exists b, digits n b.
Proof.
  induction k as [|k IH]; intros n R; [lia|].
  destruct (Z.ltb_spec n 10).
  - destruct (digit_exists n ltac:(lia)) as (c & Ec). exists [c]. constructor; auto; lia.
  - pose proof (Z.div_mod n 10 ltac:(lia)) as E. pose proof (Z.mod_pos_bound n 10 ltac:(lia)) as M.
    destruct (IH (n / 10)%Z) as (b & B); [lia|].
    destruct (digit_exists (n mod 10) ltac:(lia)) as (c & Ec).
    exists (b ++ [c]). rewrite E at 1. constructor; auto; lia.
Qed.

Lemma decimal_exists n : exists b, decimal n b.
Proof.
  destruct (Z.ltb_spec n 0).
  - destruct (digits_exist (S (Z.to_nat (- n))) (- n)%Z ltac:(lia)) as (b & B). exists (x2d :: b). right. eauto.
  - destruct (digits_exist (S (Z.to_nat n)) n ltac:(lia)) as (b & B). exists b. left. eauto.
Qed.

(** ** The place of a commit in its history *)
Lemma linked_first H p bs c cs : linked H p bs (c :: cs) -> c_parent c = p.
Proof. intros L. inversion L as [|? ? ? ? ? Co]; subst. apply Co. Qed.

Lemma linked_next H bs cs : forall p, linked H p bs cs -> forall i c, nth_error cs (S i) = Some c ->
  exists b, nth_error cs i = Some b /\ c_parent c = Some (c_hash b).
Proof.
  revert bs. induction cs as [|x cs IH]; intros bs p L i c E; [destruct i; discriminate|].
  inversion L as [|? ? bs' ? ? Co L']; subst. destruct i as [|i]; cbn [nth_error] in *.
  - exists x. split; auto. destruct cs as [|y cs]; [discriminate|]. injection E as ->. now apply linked_first in L'.
  - eapply IH; eauto.
Qed.

Lemma linked_plain H bs cs : forall p, linked H p bs cs -> Forall (fun c => c_mine c = None) cs.
Proof.
  revert bs. induction cs as [|x cs IH]; intros bs p L; constructor; inversion L as [|? ? ? ? ? Co L']; subst; eauto.
  apply Co.
Qed.

Section History.
  Variable H : bytes -> bytes.
  Variable mv : byte.
  Hypothesis HL : forall x, length (H x) = 64.

  Lemma same_hash c d : wf_commit H mv c -> wf_commit H mv d -> c_mine c = None -> c_mine d = None ->
    c_hash c = c_hash d -> c_parent c = c_parent d \/ collide H (commit_input c) (commit_input d).
  Proof.
    intros (v & t & p & z & -> & W & R & P & _) (v' & t' & p' & z' & -> & W' & R' & P' & _) M M' E.
    destruct z; [discriminate|]. destruct z'; [discriminate|].
    destruct (decimal_exists t) as (b & B). destruct (decimal_exists t') as (b' & B').
    destruct (commit_hash_binding H mv v t p v' t' p' (proj1 W) (proj1 W') R R' P P' b b' B B' E)
      as [(_ & _ & Ep)|(x & y & X & Y & N & C)]; [left; exact Ep|right].
    exists x, y. subst x y. repeat split; auto; [exists b|exists b']; split; auto.
  Qed.

  (** Two places with the same hash would lead back to the first commit. *)
  Lemma history_distinct bs cs : linked H None bs cs -> Forall (wf_commit H mv) cs ->
    forall i j c d, nth_error cs i = Some c -> nth_error cs j = Some d -> c_hash c = c_hash d ->
    i = j \/ collide H (fun x => exists c, In c cs /\ commit_input c x) (fun y => exists c, In c cs /\ commit_input c y).
  Proof.
    intros L W. pose proof (linked_plain _ _ _ _ L) as M. rewrite Forall_forall in W, M.
    assert (First : forall c, nth_error cs 0 = Some c -> c_parent c = None).
    { intros c E. destruct cs; [discriminate|]. injection E as ->. now apply linked_first in L. }
    induction i as [|i IH]; intros [|j] c d Ec Ed E; auto.
    all: pose proof (nth_error_In _ _ Ec) as Ic; pose proof (nth_error_In _ _ Ed) as Id;
      destruct (same_hash c d (W c Ic) (W d Id) (M c Ic) (M d Id) E) as [Ep|(x & y & X & Y & N & C)];
      [|right; exists x, y; repeat split; eauto].
    - destruct (linked_next _ _ _ _ L _ _ Ed) as (b & _ & Eb). rewrite (First c Ec) in Ep. congruence.
    - destruct (linked_next _ _ _ _ L _ _ Ec) as (b & _ & Eb). rewrite (First d Ed) in Ep. congruence.
    - destruct (linked_next _ _ _ _ L _ _ Ec) as (b & Nb & Eb). destruct (linked_next _ _ _ _ L _ _ Ed) as (b' & Nb' & Eb').
      destruct (IH j b b' Nb Nb' ltac:(congruence)); auto.
  Qed.

  Lemma fetch_distinct cs i c : nth_error cs i = Some c ->
    (forall j d, nth_error cs j = Some d -> c_hash c = c_hash d -> i = j) ->
    commits_fetch cs (c_hash c) = Ok c.
  Proof.
    intros E D. destruct (commits_fetch_spec cs (c_hash c)) as [(k & Ek & b & f & El & Eh & _)|(_ & F)].
    - rewrite Ek. f_equal. subst cs.
      assert (N : nth_error (b ++ k :: f) (length b) = Some k) by (rewrite nth_error_app2, Nat.sub_diag by lia; reflexivity).
      rewrite <- (D _ _ N ltac:(congruence)) in N. congruence.
    - rewrite Forall_forall in F. exfalso. apply (F c); auto. eapply nth_error_In; eauto.
  Qed.
End History.

(** ** Reading many *)
Lemma turns {A B} (one : A -> outcome B) (all : list A -> outcome (list B)) :
  all [] = Ok [] ->
  (forall x l, all (x :: l) = do r <- one x; do rs <- all l; Ok (r :: rs)) -> in_turn one all.
Proof.
  intros N C. split.
  - induction l as [|x l IH]; intros rs.
    + rewrite N. split; intros E; [injection E as <-; constructor|now inversion E].
    + rewrite C. split.
      * destruct (one x) as [r| | |] eqn:E; try discriminate. cbn [bind].
        destruct (all l) as [rs'| | |] eqn:E'; try discriminate. cbn [bind]. intros X. injection X as <-.
        constructor; auto. now apply IH.
      * intros F. inversion F as [|? r ? rs' Er F']; subst. rewrite Er. cbn [bind].
        apply IH in F'. now rewrite F'.
  - intros before x after F. induction F as [|y before (r & Er) F IH]; cbn [app]; rewrite C.
    + split; intros E; now rewrite E.
    + rewrite Er. cbn [bind]. destruct IH as [I1 I2]. split; intros E; [rewrite (I1 E)|rewrite (I2 E)]; reflexivity.
Qed.

(** ** Decisions *)
Lemma walk_dec (cs : list commit) :
  (forall i j c d, nth_error cs i = Some c -> nth_error cs j = Some d -> c_hash c = c_hash d -> i = j) \/
  (exists i j c d, nth_error cs i = Some c /\ nth_error cs j = Some d /\ c_hash c = c_hash d /\ i <> j).
Proof.
  induction cs as [|x cs IH].
  - left. intros i j c d E. destruct i; discriminate.
  - assert (D : (forall d, In d cs -> c_hash x <> c_hash d) \/ exists d, In d cs /\ c_hash x = c_hash d).
    { clear IH. induction cs as [|y cs IH]; [left; intros d []|].
      destruct (bytes_eq_dec (c_hash x) (c_hash y)) as [E|N]; [right; exists y; split; auto; now left|].
      destruct IH as [F|(d & I & E)]; [left|right; exists d; split; auto; now right].
      intros d [<-|I]; auto. }
    destruct D as [F|(d & I & E)].
    2:{ right. apply In_nth_error in I as (k & Ek). exists 0, (S k), x, d. repeat split; auto. }
    destruct IH as [Y|(i & j & c & d & Ei & Ej & E & N)].
    2:{ right. exists (S i), (S j), c, d. repeat split; auto. }
    left. intros [|i] [|j] c d Ei Ej E; cbn [nth_error] in *; auto.
    + injection Ei as <-. apply nth_error_In in Ej. now apply F in Ej.
    + injection Ej as <-. apply nth_error_In in Ei. apply F in Ei. congruence.
    + f_equal. eauto.
Qed.

Lemma last_or_none h (l : list content) :
  (exists c, last_such (fun c => ct_hash c = h) l c) \/ Forall (fun c => ct_hash c <> h) l.
Proof.
  induction l as [|x l IH]; [right; constructor|].
  destruct IH as [(c & b & f & -> & Ec & F)|F].
  - left. exists c, (x :: b), f. auto.
  - destruct (bytes_eq_dec (ct_hash x) h) as [E|N]; [left|right; constructor; auto].
    exists x, [], l. auto.
Qed.
