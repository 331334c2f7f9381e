(** Property theorems for the builders of all libraries (C130, C131). *)
From Coq Require Import String List Bool NArith.
From Verif Require Import Base BuilderModel SpecBuilder BuilderProofs.
Import ListNotations.
Open Scope string_scope.
Open Scope list_scope.

(** *** C130 *)
(** Every builder has its rule; Now succeeds exactly if enough was given, and then the object holds what was given. *)
Theorem C130_builders_follow_their_rules : forall b, In b builders ->
  exists r, In r rules /\ r_file r = b_file b /\
    forall cs, Forall (call_ok r) cs ->
      (enough r cs -> exists o, built b cs = Ok o /\ holds_given r cs o) /\
      (~ enough r cs -> built b cs = Err).
Proof.
  intros b I. pose proof all_checked as C. rewrite forallb_forall in C. specialize (C b I).
  unfold rule_of in C. destruct (find _ rules) as [r|] eqn:Ef; [|discriminate].
  apply find_some in Ef as (Ir & Er). apply String.eqb_eq in Er. exists r. split; [exact Ir|]. split; [exact Er|].
  intros cs F. destruct (follows b r C cs F) as [(En & o & Eo & Ho)|(En & Eo)]; split; intros X; try contradiction; [|exact Eo].
  now exists o.
Qed.
Print Assumptions C130_builders_follow_their_rules.

(** The rules are those of the files, one each. *)
Theorem C130_one_rule_each : map r_file rules = map b_file builders /\ NoDup (map r_file rules).
Proof. split; [vm_compute; reflexivity|]. apply nodupb_NoDup. vm_compute. reflexivity. Qed.
Print Assumptions C130_one_rule_each.

Definition element_file : string := "libs/asts/domain/grammars/element_builder.go".
Definition builder_at (f : string) : option builder := find (fun b => String.eqb (b_file b) f) builders.
(** An element given a recursive name, then an external and a cardinality: the external counts. *)
Example C130_ex : match builder_at element_file with
  | Some b =>
    match built b [Set_ "WithRecursive" (GString "x"); Now_; Set_ "WithExternal" (GRef 3); Set_ "WithCardinality" (GRef 4)] with
    | Ok o => part "external" o = Some (GRef 3) /\ part "cardinality" o = Some (GRef 4) /\ part "recursive" o = None
    | _ => False
    end /\
    built b [Set_ "WithCardinality" (GRef 4); Set_ "WithRecursive" (GString "")] = Err /\
    built b [Set_ "WithRecursive" (GString "x"); Set_ "WithCardinality" (GRef 4); Set_ "WithCardinality" GNil] = Err
  | None => False
  end.
Proof. vm_compute. repeat split; reflexivity. Qed.
(** A cardinality may have any maximum, also one below its minimum. *)
Example C130_ex_max : match builder_at "libs/asts/domain/grammars/cardinalities/builder.go" with
  | Some b => built b [Set_ "WithMax" (GUint 0); Set_ "WithMin" (GUint 2)] = Ok [("pMin", GUint 2); ("pMax", GUint 0)]
  | None => False
  end.
Proof. vm_compute. reflexivity. Qed.

(** *** C131 *)
(** Two histories of calls that end with the same arguments build the same: neither the order of the setters,
    nor earlier arguments, nor earlier calls of Now matter. *)
Definition same_object (o o' : outcome object) : Prop :=
  match o, o' with
  | Ok x, Ok y => forall p, part p x = part p y
  | Err, Err => True
  | _, _ => False
  end.
Theorem C131_only_the_last_arguments_matter : forall b, In b builders ->
  forall r, In r rules -> r_file r = b_file b ->
  forall cs cs', Forall (call_ok r) cs -> Forall (call_ok r) cs' ->
  (forall s, last_arg s cs = last_arg s cs') -> same_object (built b cs) (built b cs').
Proof.
  intros b I r Ir Er cs cs' F F' L.
  destruct (C130_builders_follow_their_rules b I) as (r' & Ir' & Er' & X).
  assert (r' = r) as ->.
  { destruct C130_one_rule_each as (_ & N). rewrite <- Er in Er'. clear -Ir Ir' Er' N. induction rules as [|q l IH]; [destruct Ir|].
    cbn [map] in N. apply NoDup_cons_iff in N as (N1 & N2). destruct Ir as [->|Ir], Ir' as [->|Ir']; auto.
    - destruct N1. rewrite <- Er'. now apply in_map.
    - destruct N1. rewrite Er'. now apply in_map. }
  assert (G : forall e, given cs e = given cs' e) by (intros ((s, k), p); cbn; now rewrite L).
  assert (En : enough r cs <-> enough r cs').
  { unfold enough, is_given. split; intros (A & B); (split; [intros e J; specialize (A e J); rewrite G in *; exact A|]);
      (destruct B as [B|(e & J & B)]; [now left|right; exists e; split; [exact J|]; rewrite G in *; exact B]). }
  destruct (X cs F) as (Y1 & Y2), (X cs' F') as (Z1 & Z2).
  assert (D : enough r cs \/ ~ enough r cs).
  { pose proof all_checked as C. rewrite forallb_forall in C. specialize (C b I).
    unfold rule_of in C. destruct (find _ rules) as [q|] eqn:Ef; [|discriminate].
    apply find_some in Ef as (Iq & Eq). apply String.eqb_eq in Eq.
    assert (q = r) as ->.
    { destruct C130_one_rule_each as (_ & N). rewrite <- Er in Eq. clear -Ir Iq Eq N. induction rules as [|a l IH]; [destruct Ir|].
      cbn [map] in N. apply NoDup_cons_iff in N as (N1 & N2). destruct Ir as [->|Ir], Iq as [->|Iq]; auto.
      - destruct N1. rewrite <- Eq. now apply in_map.
      - destruct N1. rewrite Eq. now apply in_map. }
    destruct (follows b r C cs F) as [(E & _)|(E & _)]; auto. }
  destruct D as [D|D].
  2: { rewrite Y2, Z2; [exact Logic.I| |exact D]. now rewrite <- En. }
  destruct (Y1 D) as (o & -> & H1 & H2 & H3). destruct (Z1 (proj1 En D)) as (o' & -> & H1' & H2' & H3'). intros p.
  assert (K : forall s k, In (s, k, p) (entries r) -> part p o = part p o').
  { intros s k J. unfold entries in J. apply in_app_or in J as [J|J]; [|apply in_app_or in J as [J|J]].
    - rewrite (H1 s k p), (H1' s k p), G; [reflexivity| |]; apply in_or_app; now left.
    - apply in_split in J as (before & after & Eo). rewrite (H2 before s k p after Eo), (H2' before s k p after Eo), G.
      rewrite (existsb_ext_in _ (fun e => if given cs e then true else false) (fun e => if given cs' e then true else false)); [reflexivity|].
      intros e _. now rewrite G.
    - rewrite (H1 s k p), (H1' s k p), G; [reflexivity| |]; apply in_or_app; now right. }
  destruct (in_dec string_dec p (map part_name (entries r))) as [J|J].
  - apply in_map_iff in J as (((s, k), q) & Eq & J). cbn in Eq. subst q. now apply (K s k).
  - rewrite H3, H3'; [reflexivity| |]; intros s k Q; apply J; apply (in_map part_name) in Q; exact Q.
Qed.
Print Assumptions C131_only_the_last_arguments_matter.

Example C131_ex : match builder_at element_file with
  | Some b =>
    same_object (built b [Set_ "WithCardinality" (GRef 1); Set_ "WithValue" (GRef 2); Now_; Set_ "WithCardinality" (GRef 4)])
                (built b [Set_ "WithCardinality" (GRef 4); Set_ "WithValue" (GRef 2)])
  | None => False
  end.
Proof. vm_compute. intros p. destruct p as [|c p]; reflexivity. Qed.
