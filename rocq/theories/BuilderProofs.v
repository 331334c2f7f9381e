(** Every builder follows its rule: symbolic execution of [Now] over the set of fields that are given. *)
From Coq Require Import String List Bool NArith Lia.
From Verif Require Import Base BuilderModel SpecBuilder.
Import ListNotations.
Open Scope string_scope.
Open Scope list_scope.

Definition mem (f : string) (l : list string) : bool := existsb (String.eqb f) l.
Lemma mem_In : forall f l, mem f l = true <-> In f l.
Proof.
  intros f l. unfold mem. rewrite existsb_exists. split.
  - intros (x & I & E). apply String.eqb_eq in E. now subst.
  - intros I. exists f. split; [exact I|apply String.eqb_refl].
Qed.

(** Fields that [Now] sets to nil when they are empty slices. *)
Definition emptied (body : list stmt) (f : string) : bool :=
  existsb (fun s => match s with Empty g => String.eqb f g | _ => false end) body.
Definition wipe (E : string -> bool) (f : string) (v : gv) : gv :=
  match v with GSlice [] => if E f then GNil else v | _ => v end.

(** [Now] over the set of given fields. *)
Fixpoint sym (body : list stmt) (g : string -> bool) : option (list string) :=
  match body with
  | [] | Fail :: _ => None
  | FailUnless f :: rest => if g f then sym rest g else None
  | Empty _ :: rest => sym rest g
  | RetIf fs parts :: rest => if forallb g fs then Some parts else sym rest g
  | Ret parts :: _ => Some parts
  end.

(** Slices that are emptied are emptied before they are tested. *)
Fixpoint ordered (E : string -> bool) (done : list string) (body : list stmt) : bool :=
  match body with
  | [] => true
  | FailUnless f :: rest => (negb (E f) || mem f done) && ordered E done rest
  | Empty f :: rest => E f && ordered E (f :: done) rest
  | RetIf fs parts :: rest => forallb (fun f => negb (E f) || mem f done) fs &&
      forallb (fun f => negb (E f) || mem f done) parts && ordered E done rest
  | Ret parts :: _ => forallb (fun f => negb (E f) || mem f done) parts
  | Fail :: _ => true
  end.

Definition agrees (E : string -> bool) (st st' : state) : Prop := forall f, wipe E f (st' f) = wipe E f (st f).
Definition past (E : string -> bool) (done : list string) (st : state) : Prop :=
  forall f, E f = true -> In f done -> st f <> GSlice [].

Lemma wipe_done : forall E done st f, past E done st -> negb (E f) || mem f done = true -> wipe E f (st f) = st f.
Proof.
  intros E done st f P B. unfold wipe. destruct (st f) as [| | | |l| |] eqn:Es; try reflexivity.
  destruct l; [|reflexivity]. destruct (E f) eqn:Ef; [|reflexivity]. cbn in B. apply mem_In in B.
  destruct (P f Ef B Es).
Qed.

Lemma now_sym : forall E body done st g, ordered E done body = true -> past E done st ->
  (forall f, negb (unset (wipe E f (st f))) = g f) ->
  exists st', fst (now body st) = st' /\ agrees E st st' /\
    match sym body g with
    | None => snd (now body st) = Err
    | Some ks => snd (now body st) = Ok (create st' ks) /\ forall f, In f ks -> wipe E f (st' f) = st' f
    end.
Proof.
  intros E. induction body as [|s body IH]; intros done st g O P G; cbn [now sym].
  { exists st. split; [reflexivity|]. split; [intros f; reflexivity|reflexivity]. }
  destruct s as [f|f|fs parts|parts|]; cbn [ordered] in O.
  - apply andb_prop in O as (O1 & O2). pose proof (wipe_done E done st f P O1) as W. specialize (G f) as Gf.
    rewrite W in Gf. destruct (unset (st f)); cbn in Gf; rewrite <- Gf.
    + exists st. split; [reflexivity|]. split; [intros f0; reflexivity|reflexivity].
    + now apply (IH done).
  - apply andb_prop in O as (O1 & O2).
    set (st1 := match st f with GSlice [] => put st f GNil | _ => st end).
    assert (A : agrees E st st1).
    { intros h. unfold st1. destruct (st f) as [| | | |l| |] eqn:Es; try reflexivity. destruct l; [|reflexivity].
      unfold put. destruct (String.eqb_spec f h) as [<-|_]; [|reflexivity]. rewrite Es. cbn. now rewrite O1. }
    destruct (IH (f :: done) st1 g O2) as (st' & E1 & E2 & E3).
    + intros h Eh [<-|I].
      * unfold st1. destruct (st f) as [| | | |l| |] eqn:Es; try congruence. destruct l; [|congruence].
        unfold put. now rewrite String.eqb_refl.
      * unfold st1. pose proof (P h Eh I) as X. destruct (st f) as [| | | |l| |] eqn:Es; try exact X.
        destruct l; [|exact X]. unfold put. destruct (String.eqb f h); [discriminate|exact X].
    + intros h. now rewrite A.
    + exists st'. split; [exact E1|]. split; [|exact E3]. intros h. now rewrite E2, A.
  - apply andb_prop in O as (O & O2). apply andb_prop in O as (O1 & Op).
    assert (B : forallb (fun f => negb (unset (st f))) fs = forallb g fs).
    { clear -O1 P G. induction fs as [|f fs IH]; [reflexivity|]. cbn [forallb] in *. apply andb_prop in O1 as (O1 & O2).
      rewrite (IH O2), <- (G f), (wipe_done E done st f P O1). reflexivity. }
    rewrite B. destruct (forallb g fs).
    + exists st. split; [reflexivity|]. split; [intros f0; reflexivity|]. split; [reflexivity|].
      intros f I. apply (wipe_done E done); [exact P|]. rewrite forallb_forall in Op. now apply Op.
    + now apply (IH done).
  - exists st. split; [reflexivity|]. split; [intros f0; reflexivity|]. split; [reflexivity|].
    intros f I. apply (wipe_done E done); [exact P|]. rewrite forallb_forall in O. now apply O.
  - exists st. split; [reflexivity|]. split; [intros f0; reflexivity|reflexivity].
Qed.

(** *** The check of a builder against its rule *)
Fixpoint nodupb (l : list string) : bool :=
  match l with [] => true | x :: l => negb (mem x l) && nodupb l end.
Lemma nodupb_NoDup : forall l, nodupb l = true -> NoDup l.
Proof.
  induction l as [|x l IH]; cbn; intros B; [constructor|]. apply andb_prop in B as (B1 & B2). constructor; [|now apply IH].
  intros I. apply mem_In in I. now rewrite I in B1.
Qed.

Definition ktype (k : kind) (t : ftype) (e : bool) : bool :=
  match k, t, e with
  | Object, FRef, false | Number, FAddr, false | Text, FString, false | Count, FUint, false => true
  | Several, FSlice, true | Bytes, FSlice, false | Flag, FBool, false => true
  | _, _, _ => false
  end.

Definition setter_name (e : entry) : string := fst (fst e).
Definition part_name (e : entry) : string := snd e.
Definition given_of (g : string -> bool) (e : entry) : bool := g (part_name e).
Fixpoint first_given (g : string -> bool) (es : list entry) : list string :=
  match es with [] => [] | e :: es => if given_of g e then [part_name e] else first_given g es end.
Definition expected (r : rule) (g : string -> bool) : option (list string) :=
  if forallb (given_of g) (needs r) && (match oneof r with [] => true | _ => false end || existsb (given_of g) (oneof r))
  then Some (map part_name (needs r) ++ first_given g (oneof r) ++ map part_name (filter (given_of g) (may r)))
  else None.

Definition keepable (t : option ftype) : bool := match t with Some FRef | Some FBool => true | _ => false end.
Definition same_parts (b : builder) (fields : list string) (g : string -> bool) (o1 o2 : option (list string)) : bool :=
  match o1, o2 with
  | None, None => true
  | Some ks, Some ps =>
    forallb (fun p => Bool.eqb (mem p ks && g p) (mem p ps)) fields &&
    forallb (fun p => mem p fields && (g p || keepable (field_type (b_setters b) p))) ks
  | _, _ => false
  end.
Fixpoint subsets (l : list string) : list (list string) :=
  match l with [] => [[]] | x :: l => let r := subsets l in r ++ map (cons x) r end.
Definition mentions (s : stmt) : list string :=
  match s with FailUnless f => [f] | Empty f => [f] | RetIf fs ps => fs ++ ps | Ret ps => ps | Fail => [] end.

Definition check (b : builder) (r : rule) : bool :=
  let E := emptied (b_now b) in
  let fields := map (fun s => fst (snd s)) (b_setters b) in
  nodupb (map fst (b_setters b)) && nodupb fields &&
  nodupb (map setter_name (entries r)) && nodupb (map part_name (entries r)) &&
  forallb (fun e => match setter_of (b_setters b) (setter_name e) with
                    | Some (f, t) => String.eqb f (part_name e) && ktype (snd (fst e)) t (E f)
                    | None => false end) (entries r) &&
  forallb (fun f => mem f (map part_name (entries r))) fields &&
  ordered E [] (b_now b) &&
  forallb (fun f => mem f fields) (concat (map mentions (b_now b))) &&
  forallb (fun l => same_parts b fields (fun f => mem f l) (sym (b_now b) (fun f => mem f l)) (expected r (fun f => mem f l)))
    (subsets fields).

Lemma filter_subset : forall (g : string -> bool) l, In (filter g l) (subsets l).
Proof.
  intros g. induction l as [|x l IH]; cbn; [auto|]. apply in_or_app. destruct (g x); [right; now apply in_map|left; exact IH].
Qed.

Lemma forallb_ext_in : forall (A : Type) (f g : A -> bool) l, (forall x, In x l -> f x = g x) -> forallb f l = forallb g l.
Proof.
  intros A f g. induction l as [|x l IH]; intros X; cbn [forallb]; [reflexivity|].
  rewrite (X x (or_introl eq_refl)), IH; [reflexivity|]. intros y I. apply X. now right.
Qed.
Lemma existsb_ext_in : forall (A : Type) (f g : A -> bool) l, (forall x, In x l -> f x = g x) -> existsb f l = existsb g l.
Proof.
  intros A f g. induction l as [|x l IH]; intros X; cbn [existsb]; [reflexivity|].
  rewrite (X x (or_introl eq_refl)), IH; [reflexivity|]. intros y I. apply X. now right.
Qed.

Lemma sym_ext : forall g h body, (forall f, In f (concat (map mentions body)) -> g f = h f) -> sym body g = sym body h.
Proof.
  intros g h. induction body as [|s body IH]; intros X; [reflexivity|].
  assert (X1 : forall f, In f (mentions s) -> g f = h f) by (intros f I; apply X; cbn; apply in_or_app; now left).
  assert (X2 : sym body g = sym body h) by (apply IH; intros f I; apply X; cbn; apply in_or_app; now right).
  destruct s; cbn [sym]; rewrite ?X2; try reflexivity.
  - now rewrite (X1 f (or_introl eq_refl)).
  - rewrite (forallb_ext_in _ g h); [reflexivity|]. intros f I. apply X1. cbn. apply in_or_app. now left.
Qed.
Lemma expected_ext : forall g h r, (forall e, In e (entries r) -> given_of g e = given_of h e) -> expected r g = expected r h.
Proof.
  intros g h r X. unfold expected, entries in *.
  rewrite (forallb_ext_in _ (given_of g) (given_of h)) by (intros e I; apply X; apply in_or_app; now left).
  rewrite (existsb_ext_in _ (given_of g) (given_of h)) by (intros e I; apply X; apply in_or_app; right; apply in_or_app; now left).
  replace (filter (given_of g) (may r)) with (filter (given_of h) (may r)).
  2: { apply filter_ext_in. intros e I. symmetry. apply X. apply in_or_app. right. apply in_or_app. now right. }
  replace (first_given g (oneof r)) with (first_given h (oneof r)); [reflexivity|].
  assert (Y : forall e, In e (oneof r) -> given_of g e = given_of h e)
    by (intros e I; apply X; apply in_or_app; right; apply in_or_app; now left).
  clear X. induction (oneof r) as [|e es IH]; cbn [first_given]; [reflexivity|].
  rewrite (Y e (or_introl eq_refl)), IH; [reflexivity|]. intros x I. apply Y. now right.
Qed.

Lemma setter_of_In : forall ss s ft, setter_of ss s = Some ft -> In (s, ft) ss.
Proof.
  induction ss as [|(r, ft') ss IH]; cbn; intros s ft E; [discriminate|].
  destruct (String.eqb_spec r s) as [->|_]; [injection E as ->; now left|right; now apply IH].
Qed.
Lemma field_type_In : forall ss s f t, NoDup (map (fun s : string * (string * ftype) => fst (snd s)) ss) ->
  In (s, (f, t)) ss -> field_type ss f = Some t.
Proof.
  induction ss as [|(r, (f', t')) ss IH]; cbn; intros s f t N; [intros []|]. intros [E|I].
  - injection E as -> -> ->. now rewrite String.eqb_refl.
  - apply NoDup_cons_iff in N as (N1 & N2). destruct (String.eqb_spec f' f) as [->|_]; [|now apply (IH s)].
    destruct N1. now apply (in_map (fun s : string * (string * ftype) => fst (snd s)) ss (s, (f, t))).
Qed.
Lemma field_type_fields : forall ss f t, field_type ss f = Some t -> In f (map (fun s : string * (string * ftype) => fst (snd s)) ss).
Proof.
  induction ss as [|(r, (f', t')) ss IH]; cbn; intros f t E; [discriminate|].
  destruct (String.eqb_spec f' f) as [->|_]; [now left|right; now apply (IH f t)].
Qed.

Lemma last_arg_snoc : forall s cs c, last_arg s (cs ++ [c]) =
  match c with Set_ s' v => if String.eqb s s' then Some v else last_arg s cs | Now_ => last_arg s cs end.
Proof.
  intros s cs c. induction cs as [|d cs IH]; cbn [app last_arg].
  - destruct c; [|reflexivity]. now destruct (String.eqb s setter).
  - rewrite IH. destruct c as [s' v|]; [|reflexivity]. now destruct (String.eqb s s').
Qed.

Lemma NoDup_tail : forall (l m : list string), NoDup (l ++ m) -> NoDup m.
Proof. induction l as [|x l IH]; intros m N; [exact N|]. cbn in N. apply NoDup_cons_iff in N as (_ & N). now apply IH. Qed.
Lemma NoDup_front : forall (l m : list string), NoDup (l ++ m) -> NoDup l.
Proof.
  induction l as [|x l IH]; intros m N; [constructor|]. cbn in N. apply NoDup_cons_iff in N as (N1 & N2). constructor; [|now apply (IH m)].
  intros I. apply N1. apply in_or_app. now left.
Qed.

Section Checked.
  Variables (b : builder) (r : rule).
  Hypothesis C : check b r = true.

  Let E := emptied (b_now b).
  Let fields := map (fun s : string * (string * ftype) => fst (snd s)) (b_setters b).

  Lemma checked : NoDup (map fst (b_setters b)) /\ NoDup fields /\ NoDup (map setter_name (entries r)) /\
    NoDup (map part_name (entries r)) /\
    (forall s k p, In (s, k, p) (entries r) -> exists t, setter_of (b_setters b) s = Some (p, t) /\ ktype k t (E p) = true) /\
    (forall f, In f fields -> exists s k, In (s, k, f) (entries r)) /\
    ordered E [] (b_now b) = true /\
    (forall f, In f (concat (map mentions (b_now b))) -> In f fields) /\
    (forall g, same_parts b fields (fun f => mem f (filter g fields)) (sym (b_now b) g) (expected r g) = true).
  Proof.
    unfold check in C. fold E in C. fold fields in C.
    repeat match goal with H : _ && _ = true |- _ => apply andb_prop in H as (H & ?) end.
    assert (PE : forall s k p, In (s, k, p) (entries r) -> exists t, setter_of (b_setters b) s = Some (p, t) /\ ktype k t (E p) = true).
    { intros s k p I. match goal with H : forallb _ (entries r) = true |- _ => rewrite forallb_forall in H; specialize (H _ I) end.
      unfold setter_name, part_name in *. cbn [fst snd] in *.
      destruct (setter_of (b_setters b) s) as [(f, t)|]; [|discriminate].
      match goal with K : _ && _ = true |- _ => apply andb_prop in K as (K & Kt); apply String.eqb_eq in K; subst f end.
      exists t. now split. }
    assert (M : forall f, In f (concat (map mentions (b_now b))) -> In f fields).
    { match goal with H : forallb _ (concat _) = true |- _ => rewrite forallb_forall in H; intros f I; apply mem_In; now apply H end. }
    split; [now apply nodupb_NoDup|]. split; [now apply nodupb_NoDup|]. split; [now apply nodupb_NoDup|].
    split; [now apply nodupb_NoDup|]. split; [exact PE|]. split.
    { intros f I. match goal with H : forallb (fun f => mem f (map part_name (entries r))) fields = true |- _ => rewrite forallb_forall in H; specialize (H _ I) end.
      match goal with H : mem f _ = true |- _ => apply mem_In in H; apply in_map_iff in H as (((s, k), p) & <- & X) end. now exists s, k. }
    split; [assumption|]. split; [exact M|].
    intros g. match goal with H : forallb _ (subsets fields) = true |- _ => rewrite forallb_forall in H; specialize (H _ (filter_subset g fields)) end.
    assert (X : forall f, In f fields -> mem f (filter g fields) = g f).
    { intros f I. destruct (mem f (filter g fields)) eqn:Em.
      - apply mem_In in Em. apply filter_In in Em as (_ & Em). now rewrite Em.
      - destruct (g f) eqn:Eg; [|reflexivity]. rewrite <- Em. apply mem_In. apply filter_In. now split. }
    rewrite (sym_ext g (fun f => mem f (filter g fields))) by (intros f I; symmetry; apply X; now apply M).
    rewrite (expected_ext g (fun f => mem f (filter g fields))); [assumption|].
    intros ((s, k), p) I. unfold given_of, part_name. cbn [snd]. symmetry. apply X.
    destruct (PE s k p I) as (t & St & _). apply setter_of_In in St.
    apply (in_map (fun s : string * (string * ftype) => fst (snd s))) in St. exact St.
  Qed.

  Lemma entry_unique : forall s k p k' p', In (s, k, p) (entries r) -> In (s, k', p') (entries r) -> k = k' /\ p = p'.
  Proof.
    destruct checked as (_ & _ & N & _). intros s k p k' p' I1 I2. revert N I1 I2. induction (entries r) as [|e es IH]; [intros _ []|].
    cbn [map]. intros N I1 I2. apply NoDup_cons_iff in N as (N1 & N2).
    destruct I1 as [->|I1], I2 as [E2|I2].
    - injection E2 as -> ->. now split.
    - destruct N1. apply (in_map setter_name) in I2. exact I2.
    - destruct N1. rewrite E2. apply (in_map setter_name) in I1. exact I1.
    - now apply IH.
  Qed.
  Lemma part_unique : forall s k p s' k', In (s, k, p) (entries r) -> In (s', k', p) (entries r) -> s = s' /\ k = k'.
  Proof.
    destruct checked as (_ & _ & _ & N & _). intros s k p s' k' I1 I2. revert N I1 I2. induction (entries r) as [|e es IH]; [intros _ []|].
    cbn [map]. intros N I1 I2. apply NoDup_cons_iff in N as (N1 & N2).
    destruct I1 as [->|I1], I2 as [E2|I2].
    - injection E2 as -> ->. now split.
    - destruct N1. apply (in_map part_name) in I2. exact I2.
    - destruct N1. rewrite E2. apply (in_map part_name) in I1. exact I1.
    - now apply IH.
  Qed.

  Lemma last_arg_fits : forall cs s k p v, Forall (call_ok r) cs -> In (s, k, p) (entries r) -> last_arg s cs = Some v -> fits_kind k v.
  Proof.
    induction cs as [|c cs IH]; intros s k p v F I L; [discriminate|]. cbn [last_arg] in L. inversion F as [|? ? Fc Fs]; subst.
    destruct (last_arg s cs) eqn:El.
    - injection L as ->. now apply (IH s k p).
    - destruct c as [s' v'|]; [|discriminate]. destruct (String.eqb_spec s s') as [<-|_]; [|discriminate]. injection L as ->.
      destruct Fc as (k' & p' & I' & Ft). destruct (entry_unique _ _ _ _ _ I I') as (-> & _). exact Ft.
  Qed.

  (** The fields after some calls. *)
  Lemma state_after : forall cs, Forall (call_ok r) cs -> forall s k p t, In (s, k, p) (entries r) -> setter_of (b_setters b) s = Some (p, t) ->
    wipe E p (fold_left (do_call b) cs (fresh b) p) =
    wipe E p (match last_arg s cs with Some v => assigned t v | None => zero t end).
  Proof.
    destruct checked as (_ & N & _ & _ & PE & _ & O & _ & _).
    intros cs. induction cs as [|c cs IH] using rev_ind; intros F s k p t I St.
    - cbn. unfold fresh. now rewrite (field_type_In _ s p t N (setter_of_In _ _ _ St)).
    - apply Forall_app in F as (F1 & F2). inversion F2 as [|? ? Fc _]; subst.
      rewrite fold_left_app, last_arg_snoc. cbn [fold_left]. specialize (IH F1 s k p t I St).
      set (st := fold_left (do_call b) cs (fresh b)) in *. destruct c as [s' v|]; cbn [do_call].
      + destruct Fc as (k' & p' & I' & _). destruct (PE _ _ _ I') as (t' & St' & _). rewrite St'. unfold put.
        destruct (String.eqb_spec s s') as [<-|Ns].
        * destruct (entry_unique _ _ _ _ _ I I') as (-> & ->). rewrite St in St'. injection St' as <-. now rewrite String.eqb_refl.
        * destruct (String.eqb_spec p' p) as [->|_]; [|exact IH]. destruct (part_unique _ _ _ _ _ I I') as (X & _). now destruct Ns.
      + destruct (now_sym E (b_now b) [] st _ O (fun f _ (i : In f []) => match i with end) (fun f => eq_refl)) as (st' & <- & A & _).
        rewrite A. exact IH.
  Qed.

  Definition got (cs : list call) (f : string) : bool := negb (unset (wipe E f (fold_left (do_call b) cs (fresh b) f))).

  Lemma got_given : forall cs, Forall (call_ok r) cs -> forall s k p, In (s, k, p) (entries r) ->
    got cs p = (if given cs (s, k, p) then true else false) /\
    (got cs p = true -> exists v, given cs (s, k, p) = Some v /\ fits_kind k v /\ counts k v = true /\
       exists t, ktype k t (E p) = true /\ wipe E p (fold_left (do_call b) cs (fresh b) p) = wipe E p (assigned t v)).
  Proof.
    destruct checked as (_ & _ & _ & _ & PE & _). intros cs F s k p I. destruct (PE _ _ _ I) as (t & St & Kt).
    pose proof (state_after cs F s k p t I St) as X. unfold got. rewrite X. cbn [given].
    destruct (last_arg s cs) as [v|] eqn:L.
    - pose proof (last_arg_fits cs s k p v F I L) as Ft.
      assert (Y : negb (unset (wipe E p (assigned t v))) = counts k v).
      { destruct k, t, (E p) eqn:Ep; try discriminate Kt; destruct v as [|n|[|c q]|[|n]|[|x l]|[|]|w]; try destruct Ft; cbn; rewrite ?Ep; reflexivity. }
      rewrite Y. destruct (counts k v) eqn:Cv; (split; [reflexivity|]); intros D; [|discriminate].
      exists v. repeat (split; [first [reflexivity|assumption]|]). exists t. now split.
    - split; [|intros D]; destruct k, t, (E p) eqn:Ep; try discriminate Kt; cbn in *; try reflexivity; discriminate.
  Qed.

  Lemma part_create : forall st p ks, part p (create st ks) =
    if mem p ks then match deref (st p) with GNil | GBool false => None | v => Some v end else None.
  Proof.
    intros st p. unfold create. induction ks as [|q ks IH]; cbn [map part]; [reflexivity|]. cbn [mem existsb].
    rewrite (String.eqb_sym p q). destruct (String.eqb_spec q p) as [->|_]; [cbn [orb]|exact IH].
    now destruct (deref (st p)) as [| | | | |[|]|].
  Qed.

  Lemma follows : forall cs, Forall (call_ok r) cs ->
    (enough r cs /\ exists o, built b cs = Ok o /\ holds_given r cs o) \/ (~ enough r cs /\ built b cs = Err).
  Proof.
    intros cs F. destruct checked as (_ & Nf & _ & Np & PE & Fe & O & M & S). specialize (S (got cs)).
    set (st := fold_left (do_call b) cs (fresh b)) in *.
    destruct (now_sym E (b_now b) [] st (got cs) O (fun f _ (i : In f []) => match i with end) (fun f => eq_refl)) as (st' & _ & A & R).
    unfold built. fold st. pose proof (got_given cs F) as G.
    assert (En : forall e, In e (entries r) -> (given_of (got cs) e = true <-> is_given cs e)).
    { intros ((s, k), p) I. destruct (G s k p I) as (X & _). unfold given_of, part_name, is_given. cbn [snd]. rewrite X.
      destruct (given cs (s, k, p)); split; congruence. }
    assert (In1 : forall e, In e (needs r) -> In e (entries r)) by (intros; apply in_or_app; now left).
    assert (In2 : forall e, In e (oneof r) -> In e (entries r)) by (intros; apply in_or_app; right; apply in_or_app; now left).
    assert (In3 : forall e, In e (may r) -> In e (entries r)) by (intros; apply in_or_app; right; apply in_or_app; now right).
    assert (Dec : forallb (given_of (got cs)) (needs r) && (match oneof r with [] => true | _ => false end || existsb (given_of (got cs)) (oneof r)) = true <-> enough r cs).
    { rewrite andb_true_iff, orb_true_iff, forallb_forall, existsb_exists. split.
      - intros (X & Y). split; [intros e I; apply En; auto|]. destruct Y as [Y|(e & I & Y)]; [left; now destruct (oneof r)|].
        right. exists e. split; [exact I|]. apply En; auto.
      - intros (X & Y). split; [intros e I; apply En; auto|]. destruct Y as [->|(e & I & Y)]; [now left|]. right. exists e. split; [exact I|]. apply En; auto. }
    unfold expected in S. destruct (forallb (given_of (got cs)) (needs r) && _) eqn:B.
    2: { right. split; [intros X; apply Dec in X; congruence|]. destruct (sym (b_now b) (got cs)); [discriminate|exact R]. }
    left. split; [now apply Dec|]. destruct (sym (b_now b) (got cs)) as [ks|]; [|discriminate].
    destruct R as (R & W). exists (create st' ks). split; [exact R|]. cbn [same_parts] in S. apply andb_prop in S as (S1 & S2).
    rewrite forallb_forall in S1, S2.
    assert (Gf : forall p, In p fields -> mem p (filter (got cs) fields) = got cs p).
    { intros p I. destruct (mem p (filter (got cs) fields)) eqn:Em.
      - apply mem_In in Em. apply filter_In in Em as (_ & Em). now rewrite Em.
      - destruct (got cs p) eqn:Eg; [|reflexivity]. rewrite <- Em. apply mem_In. apply filter_In. now split. }
    assert (Inf : forall s k p, In (s, k, p) (entries r) -> In p fields).
    { intros s k p I. destruct (PE s k p I) as (t & St & _). apply setter_of_In in St.
      apply (in_map (fun s : string * (string * ftype) => fst (snd s))) in St. exact St. }
    set (ps := map part_name (needs r) ++ first_given (got cs) (oneof r) ++ map part_name (filter (given_of (got cs)) (may r))) in *.
    (* The part of an entry is what was given if it is among the expected parts, and absent otherwise. *)
    assert (Val : forall s k p, In (s, k, p) (entries r) -> part p (create st' ks) = if mem p ps then given cs (s, k, p) else None).
    { intros s k p I. rewrite part_create. pose proof (S1 p (Inf _ _ _ I)) as X. apply Bool.eqb_prop in X. rewrite Gf in X by eauto.
      rewrite <- X. destruct (mem p ks) eqn:Mk; cbn [andb]; [|reflexivity].
      apply mem_In in Mk. specialize (S2 p Mk). apply andb_prop in S2 as (_ & S2). rewrite Gf in S2 by eauto.
      specialize (W p Mk). specialize (A p). rewrite W in A.
      destruct (G s k p I) as (Gg & Gv). destruct (got cs p) eqn:Gp.
      - destruct (Gv eq_refl) as (v & -> & Ft & Cv & t & Kt & Ev). fold st in Ev. rewrite A, Ev.
        clear -Ft Cv Kt. destruct k, t, (E p) eqn:Ep; try discriminate Kt;
          destruct v as [|n|[|c q]|[|n]|[|x l]|[|]|w]; try destruct Ft; try discriminate Cv; cbn; rewrite ?Ep; reflexivity.
      - cbn [orb] in S2. destruct (PE s k p I) as (t & St & Kt).
        rewrite (field_type_In _ s p t Nf (setter_of_In _ _ _ St)) in S2.
        pose proof (state_after cs F s k p t I St) as Y. fold st in Y. unfold got in Gp. fold st in Gp.
        apply negb_false_iff in Gp. rewrite <- A in Gp, Y.
        destruct (last_arg s cs) as [v|] eqn:L; [pose proof (last_arg_fits cs s k p v F I L) as Ft|].
        + rewrite Y. rewrite Y in Gp. clear -Ft Kt S2 Gp. destruct k, t; try discriminate S2; try discriminate Kt;
            destruct v as [|n|[|c q]|[|n]|[|x l]|[|]|w]; try destruct Ft; cbn in *; try reflexivity; discriminate.
        + rewrite Y. now destruct t. }
    assert (Pu : forall s k p e, In (s, k, p) (entries r) -> In e (entries r) -> part_name e = p -> e = (s, k, p)).
    { intros s k p ((s', k'), p') I I' <-. cbn in *. destruct (part_unique _ _ _ _ _ I I') as (-> & ->). reflexivity. }
    apply andb_prop in B as (B1 & B2). rewrite forallb_forall in B1.
    (* Parts of one list are not parts of another. *)
    unfold entries in Np. rewrite !map_app in Np.
    assert (Dis : forall a c d : list string, NoDup (a ++ c ++ d) -> forall x, (In x a -> ~ In x c /\ ~ In x d) /\ (In x c -> ~ In x a /\ ~ In x d) /\ (In x d -> ~ In x a /\ ~ In x c)).
    { clear. intros a c d N x.
      assert (H1 : forall (l m : list string), NoDup (l ++ m) -> In x l -> In x m -> False).
      { clear. induction l as [|y l IH]; cbn; intros m N I J; [destruct I|]. apply NoDup_cons_iff in N as (N1 & N2).
        destruct I as [->|I]; [apply N1; apply in_or_app; now right|now apply (IH m)]. }
      assert (N' : NoDup (c ++ d)) by now apply NoDup_tail in N.
      repeat split; intros J; try (eapply H1; [exact N|eassumption|]; apply in_or_app; auto; fail); eauto;
        try (eapply (H1 c d); eassumption). }
    specialize (Dis _ _ _ Np).
    assert (Fg : forall q, In q (first_given (got cs) (oneof r)) -> In q (map part_name (oneof r))).
    { intros q. clear. induction (oneof r) as [|e es IH]; cbn; [intros []|]. destruct (given_of (got cs) e); cbn; [|auto].
      intros [<-|[]]. now left. }
    split; [|split].
    - intros s k p I. apply in_app_or in I as [I|I].
      + rewrite (Val s k p) by auto. replace (mem p ps) with true; [reflexivity|]. symmetry. apply mem_In. unfold ps.
        apply in_or_app. left. apply (in_map part_name) in I. exact I.
      + rewrite (Val s k p) by auto. destruct (mem p ps) eqn:Mp; [reflexivity|].
        destruct (given cs (s, k, p)) eqn:Eg; [|reflexivity]. exfalso.
        apply not_true_iff_false in Mp. apply Mp. apply mem_In. unfold ps. apply in_or_app. right. apply in_or_app. right.
        apply (in_map part_name _ (s, k, p)). apply filter_In. split; [exact I|]. apply En; [auto|]. unfold is_given. congruence.
    - intros before s k p after Eo.
      assert (I : In (s, k, p) (oneof r)) by (rewrite Eo; apply in_or_app; right; now left).
      rewrite (Val s k p) by auto.
      assert (Io : In p (map part_name (oneof r))) by (apply (in_map part_name) in I; exact I).
      assert (Mp : mem p ps = mem p (first_given (got cs) (oneof r))).
      { apply eq_true_iff_eq. rewrite !mem_In. unfold ps. split; [|intros J; apply in_or_app; right; apply in_or_app; now left].
        destruct (Dis p) as (_ & D & _). specialize (D Io) as (D1 & D2). intros J. apply in_app_or in J as [J|J]; [contradiction|].
        apply in_app_or in J as [J|J]; [exact J|]. destruct D2. apply in_map_iff in J as (e & <- & J). apply filter_In in J as (J & _). now apply in_map. }
      rewrite Mp.
      assert (Ex : existsb (fun e => if given cs e then true else false) before = existsb (given_of (got cs)) before).
      { apply existsb_ext_in. intros ((s', k'), p') J. assert (J' : In (s', k', p') (entries r)) by (apply In2; rewrite Eo; apply in_or_app; now left).
        destruct (G _ _ _ J') as (X & _). unfold given_of, part_name. cbn [snd]. now rewrite X. }
      rewrite Ex. rewrite Eo.
      assert (Nd : NoDup (map part_name (oneof r))) by (apply NoDup_tail in Np; now apply NoDup_front in Np).
      rewrite Eo in Nd. destruct (G s k p (In2 _ I)) as (X & _). clear -Nd X.
      induction before as [|e before IH]; cbn [app first_given existsb].
      + unfold given_of, part_name. cbn [snd]. rewrite X. destruct (given cs (s, k, p)) eqn:Eg.
        * cbn. now rewrite String.eqb_refl.
        * now destruct (mem p _).
      + cbn [app map] in Nd. apply NoDup_cons_iff in Nd as (N1 & N2). destruct (given_of (got cs) e); cbn [orb]; [|now apply IH].
        cbn. destruct (String.eqb_spec p (part_name e)) as [->|_]; [|reflexivity]. destruct N1. rewrite map_app.
        apply in_or_app. right. now left.
    - intros p Np'. rewrite part_create. destruct (mem p ks) eqn:Mk; [|reflexivity]. apply mem_In in Mk. specialize (S2 p Mk).
      apply andb_prop in S2 as (S2 & _). apply mem_In in S2. destruct (Fe p S2) as (s & k & I). now destruct (Np' s k).
  Qed.
End Checked.

(** All builders have a rule of the same name, and follow it. *)
Definition rule_of (f : string) : option rule := find (fun r => String.eqb (r_file r) f) rules.
Lemma all_checked : forallb (fun b => match rule_of (b_file b) with Some r => check b r | None => false end) builders = true.
Proof. vm_compute. reflexivity. Qed.
