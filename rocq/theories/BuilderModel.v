(** Model of the builders of all libraries: the setters and [Now].

    Every builder of the code has the same shape: a struct of fields, a constructor with all fields
    at their zero value, setters that assign one field and return the builder, and [Now], a sequence of
    tests on single fields. The builders are therefore written down as programs of a small language, one
    statement per statement of the Go code. [Create] returns a new builder.
    The hash tree builder is not of this shape; it is in HashBuilderModel.v.
    The messages of errors are left out. Slices are values here; sharing them is the subject of C127 and C128. *)
From Coq Require Import String List Bool NArith.
From Verif Require Import Base.
Import ListNotations.
Open Scope string_scope.
Open Scope list_scope.

(** Values of fields and arguments. Objects are told apart by a number; [GAddr] is the address of a copy. *)
Inductive gv : Type :=
| GNil
| GRef (n : nat)
| GString (s : string)
| GUint (n : N)
| GSlice (l : list nat)
| GBool (b : bool)
| GAddr (v : gv).

(** Types of fields: [FRef] for interfaces, functions and *big.Int, assigned as they are;
    [FAddr] for pointers that are assigned the address of the argument, such as [app.pMin = &min]. *)
Inductive ftype : Type := FRef | FAddr | FString | FUint | FSlice | FBool.

(** The zero values of Go, as written out in the constructors (create...Builder). *)
Definition zero (t : ftype) : gv :=
  match t with
  | FRef | FAddr | FSlice => GNil
  | FString => GString ""
  | FUint => GUint 0
  | FBool => GBool false
  end.

(** What a setter assigns for its argument. A setter of a flag has no argument and assigns true. *)
Definition assigned (t : ftype) (v : gv) : gv :=
  match t with
  | FAddr => GAddr v
  | FBool => GBool true
  | _ => v
  end.

(** The tests of [Now]: [== nil], [== ""], [<= 0] and a flag that is not set. *)
Definition unset (v : gv) : bool :=
  match v with
  | GNil => true
  | GString s => String.eqb s ""
  | GUint n => N.eqb n 0
  | GBool b => negb b
  | _ => false
  end.

(** Statements of [Now].
    [FailUnless f]:    if app.f is unset { return nil, errors.New(...) }
    [Empty f]:         if app.f != nil && len(app.f) <= 0 { app.f = nil }
    [RetIf fs parts]:  if all app.fs are set { return create...(parts), nil }
    [Ret parts]:       return create...(parts), nil
    [Fail]:            return nil, errors.New(...) *)
Inductive stmt : Type :=
| FailUnless (f : string)
| Empty (f : string)
| RetIf (fs parts : list string)
| Ret (parts : list string)
| Fail.

Record builder : Type := Builder {
  b_file : string;
  b_setters : list (string * (string * ftype));
  b_now : list stmt
}.

Definition state : Type := string -> gv.
Definition put (st : state) (f : string) (v : gv) : state := fun g => if String.eqb f g then v else st g.

(** The built object, as the values of its parts; a pointer to a copy is read through. *)
Definition deref (v : gv) : gv := match v with GAddr w => w | _ => v end.
Definition object : Type := list (string * gv).
Definition create (st : state) (parts : list string) : object := map (fun f => (f, deref (st f))) parts.

Fixpoint now (body : list stmt) (st : state) : state * outcome object :=
  match body with
  | [] => (st, Err)
  | FailUnless f :: rest => if unset (st f) then (st, Err) else now rest st
  | Empty f :: rest => now rest (match st f with GSlice [] => put st f GNil | _ => st end)
  | RetIf fs parts :: rest =>
    if forallb (fun f => negb (unset (st f))) fs then (st, Ok (create st parts)) else now rest st
  | Ret parts :: _ => (st, Ok (create st parts))
  | Fail :: _ => (st, Err)
  end.

(** What a user calls on a builder. *)
Inductive call : Type := Set_ (setter : string) (v : gv) | Now_.

Fixpoint field_type (ss : list (string * (string * ftype))) (f : string) : option ftype :=
  match ss with
  | [] => None
  | (_, (g, t)) :: ss => if String.eqb g f then Some t else field_type ss f
  end.
Fixpoint setter_of (ss : list (string * (string * ftype))) (s : string) : option (string * ftype) :=
  match ss with
  | [] => None
  | (r, ft) :: ss => if String.eqb r s then Some ft else setter_of ss s
  end.

(** The state of a new builder. *)
Definition fresh (b : builder) : state := fun f =>
  match field_type (b_setters b) f with Some t => zero t | None => GNil end.

Definition do_call (b : builder) (st : state) (c : call) : state :=
  match c with
  | Set_ s v => match setter_of (b_setters b) s with Some (f, t) => put st f (assigned t v) | None => st end
  | Now_ => fst (now (b_now b) st)
  end.

(** The answer of [Now] after some calls on a new builder. *)
Definition built (b : builder) (cs : list call) : outcome object :=
  snd (now (b_now b) (fold_left (do_call b) cs (fresh b))).

(** The builders. Each entry names the file, the setters with the fields they assign, and the body of [Now]. *)
Definition builders : list builder :=
  [
    (** libs/asts/domain/grammars/block_builder.go:25-41 *)
    Builder "libs/asts/domain/grammars/block_builder.go"
      [("WithLines", ("lines", FSlice))]
      [Empty "lines"; FailUnless "lines"; Ret ["lines"]];
    (** libs/asts/domain/grammars/builder.go:27-49 *)
    Builder "libs/asts/domain/grammars/builder.go"
      [("WithRoot", ("root", FRef)); ("WithChannels", ("channels", FRef))]
      [FailUnless "root"; RetIf ["channels"] ["root"; "channels"]; Ret ["root"]];
    (** libs/asts/domain/grammars/cardinalities/builder.go:27-49 *)
    Builder "libs/asts/domain/grammars/cardinalities/builder.go"
      [("WithMin", ("pMin", FAddr)); ("WithMax", ("pMax", FAddr))]
      [FailUnless "pMin"; RetIf ["pMax"] ["pMin"; "pMax"]; Ret ["pMin"]];
    (** libs/asts/domain/grammars/channel_builder.go:27-49 *)
    Builder "libs/asts/domain/grammars/channel_builder.go"
      [("WithToken", ("token", FRef)); ("WithCondition", ("condition", FRef))]
      [FailUnless "token"; RetIf ["condition"] ["token"; "condition"]; Ret ["token"]];
    (** libs/asts/domain/grammars/channelcondition_builder.go:23-45 *)
    Builder "libs/asts/domain/grammars/channelcondition_builder.go"
      [("WithPrevious", ("prev", FRef)); ("WithNext", ("next", FRef))]
      [RetIf ["next"; "prev"] ["prev"; "next"]; RetIf ["next"] ["next"]; Ret ["prev"]];
    (** libs/asts/domain/grammars/channels_builder.go:25-41 *)
    Builder "libs/asts/domain/grammars/channels_builder.go"
      [("WithList", ("list", FSlice))]
      [Empty "list"; FailUnless "list"; Ret ["list"]];
    (** libs/asts/domain/grammars/compose_builder.go:27-53 *)
    Builder "libs/asts/domain/grammars/compose_builder.go"
      [("WithName", ("name", FString)); ("WithList", ("list", FSlice))]
      [FailUnless "name"; Empty "list"; FailUnless "list"; Ret ["name"; "list"]];
    (** libs/asts/domain/grammars/composeelement_builder.go:29-51 *)
    Builder "libs/asts/domain/grammars/composeelement_builder.go"
      [("WithValue", ("value", FRef)); ("WithOccurences", ("occurences", FUint))]
      [FailUnless "value"; FailUnless "occurences"; Ret ["value"; "occurences"]];
    (** libs/asts/domain/grammars/container_builder.go:25-47 *)
    Builder "libs/asts/domain/grammars/container_builder.go"
      [("WithElement", ("element", FRef)); ("WithCompose", ("compose", FRef))]
      [RetIf ["element"] ["element"]; RetIf ["compose"] ["compose"]; Fail];
    (** libs/asts/domain/grammars/coverages/builder.go:23-39 *)
    Builder "libs/asts/domain/grammars/coverages/builder.go"
      [("WithList", ("list", FSlice))]
      [Empty "list"; FailUnless "list"; Ret ["list"]];
    (** libs/asts/domain/grammars/coverages/coverage_builder.go:29-51 *)
    Builder "libs/asts/domain/grammars/coverages/coverage_builder.go"
      [("WithToken", ("token", FRef)); ("WithExecutions", ("executions", FRef))]
      [FailUnless "token"; FailUnless "executions"; Ret ["token"; "executions"]];
    (** libs/asts/domain/grammars/coverages/execution_builder.go:29-51 *)
    Builder "libs/asts/domain/grammars/coverages/execution_builder.go"
      [("WithExpectation", ("expectation", FRef)); ("WithResult", ("result", FRef))]
      [FailUnless "expectation"; FailUnless "result"; Ret ["expectation"; "result"]];
    (** libs/asts/domain/grammars/coverages/executions_builder.go:23-39 *)
    Builder "libs/asts/domain/grammars/coverages/executions_builder.go"
      [("WithList", ("list", FSlice))]
      [Empty "list"; FailUnless "list"; Ret ["list"]];
    (** libs/asts/domain/grammars/coverages/result_builder.go:29-51 *)
    Builder "libs/asts/domain/grammars/coverages/result_builder.go"
      [("WithTree", ("tree", FRef)); ("WithError", ("error", FString))]
      [RetIf ["tree"] ["tree"]; RetIf ["error"] ["error"]; Fail];
    (** libs/asts/domain/grammars/element_builder.go:36-92 *)
    Builder "libs/asts/domain/grammars/element_builder.go"
      [("WithCardinality", ("cardinality", FRef)); ("WithValue", ("value", FRef)); ("WithExternal", ("external", FRef)); ("WithInstance", ("instance", FRef)); ("WithRecursive", ("recursive", FString))]
      [FailUnless "cardinality"; RetIf ["value"] ["value"; "cardinality"]; RetIf ["external"] ["external"; "cardinality"]; RetIf ["instance"] ["instance"; "cardinality"]; RetIf ["recursive"] ["recursive"; "cardinality"]; Fail];
    (** libs/asts/domain/grammars/everything_builder.go:29-61 *)
    Builder "libs/asts/domain/grammars/everything_builder.go"
      [("WithName", ("name", FString)); ("WithException", ("exception", FRef)); ("WithEscape", ("escape", FRef))]
      [FailUnless "exception"; FailUnless "name"; RetIf ["escape"] ["name"; "exception"; "escape"]; Ret ["name"; "exception"]];
    (** libs/asts/domain/grammars/external_builder.go:27-49 *)
    Builder "libs/asts/domain/grammars/external_builder.go"
      [("WithName", ("name", FString)); ("WithGrammar", ("grammar", FRef))]
      [FailUnless "name"; FailUnless "grammar"; Ret ["name"; "grammar"]];
    (** libs/asts/domain/grammars/instance_builder.go:25-47 *)
    Builder "libs/asts/domain/grammars/instance_builder.go"
      [("WithToken", ("token", FRef)); ("WithEverything", ("everything", FRef))]
      [RetIf ["token"] ["token"]; RetIf ["everything"] ["everything"]; Fail];
    (** libs/asts/domain/grammars/line_builder.go:25-41 *)
    Builder "libs/asts/domain/grammars/line_builder.go"
      [("WithContainers", ("containers", FSlice))]
      [Empty "containers"; FailUnless "containers"; Ret ["containers"]];
    (** libs/asts/domain/grammars/suite_builder.go:27-50 *)
    Builder "libs/asts/domain/grammars/suite_builder.go"
      [("WithValid", ("valid", FRef)); ("WithInvalid", ("invalid", FRef))]
      [RetIf ["valid"] ["valid"]; RetIf ["invalid"] ["invalid"]; Fail];
    (** libs/asts/domain/grammars/suites_builder.go:25-41 *)
    Builder "libs/asts/domain/grammars/suites_builder.go"
      [("WithList", ("list", FSlice))]
      [Empty "list"; FailUnless "list"; Ret ["list"]];
    (** libs/asts/domain/grammars/token_builder.go:29-61 *)
    Builder "libs/asts/domain/grammars/token_builder.go"
      [("WithName", ("name", FString)); ("WithBlock", ("block", FRef)); ("WithSuites", ("suites", FRef))]
      [FailUnless "name"; FailUnless "block"; RetIf ["suites"] ["name"; "block"; "suites"]; Ret ["name"; "block"]];
    (** libs/asts/domain/grammars/tokens_builder.go:25-41 *)
    Builder "libs/asts/domain/grammars/tokens_builder.go"
      [("WithList", ("list", FSlice))]
      [Empty "list"; FailUnless "list"; Ret ["list"]];
    (** libs/asts/domain/grammars/values/builder.go:27-49 *)
    Builder "libs/asts/domain/grammars/values/builder.go"
      [("WithName", ("name", FString)); ("WithNumber", ("pNumber", FAddr))]
      [FailUnless "name"; FailUnless "pNumber"; Ret ["name"; "pNumber"]];
    (** libs/asts/domain/trees/block_builder.go:23-51
      Simplified: what is computed from the parts is left out (see AstModel.v). *)
    Builder "libs/asts/domain/trees/block_builder.go"
      [("WithLines", ("lines", FSlice))]
      [Empty "lines"; FailUnless "lines"; Ret ["lines"]];
    (** libs/asts/domain/trees/builder.go:23-39 *)
    Builder "libs/asts/domain/trees/builder.go"
      [("WithList", ("list", FSlice))]
      [Empty "list"; FailUnless "list"; Ret ["list"]];
    (** libs/asts/domain/trees/content_builder.go:27-49 *)
    Builder "libs/asts/domain/trees/content_builder.go"
      [("WithValue", ("value", FRef)); ("WithTree", ("tree", FRef))]
      [RetIf ["value"] ["value"]; RetIf ["tree"] ["tree"]; Fail];
    (** libs/asts/domain/trees/contents_builder.go:23-39 *)
    Builder "libs/asts/domain/trees/contents_builder.go"
      [("WithList", ("list", FSlice))]
      [Empty "list"; FailUnless "list"; Ret ["list"]];
    (** libs/asts/domain/trees/element_builder.go:29-51 *)
    Builder "libs/asts/domain/trees/element_builder.go"
      [("WithGrammar", ("grammar", FRef)); ("WithContents", ("contents", FRef))]
      [FailUnless "contents"; RetIf ["grammar"] ["contents"; "grammar"]; Ret ["contents"]];
    (** libs/asts/domain/trees/elements_builder.go:23-49
      Simplified: what is computed from the parts is left out (see AstModel.v). *)
    Builder "libs/asts/domain/trees/elements_builder.go"
      [("WithList", ("list", FSlice))]
      [Empty "list"; FailUnless "list"; Ret ["list"]];
    (** libs/asts/domain/trees/line_builder.go:33-71 *)
    Builder "libs/asts/domain/trees/line_builder.go"
      [("WithIndex", ("pIndex", FAddr)); ("WithGrammar", ("grammar", FRef)); ("IsReverse", ("isReverse", FBool)); ("WithElements", ("elements", FRef))]
      [FailUnless "pIndex"; FailUnless "grammar"; RetIf ["elements"] ["pIndex"; "grammar"; "isReverse"; "elements"]; Ret ["pIndex"; "grammar"; "isReverse"]];
    (** libs/asts/domain/trees/tree_builder.go:33-83 *)
    Builder "libs/asts/domain/trees/tree_builder.go"
      [("WithGrammar", ("grammar", FRef)); ("WithBlock", ("block", FRef)); ("WithSuffix", ("suffix", FRef)); ("WithRemaining", ("remaining", FSlice))]
      [FailUnless "grammar"; FailUnless "block"; Empty "remaining"; RetIf ["remaining"; "suffix"] ["grammar"; "block"; "suffix"; "remaining"]; RetIf ["remaining"] ["grammar"; "block"; "remaining"]; RetIf ["suffix"] ["grammar"; "block"; "suffix"]; Ret ["grammar"; "block"]];
    (** libs/asts/domain/trees/value_builder.go:27-49 *)
    Builder "libs/asts/domain/trees/value_builder.go"
      [("WithContent", ("pContent", FAddr)); ("WithPrefix", ("prefix", FRef))]
      [FailUnless "pContent"; RetIf ["prefix"] ["pContent"; "prefix"]; Ret ["pContent"]];
    (** libs/cryptography/domain/hashtrees/compact_builder.go:29-51 *)
    Builder "libs/cryptography/domain/hashtrees/compact_builder.go"
      [("WithHead", ("pHead", FAddr)); ("WithLeaves", ("leaves", FRef))]
      [FailUnless "pHead"; FailUnless "leaves"; Ret ["pHead"; "leaves"]];
    (** libs/cryptography/domain/hashtrees/leaf_builder.go:29-51 *)
    Builder "libs/cryptography/domain/hashtrees/leaf_builder.go"
      [("WithHead", ("pHead", FAddr)); ("WithParent", ("parent", FRef))]
      [FailUnless "pHead"; RetIf ["parent"] ["pHead"; "parent"]; Ret ["pHead"]];
    (** libs/cryptography/domain/hashtrees/leaves_builder.go:23-39 *)
    Builder "libs/cryptography/domain/hashtrees/leaves_builder.go"
      [("WithList", ("list", FSlice))]
      [Empty "list"; FailUnless "list"; Ret ["list"]];
    (** libs/cryptography/domain/hashtrees/parentleaf_builder.go:25-47 *)
    Builder "libs/cryptography/domain/hashtrees/parentleaf_builder.go"
      [("WithLeft", ("left", FRef)); ("WithRight", ("right", FRef))]
      [FailUnless "left"; FailUnless "right"; Ret ["left"; "right"]];
    (** libs/databases/domain/contents/builder.go:23-45
      Simplified: what is computed from the parts is left out (see RefModel.v). *)
    Builder "libs/databases/domain/contents/builder.go"
      [("WithList", ("list", FSlice))]
      [Empty "list"; FailUnless "list"; Ret ["list"]];
    (** libs/databases/domain/contents/content_builder.go:31-67 *)
    Builder "libs/databases/domain/contents/content_builder.go"
      [("WithHash", ("pHash", FAddr)); ("WithData", ("data", FSlice)); ("WithKind", ("pKind", FAddr))]
      [FailUnless "pHash"; FailUnless "pKind"; Empty "data"; FailUnless "data"; Ret ["pHash"; "data"; "pKind"]];
    (** libs/databases/domain/references/builder.go:27-49 *)
    Builder "libs/databases/domain/references/builder.go"
      [("WithContentKeys", ("contentKeys", FRef)); ("WithCommits", ("commits", FRef))]
      [FailUnless "contentKeys"; FailUnless "commits"; Ret ["contentKeys"; "commits"]];
    (** libs/databases/domain/references/commit_builder.go:47-137
      Simplified: what is computed from the parts is left out (see RefModel.v). *)
    Builder "libs/databases/domain/references/commit_builder.go"
      [("WithValues", ("values", FRef)); ("WithParent", ("pParent", FAddr)); ("WithProof", ("pProof", FRef)); ("CreatedOn", ("pCreatedOn", FAddr))]
      [FailUnless "values"; FailUnless "pCreatedOn"; RetIf ["pParent"; "pProof"] ["values"; "pCreatedOn"; "pParent"; "pProof"]; RetIf ["pParent"] ["values"; "pCreatedOn"; "pParent"]; RetIf ["pProof"] ["values"; "pCreatedOn"; "pProof"]; Ret ["values"; "pCreatedOn"]];
    (** libs/databases/domain/references/commits_builder.go:23-45
      Simplified: what is computed from the parts is left out (see RefModel.v). *)
    Builder "libs/databases/domain/references/commits_builder.go"
      [("WithList", ("list", FSlice))]
      [Empty "list"; FailUnless "list"; Ret ["list"]];
    (** libs/databases/domain/references/contentkey_builder.go:33-75 *)
    Builder "libs/databases/domain/references/contentkey_builder.go"
      [("WithHash", ("pHash", FAddr)); ("WithKind", ("pKind", FAddr)); ("WithContent", ("content", FRef)); ("WithCommit", ("pCommit", FAddr))]
      [FailUnless "pHash"; FailUnless "pKind"; FailUnless "content"; FailUnless "pCommit"; Ret ["pHash"; "pKind"; "content"; "pCommit"]];
    (** libs/databases/domain/references/contentkeys_builder.go:23-45
      Simplified: what is computed from the parts is left out (see RefModel.v). *)
    Builder "libs/databases/domain/references/contentkeys_builder.go"
      [("WithList", ("list", FSlice))]
      [Empty "list"; FailUnless "list"; Ret ["list"]];
    (** libs/databases/domain/references/pointer_builder.go:31-47 *)
    Builder "libs/databases/domain/references/pointer_builder.go"
      [("From", ("pFrom", FAddr)); ("WithLength", ("length", FUint))]
      [FailUnless "pFrom"; FailUnless "length"; Ret ["pFrom"; "length"]];
    (** libs/interpreters/domain/instructions/applications/builder.go:25-47 *)
    Builder "libs/interpreters/domain/instructions/applications/builder.go"
      [("WithModule", ("module", FSlice)); ("WithName", ("name", FSlice))]
      [FailUnless "module"; FailUnless "name"; Ret ["module"; "name"]];
    (** libs/interpreters/domain/instructions/assignment_builder.go:25-47 *)
    Builder "libs/interpreters/domain/instructions/assignment_builder.go"
      [("WithVariable", ("variable", FSlice)); ("WithValue", ("value", FRef))]
      [FailUnless "variable"; FailUnless "value"; Ret ["variable"; "value"]];
    (** libs/interpreters/domain/instructions/attachments/builder.go:25-47 *)
    Builder "libs/interpreters/domain/instructions/attachments/builder.go"
      [("WithVariable", ("variable", FRef)); ("WithApplication", ("application", FSlice))]
      [FailUnless "variable"; FailUnless "application"; Ret ["variable"; "application"]];
    (** libs/interpreters/domain/instructions/attachments/variable_builder.go:25-47 *)
    Builder "libs/interpreters/domain/instructions/attachments/variable_builder.go"
      [("WithCurrent", ("current", FSlice)); ("WithTarget", ("pTarget", FAddr))]
      [FailUnless "current"; FailUnless "pTarget"; Ret ["current"; "pTarget"]];
    (** libs/interpreters/domain/instructions/builder.go:24-54 *)
    Builder "libs/interpreters/domain/instructions/builder.go"
      [("WithList", ("list", FSlice)); ("WithRemaining", ("remaining", FSlice))]
      [Empty "list"; FailUnless "list"; Empty "remaining"; RetIf ["remaining"] ["list"; "remaining"]; Ret ["list"]];
    (** libs/interpreters/domain/instructions/instruction_builder.go:40-102 *)
    Builder "libs/interpreters/domain/instructions/instruction_builder.go"
      [("WithModule", ("module", FRef)); ("WithApplication", ("application", FRef)); ("WithParameter", ("parameter", FRef)); ("WithAssignment", ("assignment", FRef)); ("WithAttachment", ("attachment", FRef)); ("WithExecution", ("execution", FSlice))]
      [RetIf ["module"] ["module"]; RetIf ["application"] ["application"]; RetIf ["parameter"] ["parameter"]; RetIf ["assignment"] ["assignment"]; RetIf ["attachment"] ["attachment"]; RetIf ["execution"] ["execution"]; Fail];
    (** libs/interpreters/domain/instructions/modules/builder.go:25-47 *)
    Builder "libs/interpreters/domain/instructions/modules/builder.go"
      [("WithIndex", ("pIndex", FAddr)); ("WithName", ("name", FSlice))]
      [FailUnless "pIndex"; FailUnless "name"; Ret ["pIndex"; "name"]];
    (** libs/interpreters/domain/instructions/parameters/builder.go:25-47 *)
    Builder "libs/interpreters/domain/instructions/parameters/builder.go"
      [("WithName", ("name", FSlice)); ("IsInput", ("isInput", FBool))]
      [FailUnless "name"; RetIf ["isInput"] ["name"; "isInput"]; Ret ["name"]];
    (** libs/interpreters/domain/instructions/value_builder.go:29-71 *)
    Builder "libs/interpreters/domain/instructions/value_builder.go"
      [("WithVariable", ("variable", FSlice)); ("WithConstant", ("constant", FSlice)); ("WithInstructions", ("instructions", FRef)); ("WithExecution", ("execution", FSlice))]
      [RetIf ["variable"] ["variable"]; RetIf ["constant"] ["constant"]; RetIf ["instructions"] ["instructions"]; RetIf ["execution"] ["execution"]; Fail];
    (** libs/interpreters/domain/programs/application_builder.go:31-63 *)
    Builder "libs/interpreters/domain/programs/application_builder.go"
      [("WithIndex", ("pIndex", FAddr)); ("WithModule", ("module", FRef)); ("WithAttachments", ("attachments", FRef))]
      [FailUnless "pIndex"; FailUnless "module"; RetIf ["attachments"] ["pIndex"; "module"; "attachments"]; Ret ["pIndex"; "module"]];
    (** libs/interpreters/domain/programs/attachment_builder.go:25-47 *)
    Builder "libs/interpreters/domain/programs/attachment_builder.go"
      [("WithValue", ("value", FRef)); ("WithLocal", ("pLocal", FAddr))]
      [FailUnless "value"; FailUnless "pLocal"; Ret ["value"; "pLocal"]];
    (** libs/interpreters/domain/programs/attachments_builder.go:25-41 *)
    Builder "libs/interpreters/domain/programs/attachments_builder.go"
      [("WithList", ("list", FSlice))]
      [Empty "list"; FailUnless "list"; Ret ["list"]];
    (** libs/interpreters/domain/programs/builder.go:27-53 *)
    Builder "libs/interpreters/domain/programs/builder.go"
      [("WithInstructions", ("instructions", FRef)); ("WithOutputs", ("outputs", FSlice))]
      [FailUnless "instructions"; Empty "outputs"; RetIf ["outputs"] ["instructions"; "outputs"]; Ret ["instructions"]];
    (** libs/interpreters/domain/programs/instruction_builder.go:25-47 *)
    Builder "libs/interpreters/domain/programs/instruction_builder.go"
      [("WithValue", ("value", FRef)); ("WithExecution", ("execution", FRef))]
      [RetIf ["value"] ["value"]; RetIf ["execution"] ["execution"]; Fail];
    (** libs/interpreters/domain/programs/instructions_builder.go:25-41 *)
    Builder "libs/interpreters/domain/programs/instructions_builder.go"
      [("WithList", ("list", FSlice))]
      [Empty "list"; FailUnless "list"; Ret ["list"]];
    (** libs/interpreters/domain/programs/modules/builder.go:25-47
      Simplified: what is computed from the parts is left out (see InterpModel.v). *)
    Builder "libs/interpreters/domain/programs/modules/builder.go"
      [("WithList", ("list", FSlice))]
      [Empty "list"; FailUnless "list"; Ret ["list"]];
    (** libs/interpreters/domain/programs/modules/module_builder.go:25-47 *)
    Builder "libs/interpreters/domain/programs/modules/module_builder.go"
      [("WithIndex", ("pIndex", FAddr)); ("WithFunc", ("fn", FRef))]
      [FailUnless "pIndex"; FailUnless "fn"; Ret ["pIndex"; "fn"]];
    (** libs/interpreters/domain/programs/value_builder.go:31-73 *)
    Builder "libs/interpreters/domain/programs/value_builder.go"
      [("WithInput", ("pInput", FAddr)); ("WithConstant", ("constant", FSlice)); ("WithExecution", ("execution", FRef)); ("WithProgram", ("program", FRef))]
      [RetIf ["pInput"] ["pInput"]; RetIf ["constant"] ["constant"]; RetIf ["execution"] ["execution"]; RetIf ["program"] ["program"]; Fail];
    (** libs/queries/domain/queries/builder.go:29-61 *)
    Builder "libs/queries/domain/queries/builder.go"
      [("WithToken", ("token", FRef)); ("WithInside", ("inside", FRef)); ("WithFn", ("fn", FRef))]
      [FailUnless "token"; FailUnless "inside"; FailUnless "fn"; Ret ["token"; "inside"; "fn"]];
    (** libs/queries/domain/queries/contentfn_builder.go:25-47 *)
    Builder "libs/queries/domain/queries/contentfn_builder.go"
      [("WithSingle", ("single", FRef)); ("WithMulti", ("multi", FRef))]
      [RetIf ["single"] ["single"]; RetIf ["multi"] ["multi"]; Fail];
    (** libs/queries/domain/queries/element_builder.go:25-47 *)
    Builder "libs/queries/domain/queries/element_builder.go"
      [("WithName", ("name", FString)); ("WithIndex", ("pIndex", FAddr))]
      [FailUnless "name"; FailUnless "pIndex"; Ret ["name"; "pIndex"]];
    (** libs/queries/domain/queries/fetcher_builder.go:25-47 *)
    Builder "libs/queries/domain/queries/fetcher_builder.go"
      [("WithRecursive", ("recursive", FString)); ("WithQuery", ("query", FRef))]
      [RetIf ["recursive"] ["recursive"]; RetIf ["query"] ["query"]; Fail];
    (** libs/queries/domain/queries/fetchers_builder.go:23-39 *)
    Builder "libs/queries/domain/queries/fetchers_builder.go"
      [("WithList", ("list", FSlice))]
      [Empty "list"; FailUnless "list"; Ret ["list"]];
    (** libs/queries/domain/queries/inside_builder.go:25-47 *)
    Builder "libs/queries/domain/queries/inside_builder.go"
      [("WithFn", ("fn", FRef)); ("WithFetchers", ("fetchers", FRef))]
      [RetIf ["fn"] ["fn"]; RetIf ["fetchers"] ["fetchers"]; Fail];
    (** libs/queries/domain/queries/selectorfn_builder.go:25-47 *)
    Builder "libs/queries/domain/queries/selectorfn_builder.go"
      [("WithSingle", ("single", FRef)); ("WithMulti", ("multi", FRef))]
      [RetIf ["single"] ["single"]; RetIf ["multi"] ["multi"]; Fail];
    (** libs/queries/domain/queries/token_builder.go:29-71 *)
    Builder "libs/queries/domain/queries/token_builder.go"
      [("WithName", ("name", FString)); ("WithReverseName", ("reverseName", FString)); ("WithElement", ("element", FRef)); ("WithContent", ("pContent", FAddr))]
      [FailUnless "name"; FailUnless "reverseName"; FailUnless "element"; RetIf ["pContent"] ["name"; "reverseName"; "element"; "pContent"]; Ret ["name"; "reverseName"; "element"]]
  ].
