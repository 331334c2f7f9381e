(** What a user may expect of a builder: which calls are needed, which are alternatives, which are optional. *)
From Coq Require Import String List Bool NArith.
From Verif Require Import Base BuilderModel.
Import ListNotations.
Open Scope string_scope.
Open Scope list_scope.

(** The kinds of arguments. *)
Inductive kind : Type :=
| Object    (* an object; nil counts as not given *)
| Number    (* a number, hash or time; any value counts *)
| Text      (* a name; the empty one counts as not given *)
| Count     (* a number; 0 counts as not given *)
| Several   (* a list; nil and the empty list count as not given *)
| Bytes     (* bytes; only nil counts as not given *)
| Flag.     (* no argument *)

Definition fits_kind (k : kind) (v : gv) : Prop :=
  match k, v with
  | Object, GNil | Object, GRef _ | Number, GRef _ | Number, GUint _ | Text, GString _ | Count, GUint _ => True
  | Several, GNil | Several, GSlice _ | Bytes, GNil | Bytes, GSlice _ | Flag, GBool true => True
  | _, _ => False
  end.

Definition counts (k : kind) (v : gv) : bool :=
  match k, v with
  | Object, GNil | Several, GNil | Several, GSlice [] | Bytes, GNil | Text, GString "" | Count, GUint 0%N => false
  | _, _ => true
  end.

(** A setter, the kind of its argument, and the part of the built object it determines. *)
Definition entry : Type := string * kind * string.

(** All of [needs], one of [oneof] (the first given counts) unless that list is empty, and any of [may]. *)
Record rule : Type := Rule {
  r_file : string;
  needs : list entry;
  oneof : list entry;
  may : list entry
}.
Definition entries (r : rule) : list entry := needs r ++ oneof r ++ may r.

(** Calls a compiler accepts: setters of the builder with arguments of their kind, and Now. *)
Definition call_ok (r : rule) (c : call) : Prop :=
  match c with
  | Set_ s v => exists k p, In (s, k, p) (entries r) /\ fits_kind k v
  | Now_ => True
  end.

(** The last argument given to a setter, if it counts. *)
Fixpoint last_arg (s : string) (cs : list call) : option gv :=
  match cs with
  | [] => None
  | c :: cs =>
    match last_arg s cs, c with
    | Some v, _ => Some v
    | None, Set_ s' v => if String.eqb s s' then Some v else None
    | None, Now_ => None
    end
  end.
Definition given (cs : list call) (e : entry) : option gv :=
  let '(s, k, _) := e in
  match last_arg s cs with
  | Some v => if counts k v then Some v else None
  | None => None
  end.
Definition is_given (cs : list call) (e : entry) : Prop := given cs e <> None.

(** A part of an object, [None] if it is absent, nil or an unset flag. *)
Fixpoint part (p : string) (o : object) : option gv :=
  match o with
  | [] => None
  | (q, v) :: o => if String.eqb q p then (match v with GNil | GBool false => None | _ => Some v end) else part p o
  end.

(** Enough was given. *)
Definition enough (r : rule) (cs : list call) : Prop :=
  (forall e, In e (needs r) -> is_given cs e) /\ (oneof r = [] \/ exists e, In e (oneof r) /\ is_given cs e).

(** The object holds what was given last. Of the alternatives it holds the first one given. *)
Definition holds_given (r : rule) (cs : list call) (o : object) : Prop :=
  (forall s k p, In (s, k, p) (needs r ++ may r) -> part p o = given cs (s, k, p)) /\
  (forall before s k p after, oneof r = before ++ (s, k, p) :: after ->
     part p o = if existsb (fun e => if given cs e then true else false) before then None else given cs (s, k, p)) /\
  (forall p, (forall s k, ~ In (s, k, p) (entries r)) -> part p o = None).

(** The rules, by file of the builder. *)
Definition rules : list rule :=
  [
    Rule "libs/asts/domain/grammars/block_builder.go" [("WithLines", Several, "lines")]
      [] [];
    Rule "libs/asts/domain/grammars/builder.go" [("WithRoot", Object, "root")]
      [] [("WithChannels", Object, "channels")];
    Rule "libs/asts/domain/grammars/cardinalities/builder.go" [("WithMin", Number, "pMin")]
      [] [("WithMax", Number, "pMax")];
    Rule "libs/asts/domain/grammars/channel_builder.go" [("WithToken", Object, "token")]
      [] [("WithCondition", Object, "condition")];
    Rule "libs/asts/domain/grammars/channelcondition_builder.go" []
      [] [("WithPrevious", Object, "prev"); ("WithNext", Object, "next")];
    Rule "libs/asts/domain/grammars/channels_builder.go" [("WithList", Several, "list")]
      [] [];
    Rule "libs/asts/domain/grammars/compose_builder.go" [("WithName", Text, "name"); ("WithList", Several, "list")]
      [] [];
    Rule "libs/asts/domain/grammars/composeelement_builder.go" [("WithValue", Object, "value"); ("WithOccurences", Count, "occurences")]
      [] [];
    Rule "libs/asts/domain/grammars/container_builder.go" []
      [("WithElement", Object, "element"); ("WithCompose", Object, "compose")] [];
    Rule "libs/asts/domain/grammars/coverages/builder.go" [("WithList", Several, "list")]
      [] [];
    Rule "libs/asts/domain/grammars/coverages/coverage_builder.go" [("WithToken", Object, "token"); ("WithExecutions", Object, "executions")]
      [] [];
    Rule "libs/asts/domain/grammars/coverages/execution_builder.go" [("WithExpectation", Object, "expectation"); ("WithResult", Object, "result")]
      [] [];
    Rule "libs/asts/domain/grammars/coverages/executions_builder.go" [("WithList", Several, "list")]
      [] [];
    Rule "libs/asts/domain/grammars/coverages/result_builder.go" []
      [("WithTree", Object, "tree"); ("WithError", Text, "error")] [];
    Rule "libs/asts/domain/grammars/element_builder.go" [("WithCardinality", Object, "cardinality")]
      [("WithValue", Object, "value"); ("WithExternal", Object, "external"); ("WithInstance", Object, "instance"); ("WithRecursive", Text, "recursive")] [];
    Rule "libs/asts/domain/grammars/everything_builder.go" [("WithName", Text, "name"); ("WithException", Object, "exception")]
      [] [("WithEscape", Object, "escape")];
    Rule "libs/asts/domain/grammars/external_builder.go" [("WithName", Text, "name"); ("WithGrammar", Object, "grammar")]
      [] [];
    Rule "libs/asts/domain/grammars/instance_builder.go" []
      [("WithToken", Object, "token"); ("WithEverything", Object, "everything")] [];
    Rule "libs/asts/domain/grammars/line_builder.go" [("WithContainers", Several, "containers")]
      [] [];
    Rule "libs/asts/domain/grammars/suite_builder.go" []
      [("WithValid", Object, "valid"); ("WithInvalid", Object, "invalid")] [];
    Rule "libs/asts/domain/grammars/suites_builder.go" [("WithList", Several, "list")]
      [] [];
    Rule "libs/asts/domain/grammars/token_builder.go" [("WithName", Text, "name"); ("WithBlock", Object, "block")]
      [] [("WithSuites", Object, "suites")];
    Rule "libs/asts/domain/grammars/tokens_builder.go" [("WithList", Several, "list")]
      [] [];
    Rule "libs/asts/domain/grammars/values/builder.go" [("WithName", Text, "name"); ("WithNumber", Number, "pNumber")]
      [] [];
    Rule "libs/asts/domain/trees/block_builder.go" [("WithLines", Several, "lines")]
      [] [];
    Rule "libs/asts/domain/trees/builder.go" [("WithList", Several, "list")]
      [] [];
    Rule "libs/asts/domain/trees/content_builder.go" []
      [("WithValue", Object, "value"); ("WithTree", Object, "tree")] [];
    Rule "libs/asts/domain/trees/contents_builder.go" [("WithList", Several, "list")]
      [] [];
    Rule "libs/asts/domain/trees/element_builder.go" [("WithContents", Object, "contents")]
      [] [("WithGrammar", Object, "grammar")];
    Rule "libs/asts/domain/trees/elements_builder.go" [("WithList", Several, "list")]
      [] [];
    Rule "libs/asts/domain/trees/line_builder.go" [("WithIndex", Number, "pIndex"); ("WithGrammar", Object, "grammar")]
      [] [("IsReverse", Flag, "isReverse"); ("WithElements", Object, "elements")];
    Rule "libs/asts/domain/trees/tree_builder.go" [("WithGrammar", Object, "grammar"); ("WithBlock", Object, "block")]
      [] [("WithSuffix", Object, "suffix"); ("WithRemaining", Several, "remaining")];
    Rule "libs/asts/domain/trees/value_builder.go" [("WithContent", Number, "pContent")]
      [] [("WithPrefix", Object, "prefix")];
    Rule "libs/cryptography/domain/hashtrees/compact_builder.go" [("WithHead", Number, "pHead"); ("WithLeaves", Object, "leaves")]
      [] [];
    Rule "libs/cryptography/domain/hashtrees/leaf_builder.go" [("WithHead", Number, "pHead")]
      [] [("WithParent", Object, "parent")];
    Rule "libs/cryptography/domain/hashtrees/leaves_builder.go" [("WithList", Several, "list")]
      [] [];
    Rule "libs/cryptography/domain/hashtrees/parentleaf_builder.go" [("WithLeft", Object, "left"); ("WithRight", Object, "right")]
      [] [];
    Rule "libs/databases/domain/contents/builder.go" [("WithList", Several, "list")]
      [] [];
    Rule "libs/databases/domain/contents/content_builder.go" [("WithHash", Number, "pHash"); ("WithData", Several, "data"); ("WithKind", Number, "pKind")]
      [] [];
    Rule "libs/databases/domain/references/builder.go" [("WithContentKeys", Object, "contentKeys"); ("WithCommits", Object, "commits")]
      [] [];
    Rule "libs/databases/domain/references/commit_builder.go" [("WithValues", Object, "values"); ("CreatedOn", Number, "pCreatedOn")]
      [] [("WithParent", Number, "pParent"); ("WithProof", Object, "pProof")];
    Rule "libs/databases/domain/references/commits_builder.go" [("WithList", Several, "list")]
      [] [];
    Rule "libs/databases/domain/references/contentkey_builder.go" [("WithHash", Number, "pHash"); ("WithKind", Number, "pKind"); ("WithContent", Object, "content"); ("WithCommit", Number, "pCommit")]
      [] [];
    Rule "libs/databases/domain/references/contentkeys_builder.go" [("WithList", Several, "list")]
      [] [];
    Rule "libs/databases/domain/references/pointer_builder.go" [("From", Number, "pFrom"); ("WithLength", Count, "length")]
      [] [];
    Rule "libs/interpreters/domain/instructions/applications/builder.go" [("WithModule", Bytes, "module"); ("WithName", Bytes, "name")]
      [] [];
    Rule "libs/interpreters/domain/instructions/assignment_builder.go" [("WithVariable", Bytes, "variable"); ("WithValue", Object, "value")]
      [] [];
    Rule "libs/interpreters/domain/instructions/attachments/builder.go" [("WithVariable", Object, "variable"); ("WithApplication", Bytes, "application")]
      [] [];
    Rule "libs/interpreters/domain/instructions/attachments/variable_builder.go" [("WithCurrent", Bytes, "current"); ("WithTarget", Number, "pTarget")]
      [] [];
    Rule "libs/interpreters/domain/instructions/builder.go" [("WithList", Several, "list")]
      [] [("WithRemaining", Several, "remaining")];
    Rule "libs/interpreters/domain/instructions/instruction_builder.go" []
      [("WithModule", Object, "module"); ("WithApplication", Object, "application"); ("WithParameter", Object, "parameter"); ("WithAssignment", Object, "assignment"); ("WithAttachment", Object, "attachment"); ("WithExecution", Bytes, "execution")] [];
    Rule "libs/interpreters/domain/instructions/modules/builder.go" [("WithIndex", Number, "pIndex"); ("WithName", Bytes, "name")]
      [] [];
    Rule "libs/interpreters/domain/instructions/parameters/builder.go" [("WithName", Bytes, "name")]
      [] [("IsInput", Flag, "isInput")];
    Rule "libs/interpreters/domain/instructions/value_builder.go" []
      [("WithVariable", Bytes, "variable"); ("WithConstant", Bytes, "constant"); ("WithInstructions", Object, "instructions"); ("WithExecution", Bytes, "execution")] [];
    Rule "libs/interpreters/domain/programs/application_builder.go" [("WithIndex", Number, "pIndex"); ("WithModule", Object, "module")]
      [] [("WithAttachments", Object, "attachments")];
    Rule "libs/interpreters/domain/programs/attachment_builder.go" [("WithValue", Object, "value"); ("WithLocal", Number, "pLocal")]
      [] [];
    Rule "libs/interpreters/domain/programs/attachments_builder.go" [("WithList", Several, "list")]
      [] [];
    Rule "libs/interpreters/domain/programs/builder.go" [("WithInstructions", Object, "instructions")]
      [] [("WithOutputs", Several, "outputs")];
    Rule "libs/interpreters/domain/programs/instruction_builder.go" []
      [("WithValue", Object, "value"); ("WithExecution", Object, "execution")] [];
    Rule "libs/interpreters/domain/programs/instructions_builder.go" [("WithList", Several, "list")]
      [] [];
    Rule "libs/interpreters/domain/programs/modules/builder.go" [("WithList", Several, "list")]
      [] [];
    Rule "libs/interpreters/domain/programs/modules/module_builder.go" [("WithIndex", Number, "pIndex"); ("WithFunc", Object, "fn")]
      [] [];
    Rule "libs/interpreters/domain/programs/value_builder.go" []
      [("WithInput", Number, "pInput"); ("WithConstant", Bytes, "constant"); ("WithExecution", Object, "execution"); ("WithProgram", Object, "program")] [];
    Rule "libs/queries/domain/queries/builder.go" [("WithToken", Object, "token"); ("WithInside", Object, "inside"); ("WithFn", Object, "fn")]
      [] [];
    Rule "libs/queries/domain/queries/contentfn_builder.go" []
      [("WithSingle", Object, "single"); ("WithMulti", Object, "multi")] [];
    Rule "libs/queries/domain/queries/element_builder.go" [("WithName", Text, "name"); ("WithIndex", Number, "pIndex")]
      [] [];
    Rule "libs/queries/domain/queries/fetcher_builder.go" []
      [("WithRecursive", Text, "recursive"); ("WithQuery", Object, "query")] [];
    Rule "libs/queries/domain/queries/fetchers_builder.go" [("WithList", Several, "list")]
      [] [];
    Rule "libs/queries/domain/queries/inside_builder.go" []
      [("WithFn", Object, "fn"); ("WithFetchers", Object, "fetchers")] [];
    Rule "libs/queries/domain/queries/selectorfn_builder.go" []
      [("WithSingle", Object, "single"); ("WithMulti", Object, "multi")] [];
    Rule "libs/queries/domain/queries/token_builder.go" [("WithName", Text, "name"); ("WithReverseName", Text, "reverseName"); ("WithElement", Object, "element")]
      [] [("WithContent", Number, "pContent")]
  ].
