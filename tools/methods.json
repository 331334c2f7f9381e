{
"C01":["HashModel","case analysis on the length"],
"C02":["HashModel","case analysis; witness `sha512(x)` for every x"],
"C03":["HashModel","induction on the bytes"],
"C04":["HashTreeModel","induction on the depth of perfect trees"],
"C05":["HashTreeModel","C04 for the positive part; computation for the empty list"],
"C06":["HashTreeModel","induction on the depth, against the relation `merkle`"],
"C07":["HashTreeModel","induction on `merkle` derivations; the collision is looked for among the strings hashed (`merkle_input`)"],
"C08":["HashTreeModel","witnesses for all blocks"],
"C09":["HashTreeModel","induction on the depth"],
"C10":["HashTreeModel","rebuilding the perfect tree from its leaves, induction on the depth"],
"C11":["HashTreeModel","induction on the leaves, lookups in the permuted list"],
"C12":["HashTreeModel","counting leaves"],
"C13":["HashTreeModel codecs","induction on trees, for every backing array behind the slice"],
"C14":["HashTreeModel codecs","induction on the list of leaves"],
"C15":["all decoders","a panicking input per decoder; a decreasing measure (unread bytes) for termination"],
"C16":["RefModel codecs","arithmetic of 64-bit fields"],
"C17":["RefModel","induction on the list; lookups against `last_such`, `selects`, `greatest`"],
"C18":["RefModel","arithmetic of 64-bit fields, C13"],
"C19":["RefModel","for every negative proof"],
"C20":["RefModel","induction on the list"],
"C21":["RefModel","induction on the list"],
"C22":["RefModel","decimal texts and fixed widths make the hashed string parseable; witnesses with proofs"],
"C23":["RefModel","induction on the leading bytes"],
"C24":["DbModel, DbSession","invariant `synced` (file bytes, reference in memory, list of batches) kept by every operation"],
"C25":["DbModel, DbSession","invariant, codecs of C13-C21"],
"C26":["DbModel","induction on the copied chunks, for every session whose data is no whole number of chunks"],
"C27":["DbModel","inversion of a successful commit, from any state"],
"C28":["DbModel","inversion of a successful commit, from any state"],
"C29":["DbModel, DbSession","induction on the writes"],
"C30":["DbModel, DbSession","invariant"],
"C31":["DbModel","case analysis, from any state"],
"C32":["DbModel","frame of Write, from any state"],
"C33":["DbModel","case analysis, from any state"],
"C34":["DbModel","induction on the operations; an execution for the refutation"],
"C35":["DbModel","case analysis on the directory"],
"C36":["DbModel (`commit_states`)","case analysis over the program's system calls; induction on loops; an execution for the refutation"],
"C37":["DbModel, DbSession","two applications on one file system, invariant for each"],
"C38":["DbModel, DbSession","invariant"],
"C40":["AstModel","induction on the call bound (`token_run_trace`)"],
"C41":["AstModel","induction on the call bound"],
"C42":["AstModel","well-founded measure (bytes left, size of the rest of the grammar)"],
"C43":["AstModel","for every call bound and every input starting with the byte"],
"C44":["AstModel","induction on the call bound"],
"C45":["AstModel","induction on the call bound"],
"C46":["AstModel","induction on the call bound, against the relation `derives` of SpecAst"],
"C47":["AstModel","induction on the line"],
"C48":["AstModel","induction on the lines"],
"C49":["AstModel","induction on the call bound"],
"C50":["AstModel","induction on the call bound"],
"C51":["AstModel","induction on the input"],
"C52":["CoverModel","induction on the list; arithmetic of unsigned counters for the refutation"],
"C53":["CoverModel","case analysis; induction on coverages"],
"C60":["InterpModel","refinement: compiled programs against the direct interpreter of SpecInterp, induction on instructions and nested lists"],
"C61":["InterpModel","induction on instructions"],
"C62":["InterpModel","induction on instructions"],
"C63":["InterpModel","induction on instructions, for any continuation"],
"C64":["InterpModel","induction on programs"],
"C65":["InterpModel","induction on instructions, both directions, against `scoped`"],
"C70":["QueryModel","induction on the query depth; witnesses"],
"C71":["QueryModel","induction on the query depth"],
"C72":["QueryModel","case analysis; C40 for parsed trees"],
"C73":["HashTreeModel codecs","inversion of successful decoding"],
"C74":["HashTreeModel codecs","witness: two backing arrays"],
"C75":["HashTreeModel","induction on the pairing of leaves"],
"C76":["DbModel (`commit_states`)","frame over every system call, every lock state, every failing write"],
"C77":["DbModel, DbSession","invariant"],
"C78":["DbModel","inodes outlive names; frame on the old inode"],
"C79":["DbModel","for every bound on the loop"],
"C80":["DbModel","frame over failing writes"],
"C81":["DbModel","interleaving of two programs"],
"C82":["DbModel, DbSession","invariant"],
"C83":["DbModel","for every file with such a beginning"],
"C84":["DbModel","case analysis; witness"],
"C85":["DbModel","induction on the operations"],
"C86":["DbModel, DbMultiProofs","invariant for each database and separation of inodes and handles"],
"C87":["DbModel","case analysis over the points of failure, all failing writes"],
"C88":["DbModel","case analysis on the lock table"],
"C89":["AstModel, SpecPeg","induction on the call bound, both directions, against parsing expressions; C42 for totality"],
"C90":["AstModel","greedy repetition, for all bytes and counts"],
"C91":["AstModel","induction on the line"],
"C92":["AstModel","case analysis, for all exceptions of that shape"],
"C93":["AstModel","induction on the call bound"],
"C94":["AstModel","for every input of that shape"],
"C95":["AstModel","for every input; witness"],
"C96":["CoverModel, CoverBlameProofs","induction on tokens and suites; failures are traced to the suite that causes them"],
"C97":["CoverModel","induction on the traversal, against reachability"],
"C98":["CoverModel","induction on coverages"],
"C99":["CoverModel","induction on trees; witness"],
"C100":["CoverModel","induction on trees, against the relation `part`"],
"C101":["CoverModel","witness"],
"C102":["InterpModel","C60 with `eval` unfolding variables"],
"C103":["InterpModel","witness: a module that counts its calls"],
"C104":["InterpModel","induction on n, a program with n assignments and 2^n calls"],
"C105":["InterpModel","C60"],
"C106":["InterpModel","induction on instructions, for every injective renaming"],
"C107":["InterpModel","sorted association lists; C60"],
"C108":["QueryModel","induction on the query"],
"C109":["QueryModel","refinement against the relation `means` of SpecQuery, both directions"],
"C110":["QueryModel","substitution lemma, induction on the query"],
"C111":["QueryModel","witness: the same query twice"],
"C112":["QueryModel","induction on fetchers"],
"C113":["QueryModel","witness per combination"],
"C114":["AstModel, SpecPeg","induction on the values of a line"],
"C115":["GrammarModel","C42: the grammar is guarded (checked by computation), for every text"],
"C116":["GrammarModel","C89 and C114 for the shipped grammar, for every text"],
"C117":["GrammarModel","C89 and induction on the text"],
"C118":["SpecText, GrammarTextProofs, PropText, GrammarModel","induction on the text, UTF-8 decoding as in Go's range loop"],
"C119":["AstModel, SpecCond","induction on rounds and on the values of a line"],
"C120":["AstModel, SpecCond","for every grammar of that shape"],
"C121":["AstModel, SpecCond","C119 and extensionality of rounds"],
"C122":["DbModel, DbHistoryProofs","induction on the place in the history; C22"],
"C123":["DbModel","induction on the list; invariant"],
"C124":["DbModel, SpecDb","the front of the file depends on hashes, kinds and lengths only; invariant of sessions"],
"C125":["HashTreeModel, RefModel, DbModel","round trip of every well-formed tree; inversion of the decoders"],
"C126":["RefModel, DbModel","round trip of every reference (C20)"],
"C127":["DbModel, DbShared","refinement: the pending list holds places in memory; induction on the session"],
"C128":["HashBuilderModel","memory of arrays and slices; append in place or with a new array"],
"C129":["HashBuilderModel","as C128, for any builder state"],
"C130":["BuilderModel, SpecBuilder","builders as programs; symbolic execution over the set of given fields, sound for every state, checked for every builder by computation"],
"C131":["BuilderModel, SpecBuilder","C130; the rules depend on the last arguments only"],
"C132":["AstModel, SpecAst","corollary of C45"],
"C133":["AstModel, SpecRename","the whole parser commutes with the map; induction on the bound and on every loop"],
"C134":["AstModel, SpecRename","as C133"],
"C135":["AstModel, SpecRename","as C133, with suites erased"],
"C136":["HashTreeModel","induction over the leaves of the tree"],
"C137":["DbModel, DbConcurrent","interleavings of two programs of system calls; Open changes nothing that others see"],
"C138":["DbModel, DbConcurrent","C137; what the other sees is one of the crash states of the commit (C36)"],
"C139":["DbModel, DbConcurrent","invariant of Open over every sequence of crash states; explicit interleavings for every session"],
"C140":["DbModel, DbConcurrent","invariant: the lock on the file, and who has it, as long as the name stands for it"],
"C141":["DbModel, DbConcurrent","explicit interleavings for every session"],
"C142":["DbModel, DbConcurrent","explicit interleaving for every session"],
"C143":["AstModel, SpecRec","induction on the call bound; invariant on the stack map: what it records of a token is longer than what a recursive call gets"],
"C144":["AstModel, SpecRec","as C143, with the entry of the token in the stack map as the state of the line"],
"C145":["AstModel, SpecRec","the stack map only loses entries; invariant before each line: what earlier lines refer to is gone, or the values before it do not match"],
"C146":["HashFloat","real analysis: bounds of the logarithm of 1+x, error of a rounded quotient"],
"C147":["DbCrowd, DbConcurrent","projection of a schedule of many processes to one of two; C137 - C139"],
"C148":["DbCrowd, DbConcurrent","invariant over schedules of any number of processes: one commit runs alone under the lock, or the file is gone; readers watch the states in between"],
"C149":["DbModel, DbEndProofs","invariant of the source file under all system calls, the distance to its end as a measure; induction on the fuel for the hang"],
"C150":["RefModel, RefCanonProofs","inversion of every slice expression of the decoders, against the round trips; induction on the loops"],
"C151":["DbModel, DbSizeProofs","the shown history of a session; size of a perfect tree by induction on its depth, of the chain by induction on the batches"],
"C152":["PathModel, SpecPath, PathProofs", "filepath.Clean as a loop over bytes with its output buffer, against walks through elements; invariant of the loop"],
"C153":["PathModel, PathSimProofs, PathAliasProofs", "simulation between the tree of all places and the single directory, system call by system call, then by induction on the calls"],
"C154":["PathModel, PathAliasProofs", "the shown history of a session, carried along the simulation to a context opened under another name"],
"C155":["DbModel, SpecPower, DbPowerProofs", "invariant of the new file over all states of a commit; a disk made of several states; decoding of every prefix of a file"],
"C156":["DbThreads, SpecThreads, DbThreadProofs, DbThreadProofs2", "simulation of each call by the sequential model, field access by field access"],
"C157":["DbThreads, SpecThreads, DbThreadProofs2, DbThreadProofs3", "invariant of what a reader of another database sees, over all states of each call; induction on the schedule"],
"C158":["DbThreads, SpecThreads, DbThreadProofs2", "induction on the schedule"],
"C159":["DbThreads, SpecThreads, DbThreadProofs3, DbThreadProofs4", "the states of a commit in four stages, and what a reader can put together from stages that only go up; an explicit schedule"],
"C160":["DbThreads, DbThreadProofs4", "an explicit schedule, from any memory"],
"C161":["DbThreads, DbThreadProofs4", "an explicit schedule, from any memory"],
"C162":["DbThreads, DbThreadProofs4", "an explicit schedule; the commit with a reference from before the write and the pending contents from after it"],
"C163":["DbThreads, SpecThreads, DbThreadProofs5", "what one reader can see in any of the states of the call, with or without an error; induction on the schedule"],
"C164":["DbThreads, DbThreadProofs4, DbThreadProofs5", "an explicit schedule: one Commit between the reference and the file of the other"],
"C165":["DbThreads, DbThreadProofs4, DbThreadProofs5, SpecPower", "an explicit schedule: the Cancel between the reference and the file; the file is the beginning of the one of the history"],
"C166":["AstModel, SpecLeft, AstLeftProofs", "what the stack map holds before each line: exactly the lines tried so far on the same data; the reference deletes it"],
"C167":["DbDescriptors, SpecDescriptors, DbDescriptorProofs, DbDescriptorProofs2, DbDescriptorProofs4", "the numbers of the open connections as an invariant; each step with a number is the step without it"],
"C168":["DbDescriptors, SpecDescriptors, DbDescriptorProofs3, DbDescriptorProofs5", "an explicit schedule: the second Commit between the Close of the old connection and the Open of the new one of the first"],
"C169":["DbDescriptors, SpecDescriptors, DbDescriptorProofs4, DbDescriptorProofs5", "the lowest free number is the lost one, so the next Open gets it"],
"C170":["DbDirModel, SpecDir, PropDir", "the context without a history as an invariant of the calls; the lock of a directory is refused"],
"C171":["SpecCount, AstCountProofs, PropCount", "the parser with a count in the map it hands on; induction on the depth for the count, and a simulation for the tree"],
"C172":["SpecCount, AstCostProofs, PropCount", "each match takes a byte, so loops are short; induction on the depth of the tokens with a bound for escapes, then the bound is compared with a power"],
"C173":["SpecRecover, DbRecoverProofs, PropRecover", "the states of C36 meet the hypotheses of Open; a renamed side file does too; then the induction over sessions of C24"],
"C174":["SpecRecover, DbRecoverProofs, PropRecover", "the crash state without the name is a directory in which a session can start; C77 for the last commit of that session"],
"C175":["SpecAssign, GrammarAssignProofs, PropAssign", "ordered choices by excluding the earlier lines on the byte where they fail; repetitions by induction; blanks and comments by the lemma of C116"],
"C176":["SpecAssign, GrammarAssignProofs, PropAssign", "induction over the elements: a name is read up to the first byte that is not a letter, so another element can only start after a cardinality"],
"C177":["SpecText, GrammarTextProofs, PropText", "the suite spells the text; C118 for what the token makes of it; no container of the token has suites"],
"C178":["SpecOwn, AstOwnProofs, PropNames", "mutual induction over the traces of the parser, with the grammar fixed and its roots and channels as invariant"],
"C179":["SpecNames, GrammarNamesProofs, PropNames", "C178 and the shape of each line (C45), with a check of every token of the grammar against the table"],
"C180":["InterpModel, SpecBlame, InterpBlameProofs, PropBlame", "nested induction over values, applications, instructions and programs; each failure is traced to a part of the program"],
"C181":["RefModel, HashTreeModel, SpecFault, RefFaultProofs, PropFault", "one turn of each decoder loop is computed as a case distinction over the announced length; induction over the turns, and over the nesting for leaves"],
"C182":["HashModel, SpecHexText, HashTextProofs, PropHexText", "the digits are compared as numbers; induction over the text, two characters at a time"]
}
