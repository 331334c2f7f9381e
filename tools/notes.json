{
 "C01": {
  "note": "H is any function with 64-byte results; the hypothesis is met by toy_sha."
 },
 "C02": {
  "status": "proved",
  "note": "Both halves of the statement: the positive one and the refutation across the 64-byte boundary."
 },
 "C05": {
  "note": "The guarantee 'never panics' is refuted; the panicking inputs are characterised exactly."
 },
 "C08": {
  "note": "Refutations of 'the head identifies the block list', for all blocks."
 },
 "C11": {
  "note": "Hypotheses are on hash equality among the given blocks only, no global injectivity."
 },
 "C12": {
  "note": "Refutation of 'Order succeeds for every block list'."
 },
 "C15": {
  "note": "Panic witnesses per decoder and termination for all inputs."
 },
 "C74": {
  "note": "Refutation of 'depends only on its input'."
 },
 "C17": {
  "note": "Lists with 64-byte hashes, kinds and pointers of 64 bits; encodings shorter than 2^63 bytes."
 },
 "C18": {
  "note": "Including hash, result and score, which are recomputed by the decoder."
 },
 "C19": {
  "note": "Refutation for every negative proof, with the exact decoded value."
 },
 "C22": {
  "note": "Positive part for commits without proof (the only ones the database makes); refutation with proofs."
 },
 "C24": {
  "note": "For every state reached by a session (New, Open, then writes, cancels, commits, reopens) without failing writes; sizes below 2^63."
 },
 "C25": {
  "note": "Same sessions; the chunk condition is part of `allowed`."
 },
 "C26": {
  "note": "Refutation of 'a commit never loses earlier contents', for every session meeting the size condition."
 },
 "C30": {
  "note": "Refutation of 'a batch is committed once'."
 },
 "C31": {
  "note": "Refutation of 'returns an error'."
 },
 "C34": {
  "note": "Positive part while nothing is closed; refutation by an execution."
 },
 "C36": {
  "note": "Crash = process stops; power loss and reordering of disk writes are not modelled."
 },
 "C37": {
  "note": "Refutation of 'both batches are kept'."
 },
 "C77": {
  "note": "Refutation of 'commit leaves other databases alone'."
 },
 "C79": {
  "note": "Refutations; the second theorem says that every bound on loop iterations is exceeded."
 },
 "C80": {
  "note": "Refutation of 'Commit reports failed writes'."
 },
 "C81": {
  "note": "Refutation of mutual exclusion."
 },
 "C82": {
  "note": "Refutation of 'a deleted database stays deleted'."
 },
 "C83": {
  "note": "Refutation of 'Open never panics'."
 },
 "C84": {
  "note": "Positive part and refutation of confinement to the data area."
 },
 "C87": {
  "note": "Faults are failing writes (after any number of bytes); the two side files may be left behind."
 },
 "C42": {
  "note": "Termination = some bound on recursion depth and loop iterations is enough, and every larger bound gives the same result."
 },
 "C43": {
  "note": "Refutation of 'Execute always terminates': no bound on recursion depth is enough."
 },
 "C45": {
  "note": "Minimums of 2^63 and more are negative in the code's int comparison; excluded by cards_ok."
 },
 "C49": {
  "note": "Refutation of 'a compose container matches its bytes'."
 },
 "C50": {
  "note": "Refutation of 'externals consume only what they matched'."
 },
 "C90": {
  "note": "Refutation of completeness with respect to the grammar's language; C89 is the positive side."
 },
 "C91": {
  "note": "Refutation of 'recursive references repeat as their cardinality says'."
 },
 "C92": {
  "note": "Refutation of 'an everything stops at any alternative of its exception'."
 },
 "C94": {
  "note": "Refutation of 'Execute never panics'."
 },
 "C95": {
  "note": "Refutations of 'Execute without error matched'."
 },
 "C52": {
  "note": "The last sentence of the statement is the refutation."
 },
 "C53": {
  "note": "Refutation of 'never panics', and the positive half."
 },
 "C97": {
  "note": "Positive halves and the refutation for tokens of one name."
 },
 "C99": {
  "note": "Positive half under no optional elements and no externals; the refutation by a witness."
 },
 "C101": {
  "note": "Refutation by a witness."
 },
 "C60": {
  "note": "The direct interpreter is in SpecInterp.v (again = false: a variable holds its value). Equality of outcome and world."
 },
 "C61": {
  "note": "Two theorems: the value received, and the duplicate declaration error."
 },
 "C63": {
  "note": "'rest' is what the added instructions do; it is one computation for all worlds. What an execution passes is in C102 and C107."
 },
 "C65": {
  "note": "Scoping rules are the inductive 'scoped' in SpecInterp.v."
 },
 "C102": {
  "note": "Same interpreter as C60 with again = true; no assumption on modules."
 },
 "C103": {
  "note": "Refutation of 'a variable keeps the value it was given'."
 },
 "C104": {
  "note": "Lower bound for every n; the direct interpretation makes n+1 calls."
 },
 "C107": {
  "note": "Attached values are those evaluating without effect; the argument map is a sorted association list."
 },
 "C70": {
  "note": "The wished guarantee (queries never panic) is false; the theorem states exactly when they do."
 },
 "C111": {
  "note": "The wished guarantee (a recursive fetcher means the enclosing query) is false in general; C110 states when it holds."
 },
 "C112": {
  "note": "The wished guarantee (fetchers are alternatives) is false; the theorems state what holds."
 },
 "C113": {
  "note": "The wished guarantee (Matches decides whether a query fits a grammar) is false."
 },
 "C116": {
  "note": "The wished guarantee (every kind of instruction can be read) is false; the theorem gives the exact language."
 },
 "C118": {
  "note": "The wished guarantee (AllCharacters recognises its text) holds exactly for the texts of C118_own_text."
 },
 "C120": {
  "note": "The expected guarantee (a channel is taken wherever its condition is met) fails; the theorem states exactly what happens instead."
 },
 "C121": {
  "note": "The expected guarantee (a condition whose token is not found prevents the channel) fails; the theorem states exactly what happens instead."
 },
 "C124": {
  "note": "The wished guarantee fails; the theorem states exactly what happens instead."
 },
 "C125": {
  "note": "The head is not checked (refuted guarantee); the hash of commits is recomputed."
 },
 "C126": {
  "note": "The wished guarantee fails; the theorem states exactly what happens instead."
 },
 "C127": {
  "note": "The wished guarantee fails; the theorems state exactly what happens instead."
 },
 "C128": {
  "note": "The wished guarantee fails; the theorems state exactly when the block is lost."
 },
 "C129": {
  "note": "That given heads are checked is refuted; repeated calls are covered for builders with blocks."
 },
 "C136": {
  "note": "The first theorem is the guarantee that holds; the other two refute completeness and membership checks."
 },
 "C139": {
  "note": "That an Open gives the history before or after is refuted; the first theorem says what it can give."
 },
 "C141": {
  "note": "Mutual exclusion is refuted, by interleavings for every session."
 },
 "C142": {
  "note": "Refuted, by an interleaving for every session."
 },
 "C145": {
  "note": "The expected independence of the lines of a token is refuted: the statement says which lines can never match; the example shows a word of the grammar's language that is an error."
 },
 "C149": {
  "note": "Positive theorem for every context and for sessions; two refutations with the hang stated for every fuel. The new file's name must not be a second name of the open file."
 },
 "C150": {
  "note": "Exact characterisations (if and only if) of every decoder of contents and references; two refutations: uniqueness of commit encodings, independence of key lists from the memory behind them."
 },
 "C152": {
  "note": "Where every name leads, as walks through path elements, is proved for all names; that names stay in the directory and that a file has one name are refuted for every directory."
 },
 "C153": {
  "note": "Discharges the assumption of one directory with plain names that the other database theorems make. No symbolic links, no permissions."
 },
 "C154": {
  "note": "The guarantee is refuted: in every state a session reaches, a second name of the same file is opened and the second Commit replaces the first one's batch."
 },
 "C155": {
  "note": "The guarantee is refuted: after every commit that succeeds, a disk with an empty database file and no copy may remain."
 },
 "C157": {
  "note": "Accesses to memory are steps in one order that all goroutines agree on; iteration over the map is one step."
 },
 "C158": {
  "note": "Accesses to memory are steps in one order that all goroutines agree on; iteration over the map is one step."
 },
 "C159": {
  "note": "The guarantee is refuted for every committed content; the theorem before it says what else a reader can get. Accesses to memory are steps in one order that all goroutines agree on; iteration over the map is one step."
 },
 "C160": {
  "note": "The guarantee is refuted from every memory in which both databases can be opened."
 },
 "C161": {
  "note": "The guarantee is refuted from every memory in which both writes succeed."
 },
 "C162": {
  "note": "The guarantee is refuted for every session, commit and content."
 },
 "C163": {
  "note": "Accesses to memory are steps in one order that all goroutines agree on; iteration over the map is one step."
 },
 "C164": {
  "note": "The guarantee is refuted for every session and every pair of allowed commits."
 },
 "C165": {
  "note": "The guarantee is refuted for every session and every allowed commit."
 },
 "C166": {
  "note": "The exact behaviour is proved, and the guarantee is refuted for every such token and every number of repetitions."
 },
 "C167": {
  "note": "Calls with descriptors: Open, Read, Write, Cancel, Commit, Close. ReadByHash and the lists of reads are not modelled with descriptors."
 },
 "C168": {
  "note": "The guarantee is refuted for every history and every such descriptor table."
 },
 "C169": {
  "note": "The guarantee is refuted; the schedule is also played on one concrete process (C169_played)."
 },
 "C170": {
  "note": "The guarantee is refuted for every directory, and what such a context does is proved."
 },
 "C171": {
  "note": "The guarantee is refuted with a grammar of one token and an input of any depth. Only calls of the function token are counted; each of them does more work than that."
 },
 "C172": {
  "note": "Calls made for channels, conditions and externals are not counted, so grammars with them are left out. The numbers c and d depend on the grammar; d can grow with the depth of its tokens."
 },
 "C173": {
  "note": "A process dies, the kernel goes on: what was written is in the file. C155 says what a loss of power can do."
 },
 "C174": {
  "note": "The guarantee is refuted for every session and commit."
 },
 "C175": {
  "note": "Each kind taken as the root. C116 says that the whole grammar never gets to them."
 },
 "C176": {
  "note": "The guarantee is refuted for every pair of names."
 },
 "C182": {
  "note": "That each hash has one text is refuted; which texts are accepted is proved for all texts."
 }
}
