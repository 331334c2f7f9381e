{"id": "C01", "title": "Hash adapter always yields a 64-byte hash and is idempotent", "statement": "For every byte string, hash.Adapter.FromBytes returns without error a hash whose Bytes() has length 64; feeding Bytes() of any hash back into FromBytes returns an equal hash; FromMultiBytes(xs) equals FromBytes of the concatenation.", "quantifier": "all byte strings and all lists of byte strings", "why_tests_cant": "byte strings are unbounded in length and number", "anchors": ["libs/cryptography/domain/hash/adapter.go:FromBytes", "libs/cryptography/domain/hash/adapter.go:FromMultiBytes"]}
{"id": "C02", "title": "A content hash identifies the content, except across the 64-byte boundary", "statement": "Two byte strings that both have length 64, or both have another length, get the same hash from FromBytes only if they are equal or SHA-512 itself collides on them. Across the boundary this fails: every x whose length is not 64 has the same hash as the 64-byte string sha512(x), because 64-byte inputs are taken as being a hash already.", "quantifier": "all pairs of byte strings, all collision-free SHA-512 behaviours", "why_tests_cant": "collisions only show on adversarial pairs; the property ranges over all pairs", "anchors": ["libs/cryptography/domain/hash/adapter.go:FromBytes"]}
{"id": "C03", "title": "Hash text form is faithful", "statement": "FromString(h.String()) returns h for every hash h, String() is 128 lower-case hexadecimal characters, and two hashes have the same text iff Compare says they are equal.", "quantifier": "all 64-byte hashes; all strings given to FromString", "why_tests_cant": "2^512 hashes", "anchors": ["libs/cryptography/domain/hash/adapter.go:FromString", "libs/cryptography/domain/hash/hash.go"]}
{"id": "C04", "title": "Hash tree of any non-empty block list is built without error or panic and keeps the blocks in order", "statement": "For every non-empty list of blocks, hashtrees.Builder.WithBlocks(blocks).Now() returns a tree; the heads of its leaves, read with the leaf adapter, are exactly the blocks' hashes in order, followed by hashes of the empty block up to the least power of two that is at least 2 and at least the number of blocks.", "quantifier": "all non-empty lists of byte strings of any length", "why_tests_cant": "number and size of blocks are unbounded; odd and non power of two counts take other paths at each level", "anchors": ["libs/cryptography/domain/hashtrees/builder.go:Now", "libs/cryptography/domain/hashtrees/leaves_adapter.go:ToHashTree", "libs/cryptography/domain/hashtrees/leaf_adapter.go"]}
{"id": "C05", "title": "Building a hash tree panics exactly on the empty block list", "statement": "For every list of blocks, the builder returns a tree if the list is not empty; without blocks set it returns an error; on the empty, non-nil list it panics (index out of range) instead of returning an error.", "quantifier": "all lists of byte strings", "why_tests_cant": "the failing input is a boundary case; the claim is over all lists", "anchors": ["libs/cryptography/domain/hashtrees/builder.go:Now", "libs/cryptography/domain/hashtrees/leaves_adapter.go:createChildrenLeaves"]}
{"id": "C06", "title": "The head of a hash tree is the Merkle root of the padded blocks", "statement": "Head() equals the value obtained by repeatedly hashing the concatenation of adjacent pairs of the padded block hashes until one is left; it depends only on the blocks.", "quantifier": "all non-empty block lists", "why_tests_cant": "the recursion depth grows with the number of blocks", "anchors": ["libs/cryptography/domain/hashtrees/leaves_adapter.go:ToHashTree", "libs/cryptography/domain/hashtrees/builder.go:Now"]}
{"id": "C07", "title": "The head of a hash tree binds the blocks", "statement": "Two trees with the same number of leaves and equal heads have the same leaf hashes in the same order, unless SHA-512 gives the same hash to two different strings among those hashed while building the two trees. If the trees are made of the same number of blocks, none of them 64 bytes long, the blocks themselves are equal, unless SHA-512 collides on a block of the one and a block of the other, or as before.", "quantifier": "all pairs of block lists, all hash functions", "why_tests_cant": "needs reasoning on every pair of inputs", "anchors": ["libs/cryptography/domain/hashtrees/builder.go:Now"]}
{"id": "C08", "title": "The head alone does not identify the block list", "statement": "Without knowing the number of blocks, a head does not fix the blocks, even if SHA-512 never collides: for all a,b,c the lists [a,b,c] and [a,b,c,empty] have the same head, and for all a,b,c,d there are two blocks x,y whose tree has the same head as the tree of [a,b,c,d] (no domain separation between leaves and inner nodes).", "quantifier": "all pairs of different block lists", "why_tests_cant": "counterexamples are structured, not random", "anchors": ["libs/cryptography/domain/hashtrees/builder.go:Now"]}
{"id": "C09", "title": "Hash tree height and length", "statement": "Height() is log2(number of leaves)+1 and Length() of the block leaves is the smallest power of two that is at least 2 and at least the number of blocks.", "quantifier": "all non-empty block lists", "why_tests_cant": "unbounded depth", "anchors": ["libs/cryptography/domain/hashtrees/leaf.go:Height", "libs/cryptography/domain/hashtrees/hashtree.go:Height", "libs/cryptography/domain/hashtrees/builder.go:Now"]}
{"id": "C10", "title": "Compacting a tree loses nothing", "statement": "For every tree made from blocks, Compact().Leaves().HashTree() gives back an equal tree with the same head.", "quantifier": "all non-empty block lists", "why_tests_cant": "unbounded depth", "anchors": ["libs/cryptography/domain/hashtrees/adapter.go:ToCompact", "libs/cryptography/domain/hashtrees/leaves_adapter.go:ToHashTree"]}
{"id": "C11", "title": "Shuffled blocks are put back in order", "statement": "For a tree made from blocks, Order(mixed) with any permutation of the blocks returns the blocks in their original order, provided blocks with equal hashes are equal and either no padding was needed or no block has the hash of the padding block. Repeated blocks are fine.", "quantifier": "all block lists and all permutations", "why_tests_cant": "factorially many permutations", "anchors": ["libs/cryptography/domain/hashtrees/adapter.go:ToOrder"]}
{"id": "C12", "title": "Order fails when a block equals the padding block", "statement": "Order(permutation of blocks) does not succeed for every block list a tree was made from: whenever the number of blocks is not a power of two of at least 2, so that padding was added, and one of the blocks hashes to the hash of the padding (the empty block does), Order of any permutation of the very same blocks reports an error.", "quantifier": "all block lists of such a length holding such a block and all their permutations", "why_tests_cant": "only some inputs fail", "anchors": ["libs/cryptography/domain/hashtrees/adapter.go:ToOrder"]}
{"id": "C13", "title": "Hash tree binary encoding round trips", "statement": "For every tree made from blocks, Adapter.ToHashTree(Adapter.ToContent(tree)) returns an equal tree, whatever bytes lie behind the slice's length in its backing array; the same holds for leaves.", "quantifier": "all trees of any depth; all backing arrays", "why_tests_cant": "recursive nested length prefixes; unbounded depth", "anchors": ["libs/cryptography/domain/hashtrees/adapter.go", "libs/cryptography/domain/hashtrees/leaf_adapter.go"]}
{"id": "C14", "title": "Leaves and compact encodings round trip", "statement": "ToLeaves(ToContent(leaves)) and ToCompact(ToContent(compact)) give back equal values for every list of leaves built by the library.", "quantifier": "all lists of leaves", "why_tests_cant": "unbounded lists", "anchors": ["libs/cryptography/domain/hashtrees/leaves_adapter.go", "libs/cryptography/domain/hashtrees/compact_adapter.go"]}
{"id": "C15", "title": "Decoders of untrusted bytes can panic but never loop", "statement": "Every decoder (hash tree, leaves, compact, contents, content keys, commits, reference) stops on every byte string; but none of them is safe on untrusted bytes: for each there is a byte string on which it panics, because length prefixes are not checked against the data. A list of leaves that announces none, or more than an int64 can count, is refused with an error.", "quantifier": "all byte strings", "why_tests_cant": "the input space is unbounded", "anchors": ["libs/cryptography/domain/hashtrees/leaf_adapter.go", "libs/databases/domain/references/commits_adapter.go:ToCommits", "libs/databases/domain/references/adapter.go:ToReference", "libs/databases/domain/contents/adapter.go:ToInstance"]}
{"id": "C16", "title": "Pointer and content key encodings round trip", "statement": "For all pointers with positive length and all content keys with 64-byte hashes, decoding the encoding gives back the same value, and encodings have fixed sizes 16 and 152.", "quantifier": "all 64-bit from, length, kind and all hashes", "why_tests_cant": "2^64 values per field", "anchors": ["libs/databases/domain/references/pointer_adapter.go", "libs/databases/domain/references/contentkey_adapter.go"]}
{"id": "C17", "title": "Content key list encoding round trips and its lookups are exact", "statement": "Decoding the encoding of a non-empty content key list returns the same list in order; Fetch(h) returns the last key with hash h, or an error iff there is none; ListByKind(k) returns exactly the keys of kind k in order; Next() is the greatest end of a pointer.", "quantifier": "all non-empty lists of content keys", "why_tests_cant": "unbounded lists", "anchors": ["libs/databases/domain/references/contentkeys_adapter.go", "libs/databases/domain/references/contentkeys.go"]}
{"id": "C18", "title": "Commit encoding round trips", "statement": "For every commit with a hash tree made from blocks, any creation time representable in 64-bit nanoseconds, with or without parent and with or without a non-negative proof, ToCommit(ToContent(c)) equals c, including its hash, score and result.", "quantifier": "all commits", "why_tests_cant": "unbounded trees and proofs; optional fields combine", "anchors": ["libs/databases/domain/references/commit_adapter.go"]}
{"id": "C19", "title": "Commit encoding loses the sign of a proof", "statement": "For every commit with a negative proof z (the builder accepts it), decoding its encoding gives a commit with proof -z and the same hash: the round trip of C18 does not extend to negative proofs, and nothing else is lost.", "quantifier": "all big integers", "why_tests_cant": "one sign bit", "anchors": ["libs/databases/domain/references/commit_adapter.go", "libs/databases/domain/references/commit_builder.go"]}
{"id": "C20", "title": "Commit list and reference encodings round trip", "statement": "Decoding the encoding of a non-empty commit list, and of a reference, gives back equal values in the same order, whatever follows in the backing array; for a reference also whatever bytes follow inside the slice. Fetch(h) of the commit list is the last commit with hash h.", "quantifier": "all non-empty lists of commits and content keys", "why_tests_cant": "unbounded lists", "anchors": ["libs/databases/domain/references/commits_adapter.go", "libs/databases/domain/references/adapter.go"]}
{"id": "C21", "title": "Pending contents encoding round trips", "statement": "ToContents(ToContent(cs)) returns the same contents (hash, kind, data) in order, for every non-empty list with non-empty data.", "quantifier": "all non-empty lists of contents", "why_tests_cant": "unbounded lists", "anchors": ["libs/databases/domain/contents/adapter.go", "libs/databases/domain/contents/content_adapter.go"]}
{"id": "C22", "title": "A commit's hash binds values root, date and parent when there is no proof", "statement": "A commit's hash is SHA-512 of the values' root, the decimal text of its date, the parent's hash and the proof's bytes. Two commits without proof and with equal hashes have equal values' root, creation time and parent, unless SHA-512 collides on exactly these two strings. With proofs this fails whatever SHA-512 does: fields are concatenated without separators, so a parent and a proof with the same bytes are exchangeable, and digits of the date can be moved into the proof.", "quantifier": "all pairs of commits", "why_tests_cant": "adversarial pairs", "anchors": ["libs/databases/domain/references/commit_builder.go:Now"]}
{"id": "C23", "title": "Mining score and result are functions of the commit's hash and proof", "statement": "For a commit with a proof, Result is the hash of (hash, proof bytes) and Score is the number of leading bytes of the result equal to the mining value; the score is at most 64; a proof of zero has the commit's hash as result.", "quantifier": "all commits with proof", "why_tests_cant": "all proofs", "anchors": ["libs/databases/domain/references/commit_builder.go:Now"]}
{"id": "C24", "title": "What is written and committed can be read back", "statement": "After Write(ctx,h,data,kind) and Commit(ctx) succeed, in the same context Read of the pointer listed for the content returns exactly data, for every content of the batch and of every earlier batch; ReadByHash(h) returns the data of the last content listed with hash h, and fails for hashes never written.", "quantifier": "all batches of contents, all prior database states reached by commits", "why_tests_cant": "unbounded sizes and histories", "anchors": ["libs/databases/infrastructure/files/application.go:Write", "libs/databases/infrastructure/files/application.go:Commit", "libs/databases/infrastructure/files/application.go:Read", "libs/databases/infrastructure/files/application.go:ReadByHash"]}
{"id": "C25", "title": "Committed data survives close and reopen", "statement": "After any history of commits, closing and reopening the database in a fresh application gives the same reference (content keys and commits) and the same bytes for every content ever committed, provided the data copied by each later commit fits in a whole number of read chunks (or one chunk).", "quantifier": "all histories of writes, commits, closes and opens", "why_tests_cant": "unbounded histories", "anchors": ["libs/databases/infrastructure/files/application.go:Open", "libs/databases/infrastructure/files/application.go:retrieveReference", "libs/databases/infrastructure/files/application.go:writeDataAndReferenceOnDestinationFile"]}
{"id": "C26", "title": "A commit over data that is not a whole number of read chunks loses data without an error", "statement": "Whenever the committed data is longer than the read chunk size and not a multiple of it, the next Commit still succeeds and lists every key, but the data after the last whole chunk is gone: reads below that point are as before, and the last content of the new batch cannot be read.", "quantifier": "all sessions, chunk sizes and data sizes meeting the size condition", "why_tests_cant": "depends on arithmetic of sizes", "anchors": ["libs/databases/infrastructure/files/application.go:writeDataAndReferenceOnDestinationFile"]}
{"id": "C27", "title": "Commit history is append-only and forms a parent chain", "statement": "Every successful Commit appends exactly one commit to Commits(ctx); earlier commits are unchanged; the new commit's parent is the previous latest commit (none for the first); its values tree is made of the hashes of the batch.", "quantifier": "all databases and batches", "why_tests_cant": "unbounded histories", "anchors": ["libs/databases/infrastructure/files/application.go:updateReference", "libs/databases/infrastructure/files/application.go:Commit"]}
{"id": "C28", "title": "Commit keeps earlier content keys and appends one per written content", "statement": "Every successful Commit leaves the earlier content keys unchanged and in order and appends one key per pending content, with its hash and kind, the new commit's hash, and pointers that tile the data area without gaps or overlaps.", "quantifier": "all histories of commits", "why_tests_cant": "unbounded histories", "anchors": ["libs/databases/infrastructure/files/application.go:updateReference", "libs/databases/domain/references/contentkeys.go:Next"]}
{"id": "C29", "title": "Cancel discards the pending writes", "statement": "After Cancel(ctx), the contents written before it are not part of any later commit, and the database file is unchanged.", "quantifier": "all contexts and pending lists", "why_tests_cant": "histories", "anchors": ["libs/databases/infrastructure/files/application.go:Cancel", "libs/databases/infrastructure/files/application.go:Write"]}
{"id": "C30", "title": "A second Commit without a new write commits the same batch again", "statement": "The pending list is not cleared by a successful Commit: after writing a batch and calling Commit twice, the batch is in the database twice, in two commits.", "quantifier": "all sessions, all batches, all times", "why_tests_cant": "needs a two-step history", "anchors": ["libs/databases/infrastructure/files/application.go:Commit"]}
{"id": "C31", "title": "Commit with nothing pending panics", "statement": "Commit on an open context without pending writes panics, whatever the database holds, and changes neither files nor application.", "quantifier": "all applications, contexts, file systems and times", "why_tests_cant": "boundary case of every history", "anchors": ["libs/databases/infrastructure/files/application.go:Commit", "libs/databases/infrastructure/files/application.go:updateReference"]}
{"id": "C32", "title": "Uncommitted writes are invisible", "statement": "Write(ctx,...) changes neither the file, nor what Read, ContentKeysByKind and Commits return in any context.", "quantifier": "all states and all writes", "why_tests_cant": "all interleavings of contexts", "anchors": ["libs/databases/infrastructure/files/application.go:Write"]}
{"id": "C33", "title": "Operations on an unknown or closed context fail without effect", "statement": "Every operation given a context identifier that is not open returns an error and leaves all files and contexts unchanged, except ReadAll and ReadAllByHashes of an empty list, which return nothing without an error.", "quantifier": "all states, all identifiers", "why_tests_cant": "all identifiers and histories", "anchors": ["libs/databases/infrastructure/files/application.go:Read", "libs/databases/infrastructure/files/application.go:Write", "libs/databases/infrastructure/files/application.go:Commit", "libs/databases/infrastructure/files/application.go:Cancel", "libs/databases/infrastructure/files/application.go:Close"]}
{"id": "C34", "title": "Open context identifiers are unique as long as nothing is closed, and are reused after a close", "statement": "As long as no context was closed, Open returns an identifier no open context has. After a close it may not: opening two databases, closing the first and opening a third gives the third the identifier of the second and makes the second one unreachable.", "quantifier": "all applications without a close, all files; an execution for the failure, for any hash function", "why_tests_cant": "needs a four-step history", "anchors": ["libs/databases/infrastructure/files/application.go:Open"]}
{"id": "C35", "title": "New never overwrites and Exists is exact", "statement": "New(name) fails if something is at that path and otherwise creates an empty file; Exists(name) is true iff the file is there; Delete(name) makes Exists false; none of them touches another file.", "quantifier": "all file systems and names", "why_tests_cant": "all file system states", "anchors": ["libs/databases/infrastructure/files/application.go:New", "libs/databases/infrastructure/files/application.go:Exists", "libs/databases/infrastructure/files/application.go:Delete"]}
{"id": "C36", "title": "At every crash point of Commit a complete copy exists, but not always under the database's name", "statement": "If the process stops at any point during Commit, then either the database file holds the complete old or the complete new content and can be opened, or there is no database file and the complete new content and the complete backup are in the two side files. The last case does occur in every commit, so Commit is not atomic. No other file is touched.", "quantifier": "all sessions, all batches, all points between two system calls and inside each write", "why_tests_cant": "every crash point; tests cannot stop between two system calls", "anchors": ["libs/databases/infrastructure/files/application.go:updateDatabaseOnFile"]}
{"id": "C37", "title": "Two applications lose each other's commits", "statement": "If a second application opens a database, and both write and commit one after the other, both commits succeed and the first batch is not in the database afterwards.", "quantifier": "all sessions, all pairs of batches and times", "why_tests_cant": "schedules", "anchors": ["libs/databases/infrastructure/files/application.go:updateDatabaseOnFile", "libs/databases/infrastructure/files/application.go:Commit"]}
{"id": "C38", "title": "Reads outside the batch are unaffected by a commit", "statement": "For every content key that existed before, Read of its pointer returns the same bytes before and after a Commit (under the chunk condition of C25).", "quantifier": "all databases, keys and batches", "why_tests_cant": "unbounded", "anchors": ["libs/databases/infrastructure/files/application.go:Read", "libs/databases/infrastructure/files/application.go:Commit"]}
{"id": "C40", "title": "Parsing consumes a prefix", "statement": "Whenever Execute returns a tree, the remaining bytes it reports are a suffix of the input.", "quantifier": "all grammars and inputs", "why_tests_cant": "grammars and inputs are unbounded", "anchors": ["libs/asts/applications/application.go:Execute", "libs/asts/applications/application.go:block", "libs/asts/applications/application.go:line"]}
{"id": "C41", "title": "Matches consume bytes", "statement": "A successful tree returned by Execute consumed at least one byte for each content of its successful line, and every tree matched inside it, at any depth (also inside channels), has bytes of its own.", "quantifier": "all grammars and inputs", "why_tests_cant": "unbounded repetition and nesting", "anchors": ["libs/asts/applications/application.go:element", "libs/asts/applications/application.go:elementContent"]}
{"id": "C42", "title": "Parsing terminates for guarded grammars", "statement": "Execute terminates on every input for every grammar in which each recursive reference comes after a required element of its line; in particular for grammars without recursive references.", "quantifier": "all such grammars (with their channels and externals) and all inputs", "why_tests_cant": "termination is not testable", "anchors": ["libs/asts/applications/application.go:Execute"]}
{"id": "C43", "title": "Two left-recursive lines make the parser loop", "statement": "Execute does not end for a token whose first two lines are recursive references to itself and whose third is a byte, on any input starting with another byte: the protection against left recursion does not work.", "quantifier": "all names, bytes and inputs of this kind", "why_tests_cant": "termination is not testable", "anchors": ["libs/asts/applications/application.go:elementContent", "libs/asts/applications/application.go:block"]}
{"id": "C44", "title": "Parsed bytes are the input bytes", "statement": "For grammars without externals and escapes, when Execute returns a successful tree, the tree's Bytes(true) followed by Remaining() is exactly the input.", "quantifier": "all such grammars and inputs", "why_tests_cant": "unbounded", "anchors": ["libs/asts/domain/trees/tree.go:Bytes", "libs/asts/applications/application.go:token"]}
{"id": "C45", "title": "Cardinalities are respected", "statement": "In every tree matched by Execute, at any depth, the successful line has the index and the containers of a line of its token, its elements are these containers in order, each with a number of contents between its minimum and its maximum (those left out have minimum zero), and each content is of the kind its container says; a line of an everything is a list of plain bytes.", "quantifier": "all grammars with cardinalities below 2^63, all inputs", "why_tests_cant": "unbounded", "anchors": ["libs/asts/applications/application.go:element", "libs/asts/domain/trees/line.go:IsSuccessful"]}
{"id": "C46", "title": "Parsing is sound", "statement": "What a successful tree returned by Execute consumed is in the language of the grammar: a derivation of the root, with matches of channel tokens between values and after tokens.", "quantifier": "all grammars whose channels use no externals and escapes, all inputs", "why_tests_cant": "unbounded", "anchors": ["libs/asts/applications/application.go:Execute"]}
{"id": "C47", "title": "A sequence of values matches exactly its bytes", "statement": "Without channels, a token whose line is the values b1..bn matches an input iff the input starts with b1..bn, and the remaining is what follows; otherwise Execute returns an error.", "quantifier": "all byte sequences and all inputs", "why_tests_cant": "unbounded", "anchors": ["libs/asts/applications/application.go:line", "libs/asts/applications/application.go:elementValue"]}
{"id": "C48", "title": "Lines are tried in order and the first that matches wins", "statement": "Without channels, a token whose lines are sequences of values matches with the first line whose bytes the input starts with, even if a later line would match more; if there is none Execute returns an error.", "quantifier": "all tokens of value lines, all inputs", "why_tests_cant": "unbounded", "anchors": ["libs/asts/applications/application.go:block"]}
{"id": "C49", "title": "Compose containers never match", "statement": "A token each of whose lines has a compose container never matches any input, not even the composed bytes, and no line with a compose is ever the successful line of a tree.", "quantifier": "all grammars and inputs", "why_tests_cant": "claim about every input", "anchors": ["libs/asts/applications/application.go:line"]}
{"id": "C50", "title": "External grammars drop the rest of the input", "statement": "A tree whose successful line has an external grammar's match always reports nothing remaining, whatever the input, and a line with a required element after a required external never matches.", "quantifier": "all grammars and inputs", "why_tests_cant": "all inputs", "anchors": ["libs/asts/applications/application.go:external"]}
{"id": "C51", "title": "Everything-except stops at the first exception", "statement": "An everything element without escape takes exactly the bytes before the first place where the exception's bytes are, or all bytes if they are nowhere, and is an error if they are at the start. The channels of the grammar do not act on the bytes it takes.", "quantifier": "all inputs, all exceptions whose first line is a sequence of values, all channels", "why_tests_cant": "unbounded", "anchors": ["libs/asts/applications/application.go:everything", "libs/asts/applications/application.go:block"]}
{"id": "C52", "title": "Compose renders the bytes of a token", "statement": "For a token whose occurrences are below 2^63, Compose returns the bytes of its composes in order, each byte repeated by its occurrences, when the token has exactly one line and only composes in it; it returns an error when there is more than one line or any element; it never panics. An occurrence of 2^63 or more renders no byte at all, without an error.", "quantifier": "all tokens with at least one line", "why_tests_cant": "unbounded numbers of lines, containers and occurrences", "anchors": ["libs/asts/applications/application.go:Compose", "libs/asts/applications/application.go:composeCompose"]}
{"id": "C53", "title": "Uncovered needs a suite", "statement": "If no token of a grammar has a suite, Coverages returns nil without an error, Covered of that result panics, and so does Uncovered. If the root has a suite, every recursion comes after an element that cannot be absent and no everything has an escape, Uncovered returns a result.", "quantifier": "all grammars", "why_tests_cant": "all grammars, of any size and depth", "anchors": ["libs/asts/applications/application.go:Coverages", "libs/asts/applications/application.go:Covered", "libs/asts/applications/application.go:Uncovered"]}
{"id": "C60", "title": "Compile then Execute computes the meaning of the source program", "statement": "If the module functions depend only on their arguments and Compile succeeds, Execute returns, for every input, exactly what running the instructions one after the other returns: the same outputs, or the same kind of failure.", "quantifier": "all instruction lists (sub-programs of any depth), all lists of effect-free module functions, all inputs, all name conversion functions", "why_tests_cant": "unbounded programs", "anchors": ["libs/interpreters/applications/application.go:Compile", "libs/interpreters/applications/application.go:Execute"]}
{"id": "C61", "title": "Input parameters are numbered in order of declaration", "statement": "A variable reading the n-th declared input parameter gets the n-th input value; a run that reads it has at least n inputs; declaring a parameter name twice is a compile error.", "quantifier": "all instruction lists containing such an assignment at any place, all module functions, inputs and world states", "why_tests_cant": "unbounded", "anchors": ["libs/interpreters/applications/application.go:compileParameter"]}
{"id": "C62", "title": "One output per assignment to a declared output", "statement": "A successful Execute returns one value per assignment to an output parameter declared before it, and a compiled program whose instructions all succeed never fails because an output is missing.", "quantifier": "all compiled programs, module functions, inputs and world states", "why_tests_cant": "unbounded", "anchors": ["libs/interpreters/applications/application.go:Execute", "libs/interpreters/applications/application.go:compileInstruction"]}
{"id": "C63", "title": "Later instructions do not change what earlier ones do", "statement": "Executing a program extended with more instructions (attachments included) first does exactly what the shorter program does - same module calls with the same arguments, same failure if it fails - and its outputs start with those of the shorter program.", "quantifier": "all pairs of compiled programs where one extends the other, all stateful module functions, all inputs and world states", "why_tests_cant": "needs all programs and all continuations", "anchors": ["libs/interpreters/applications/application.go:compileAttachment", "libs/interpreters/applications/application.go:compileExecution"]}
{"id": "C64", "title": "A compiled program only fails at run time for missing inputs or module failures", "statement": "If Compile succeeded, at least as many inputs are given as the program and each of its sub-programs declares, and no module function fails, then Execute succeeds.", "quantifier": "all compiled programs, inputs, stateful module functions and world states", "why_tests_cant": "unbounded", "anchors": ["libs/interpreters/applications/application.go:Execute", "libs/interpreters/applications/application.go:executeValue"]}
{"id": "C65", "title": "Compile accepts exactly the well-scoped instruction lists", "statement": "Compile succeeds if and only if every module, application, input parameter and variable is declared before its use and at most once where that matters, in every sub-program on its own, and each of them has at least one assignment or execution; otherwise it returns an error and never panics.", "quantifier": "all instruction lists, module lists and name conversion functions", "why_tests_cant": "unbounded", "anchors": ["libs/interpreters/applications/application.go:compileInstruction"]}
{"id": "C70", "title": "When queries panic", "statement": "If the functions given with a query never panic, Execute panics only when, for some query inside it and some tree inside the given tree: that query's element has the reverse name, an element without container answers it, and the index is larger than the number of answering elements before it; or the query has a function of a single content and selects no content. When the query and the tree given to Execute are such a pair, Execute does panic. A query whose sub-queries only use functions of all contents, with index 0 wherever the element has the reverse name, never panics.", "quantifier": "all trees, queries and functions", "why_tests_cant": "unbounded trees and queries", "anchors": ["libs/queries/applications/application.go:queryContents", "libs/queries/applications/application.go:insideInstances"]}
{"id": "C71", "title": "Functions of a query get the contents its token selects", "statement": "A query token selects, in a tree with its name and a successful line, the contents of the element with the query's index among the elements, in order, whose container has the queried name (all of them, or only the content with the content index); nothing if there are fewer elements; an error for another name, no successful line, or a content index out of range. The function of a query gets exactly these contents, or, if it is a function of a single content, the first of them, and the query function gets exactly what it returns, or its first instance.", "quantifier": "all trees, query tokens and functions", "why_tests_cant": "unbounded trees", "anchors": ["libs/queries/applications/application.go:queryContents", "libs/queries/applications/application.go:tokenRefine", "libs/queries/applications/application.go:queryInstance"]}
{"id": "C72", "title": "Queries return the remaining of the parsed tree", "statement": "The remaining bytes a query reports are the remaining bytes of the tree it was run on. So, for a parsed tree, they are the end of the input, and with a grammar without externals and escapes the bytes of the tree followed by them are the input.", "quantifier": "all trees and queries, all grammars and inputs", "why_tests_cant": "unbounded", "anchors": ["libs/queries/applications/application.go:Execute"]}
{"id": "C73", "title": "Hash tree and leaf decoding accepts encodings only", "statement": "Whenever decoding a byte string as a hash tree or as a leaf succeeds, encoding the result gives back exactly those bytes; so no two byte strings decode to the same tree, and the result does not depend on bytes behind the slice.", "quantifier": "all byte slices shorter than 2^63, all contents of the backing array behind them", "why_tests_cant": "needs every byte string, including malformed and adversarial ones", "anchors": ["libs/cryptography/domain/hashtrees/adapter.go", "libs/cryptography/domain/hashtrees/leaf_adapter.go"]}
{"id": "C74", "title": "Leaves decoding reads behind the end of its input", "statement": "The list-of-leaves decoder does not depend only on its input: there is a byte string that decodes to different leaves depending on the bytes behind it in the backing array, because a slice expression is bounded by the capacity. Every encoding of leaves can be cut off anywhere behind its first 80 bytes: the decoder reads the missing leaves from behind the end and returns them all.", "quantifier": "exists an input and two backing arrays; all lists of well-formed leaves, all places of the cut, all bytes behind", "why_tests_cant": "depends on memory behind the slice, which tests do not control", "anchors": ["libs/cryptography/domain/hashtrees/leaves_adapter.go:ToLeaves"]}
{"id": "C75", "title": "Leaves make a hash tree exactly when their number is a power of two", "statement": "HashTree() of a non-empty list of leaves returns a tree or panics, never an error; if it returns a tree their number is a power of two at least 2; and for every list of 64-byte leaves of such a length it returns a tree with exactly these leaves.", "quantifier": "all lists of leaves", "why_tests_cant": "needs all lengths", "anchors": ["libs/cryptography/domain/hashtrees/leaves_adapter.go:ToHashTree"]}
{"id": "C76", "title": "Commit touches three file names only", "statement": "Whatever the state of the application, the locks held, the writes that fail and the point where the process stops, Commit changes no file or directory entry except the database's own name and its two side names (name.destination and name.backup extension).", "quantifier": "all applications, contexts, file systems without hard links, fault plans and crash points", "why_tests_cant": "must hold for every fault plan and crash point", "anchors": ["libs/databases/infrastructure/files/application.go:Commit", "libs/databases/infrastructure/files/application.go:updateDatabase"]}
{"id": "C77", "title": "Commit destroys databases named like its side files", "statement": "After every successful Commit of database n there is no file named n.dst or n.bck (the configured extensions), even if such a database existed before.", "quantifier": "all sessions and batches", "why_tests_cant": "holds for every name and history; the collision depends on names chosen by the user", "anchors": ["libs/databases/infrastructure/files/application.go:updateDatabase"]}
{"id": "C78", "title": "An open context reads a snapshot", "statement": "After another application has committed to the same database, every Read and ReadByHash of a context opened before returns what it returned before that commit.", "quantifier": "all sessions, batches, pointers and hashes", "why_tests_cant": "quantifies over every pointer, hash and history", "anchors": ["libs/databases/infrastructure/files/application.go:Open", "libs/databases/infrastructure/files/application.go:Read", "libs/databases/infrastructure/files/application.go:Commit"]}
{"id": "C79", "title": "A read chunk size of zero crashes Open and hangs Commit", "statement": "With read chunk size zero (which the application accepts), Open of any file of at least 8 bytes panics, and Commit on a database that has a commit never returns.", "quantifier": "all files, contexts and times", "why_tests_cant": "non-termination cannot be observed by a test", "anchors": ["libs/databases/infrastructure/files/application.go:retrieveReference", "libs/databases/infrastructure/files/application.go:writeDataAndReferenceOnDestinationFile"]}
{"id": "C80", "title": "A failed write of a content is not reported", "statement": "If the disk fails while Commit writes one of the contents of the first batch, Commit reports success; the keys of that content and of all later ones are listed, and reading any of them fails.", "quantifier": "all first batches, all contents of the batch, all failure points inside the content", "why_tests_cant": "needs a fault at every position", "anchors": ["libs/databases/infrastructure/files/application.go:writeDataAndReferenceOnDestinationFile"]}
{"id": "C81", "title": "The lock does not keep others out during the swap", "statement": "In every Commit there is a moment when the committer holds its lock, yet another process can lock the database's name and can create a new database with that name.", "quantifier": "all sessions and batches", "why_tests_cant": "needs an interleaving at one exact point", "anchors": ["libs/databases/infrastructure/files/application.go:updateDatabase"]}
{"id": "C82", "title": "Commit revives a deleted database", "statement": "If a database is deleted while it is open, Delete succeeds and Exists is false, but a later Commit of the open context succeeds and the database exists again with all earlier contents and the new batch.", "quantifier": "all sessions and batches", "why_tests_cant": "holds for every history", "anchors": ["libs/databases/infrastructure/files/application.go:Delete", "libs/databases/infrastructure/files/application.go:Commit"]}
{"id": "C83", "title": "Open of a file starting with eight zero bytes panics", "statement": "Open of any file whose first eight bytes are zero (as left by a torn write of the length field) panics instead of returning an error.", "quantifier": "all such files, all chunk sizes", "why_tests_cant": "infinitely many files", "anchors": ["libs/databases/infrastructure/files/application.go:retrieveReference"]}
{"id": "C84", "title": "Read returns exactly the requested bytes or fails, but is not confined to the data area", "statement": "A successful Read returns exactly as many bytes as asked, and they are the bytes of the file at the pointer's place, computed with 64-bit wrap-around. Because of the wrap-around, on every database with a commit there is a pointer that reads the header instead of the data.", "quantifier": "all contexts, pointers and files; all sessions with a commit", "why_tests_cant": "all pointers including those near 2^64", "anchors": ["libs/databases/infrastructure/files/application.go:Read"]}
{"id": "C85", "title": "A database is open at most once per application", "statement": "After any calls to one application, and whatever happens to the file system meanwhile, two different open contexts have different database names, and Open of a name that is open is an error without effect.", "quantifier": "all histories of API calls, all file systems at each call", "why_tests_cant": "all histories", "anchors": ["libs/databases/infrastructure/files/application.go:Open", "libs/databases/infrastructure/files/application.go:Close"]}
{"id": "C86", "title": "Databases open in one application are independent", "statement": "Creating, opening, and then writing, committing and cancelling in any interleaving on several databases of one application leaves each of them as if it had been used alone.", "quantifier": "all sets of names that are not each other's side files, all interleavings", "why_tests_cant": "all interleavings and numbers of databases", "anchors": ["libs/databases/infrastructure/files/application.go"]}
{"id": "C87", "title": "A Commit that returns an error changes nothing a user can see", "statement": "If Commit returns an error, whatever writes failed, the application (with its pending writes), the database file, all other files but the two side files, and every read are as before, and the lock is free.", "quantifier": "all sessions, all fault plans", "why_tests_cant": "all fault plans", "anchors": ["libs/databases/infrastructure/files/application.go:Commit", "libs/databases/infrastructure/files/application.go:updateDatabase"]}
{"id": "C88", "title": "A locked database is not committed to", "statement": "Commit while another process holds the lock of the database file never succeeds and changes nothing at any moment; with something pending it returns an error.", "quantifier": "all applications, contexts, files and times", "why_tests_cant": "schedule dependent", "anchors": ["libs/databases/infrastructure/files/application.go:updateDatabase"]}
{"id": "C89", "title": "Grammars without recursion are parsing expressions", "statement": "For a grammar without recursive references, escapes and channel conditions, Execute ends without a panic and finds exactly what the grammar means as a parsing expression: a token is its first line that matches and takes at least a byte, a line is the sequence of its elements, an element is repeated as often as possible within its maximum and fails below its minimum, a value is its byte, after everything its grammar's channels skip, a token is followed by everything the channels skip, an external is its own grammar and then everything left, and an everything is the bytes before the first match of its exception; the channels are tried round after round until none matches. The tree has exactly the parsing expression's syntax tree (token names, index of the line, elements and their contents) and remaining bytes. Otherwise Execute returns an error or a tree without a successful line.", "quantifier": "every grammar in which no token is used inside a token of the same name, elements of one line with the same name have about the same minimum, the exceptions of everythings start with a line of values, and channels use no externals, and every input", "why_tests_cant": "unbounded", "anchors": ["libs/asts/applications/application.go:Execute", "libs/asts/applications/application.go:block", "libs/asts/applications/application.go:line"]}
{"id": "C90", "title": "Repetitions never give back", "statement": "A line of an unlimited repetition of a byte followed by that byte never matches, whatever the input: repetitions are greedy and never backtrack, so Execute misses words of the grammar's language.", "quantifier": "all names, bytes, minimums and inputs", "why_tests_cant": "all inputs", "anchors": ["libs/asts/applications/application.go:line"]}
{"id": "C91", "title": "A recursive reference matches at most once per line", "statement": "In every matched line, at any depth, the recursive references to one name have together at most one content, whatever their cardinalities.", "quantifier": "all grammars and inputs", "why_tests_cant": "unbounded", "anchors": ["libs/asts/applications/application.go:token", "libs/asts/applications/application.go:elementContent"]}
{"id": "C92", "title": "Only the first line of an exception counts", "statement": "An everything element takes the same bytes whatever the lines of its exception after the first are: alternatives in exceptions are ignored.", "quantifier": "all inputs, all exceptions whose first line is a sequence of values", "why_tests_cant": "unbounded", "anchors": ["libs/asts/applications/application.go:block"]}
{"id": "C93", "title": "Parsing does not panic without escapes", "statement": "Execute never panics on a grammar that has no escape in its tokens, channels, conditions and externals.", "quantifier": "all such grammars and all inputs", "why_tests_cant": "unbounded", "anchors": ["libs/asts/applications/application.go:block", "libs/asts/applications/application.go:channels"]}
{"id": "C94", "title": "An escaped exception at the end of the input panics", "statement": "Execute panics (index out of range) on an everything with escape when the input ends with the escape followed by the exception.", "quantifier": "all names, all bytes before that contain neither", "why_tests_cant": "all inputs", "anchors": ["libs/asts/applications/application.go:block"]}
{"id": "C95", "title": "Execute returns trees of failed matches without an error", "statement": "Execute returns a tree without successful line, without bytes, with the whole input remaining, and no error, in these cases: the root is an optional byte and the input starts with another byte; the root is a line that wants one byte twice and then another byte once, both under the same name, even if this is what the input is.", "quantifier": "all names, bytes and inputs of this kind", "why_tests_cant": "all inputs", "anchors": ["libs/asts/applications/application.go:token", "libs/asts/domain/trees/line.go:IsSuccessful"]}
{"id": "C96", "title": "Coverages report what the parser does", "statement": "Every coverage is of a token of the grammar (or of one of its channels or externals) that has suites; it has one execution per suite, in the order of the suites; the result of each is the tree, or the error, that parsing the bytes of the suite with that token and the channels of its grammar gives. Coverages ends, without a panic, when every recursion comes after an element that cannot be absent and no everything has an escape. Coverages never returns an error, and when it panics or does not end, then parsing the bytes of some suite of a token of the grammar with that token and its channels does the same. Conversely, when the names of the tokens below the root are distinct, a suite of one of them on which the parser panics or does not end keeps Coverages from returning.", "quantifier": "all grammars and suites with occurrences below 2^63", "why_tests_cant": "all grammars and all suites", "anchors": ["libs/asts/applications/application.go:Coverages", "libs/asts/applications/application.go:coveragesToken", "libs/asts/applications/application.go:coverageTokenSuite"]}
{"id": "C97", "title": "Coverages list each token once", "statement": "If no two different tokens of the root have the same name, every token the root uses, at any depth, that has suites is listed. Without externals no name is listed twice. So of different tokens with one name the suites of at most one are run: there is a grammar where the suites of a token are never run because another one has its name.", "quantifier": "all grammars", "why_tests_cant": "unbounded depth, shared tokens", "anchors": ["libs/asts/applications/application.go:Coverages", "libs/asts/applications/application.go:coveragesToken"]}
{"id": "C98", "title": "Covered and Uncovered are exact", "statement": "Covered has an entry for a token name, line and position exactly when the tree of a suite, or a tree inside it, of that name has an element at that position of its successful line, and the entry is the name of such an element. Uncovered has an entry exactly when a token of the grammar, its channels or its externals, of that name, has an element at that line and position and no tree of a suite has one; the entry is the name of such an element.", "quantifier": "all coverages, all grammars", "why_tests_cant": "all grammars and trees of any depth", "anchors": ["libs/asts/applications/application.go:Covered", "libs/asts/applications/application.go:Uncovered", "libs/asts/applications/application.go:findElements", "libs/asts/applications/application.go:findElementsFromToken", "libs/asts/applications/application.go:findCoveraredElements", "libs/asts/applications/application.go:findCoveraredElementsFromBlock"]}
{"id": "C99", "title": "Positions of covered elements", "statement": "If no element is optional and there are no externals, every entry of Covered is the position, in the grammar, of an element of that name of a token of that name. With optional elements it is not so: for r := 'a'? 'b' with the suite \"b\", b is reported as uncovered and a is not, although the only tree has b and does not have a.", "quantifier": "all grammars without optional elements and externals; a witness for the negative half", "why_tests_cant": "all grammars", "anchors": ["libs/asts/applications/application.go:Uncovered", "libs/asts/applications/application.go:findCoveraredElementsFromBlock"]}
{"id": "C100", "title": "Fetch finds parts by name", "statement": "What Fetch(name, index) of a tree returns is the tree, or an element or a tree inside it, and has that name. Fetch(name, 0) returns the first one in the order of the input, and an error exactly when there is none. In a tree whose elements are only values, Fetch(name, index) returns the element number index of that name.", "quantifier": "all trees, names and indices", "why_tests_cant": "trees of any depth", "anchors": ["libs/asts/domain/trees/tree.go:Fetch", "libs/asts/domain/trees/element.go:Fetch"]}
{"id": "C101", "title": "Fetch by index misses nested parts", "statement": "Fetch(name, 1) can be an error although the tree has two elements of that name: for p := d ':' d and d := 'a', on \"a:a\", Fetch(a, 1) is an error.", "quantifier": "a witness", "why_tests_cant": "shows that the expected guarantee fails", "anchors": ["libs/asts/domain/trees/tree.go:Fetch", "libs/asts/domain/trees/element.go:Fetch"]}
{"id": "C102", "title": "A variable stands for its expression at each use", "statement": "For any module functions, Execute does what interpreting the instructions does when each use of a variable in an attachment evaluates the assigned expression again, in order, with all effects on the outside world.", "quantifier": "all compiled programs, stateful module functions, inputs and world states", "why_tests_cant": "unbounded programs and arbitrary stateful modules", "anchors": ["libs/interpreters/applications/application.go:Compile", "libs/interpreters/applications/application.go:Execute"]}
{"id": "C103", "title": "A variable does not keep the value it was given", "statement": "There are module functions and a program for which the value passed through an attached variable differs from the value that variable was assigned (and that was returned as output), because the module is called again.", "quantifier": "existential witness against the guarantee for all programs", "why_tests_cant": "a guarantee over all stateful modules; the witness settles it", "anchors": ["libs/interpreters/applications/application.go:executeValue", "libs/interpreters/applications/application.go:compileAttachmentValue"]}
{"id": "C104", "title": "Module calls can grow exponentially with the program", "statement": "For every n there is an instruction list of 4n+3 instructions whose execution calls a module function at least 2^n times.", "quantifier": "all n", "why_tests_cant": "growth for every n", "anchors": ["libs/interpreters/applications/application.go:execute", "libs/interpreters/applications/application.go:compileAttachment"]}
{"id": "C105", "title": "A sub-program runs alone, on the inputs of its parent", "statement": "Assigning an instruction list as a value compiles it as if it stood alone and runs it, at that point, on the same inputs as the parent; its outputs become one list value, which is an output of the parent exactly when the assigned variable is a declared output.", "quantifier": "all parent programs, sub-programs, stateful module functions, inputs and world states", "why_tests_cant": "unbounded programs", "anchors": ["libs/interpreters/applications/application.go:compileValue", "libs/interpreters/applications/application.go:executeValue"]}
{"id": "C106", "title": "Only the equality of names matters", "statement": "Changing the name conversion function by an injective renaming does not change the compiled program.", "quantifier": "all instruction lists, conversion functions and injective renamings", "why_tests_cant": "ranges over all renamings", "anchors": ["libs/interpreters/applications/sdk.go:NameBytesToString", "libs/interpreters/applications/application.go:Compile"]}
{"id": "C107", "title": "The value attached last to a position is the one passed", "statement": "A module function is called once per execution of its application, with exactly one argument per attached position, which is the value attached last to it. In particular, when declared inputs are attached to positions of an application by any list of attachment instructions and its execution is the output, Execute calls the module once, with, for each position, the input attached last to it, and returns what the module returns.", "quantifier": "all applications, attachment lists whose values do not change the world, inputs, and programs attaching inputs in any order", "why_tests_cant": "unbounded attachment lists", "anchors": ["libs/interpreters/applications/application.go:execute", "libs/interpreters/applications/application.go:compileAttachment"]}
{"id": "C108", "title": "Queries terminate", "statement": "Execute of any query on any tree ends, also with recursive fetchers: the depth of the calls is at most the height of the tree, whatever the functions return.", "quantifier": "all trees and queries, all states of the outside world", "why_tests_cant": "termination for unbounded trees and recursive queries", "anchors": ["libs/queries/applications/application.go:queryFetch"]}
{"id": "C109", "title": "What any query gives", "statement": "Execute gives exactly this, and calls the functions in exactly this order: contents are selected; each tree among them, in order, is given to each fetcher, in order; valid instances are collected, invalid ones dropped, the first error ends everything; without instances the query is invalid; otherwise its function decides. A recursive fetcher stands for the last query, in the order of execution, with that token name that selected contents, and is an error if there is none.", "quantifier": "all trees, queries, functions and states of the outside world", "why_tests_cant": "all executions of unbounded trees", "anchors": ["libs/queries/applications/application.go:Execute", "libs/queries/applications/application.go:insideInstances"]}
{"id": "C110", "title": "Recursive fetchers stand for the enclosing query of that name", "statement": "If a name that recursive fetchers refer to belongs to one sub-query only, and they refer to their own query or to enclosing ones, then the result of Execute is that of the query with each recursive fetcher standing for the query of that name, whatever was executed before: the same contents always give the same instances.", "quantifier": "all such queries, all trees, functions and states of the outside world", "why_tests_cant": "all executions of unbounded trees", "anchors": ["libs/queries/applications/application.go:queryFetch", "libs/queries/applications/application.go:insideInstances"]}
{"id": "C111", "title": "Recursive fetchers depend on the queries executed before", "statement": "Without one query per name the meaning of a recursive fetcher changes during the execution: there is a query with a recursive fetcher naming its enclosing query which gives instances on a content, and on the same content twice in a row gives other instances than those twice.", "quantifier": "existence of a query and tree", "why_tests_cant": "shows that the guarantee of C110 needs its hypothesis", "anchors": ["libs/queries/applications/application.go:queryFetch"]}
{"id": "C112", "title": "All fetchers of a query must have the name of every tree", "statement": "If Execute of a query with fetchers returns a result, every tree among the selected contents has the token name of every fetcher. So a query with two fetchers of different names, or that selects trees of two different names, never returns a result: fetchers are not alternatives.", "quantifier": "all queries with fetchers, all trees", "why_tests_cant": "unbounded", "anchors": ["libs/queries/applications/application.go:insideInstances", "libs/queries/applications/application.go:queryContents"]}
{"id": "C113", "title": "Matches tells nothing about a query", "statement": "Matches returns true for every grammar and query. For a query whose token has another name than the root of the grammar, Execute is an error on every tree parsed with this grammar, though Matches is true.", "quantifier": "all grammars, queries, inputs", "why_tests_cant": "unbounded", "anchors": ["libs/queries/applications/application.go:Matches", "libs/queries/applications/application.go:queryContents"]}
{"id": "C114", "title": "Channels act between values only", "statement": "If the grammar's tokens are made of values and tokens (no everything, external or recursion), Execute with channels recognises in a text exactly the syntax tree that the grammar without channels recognises in the bytes that the channels leave of the text, and what remains of the text is what remains of those bytes, again up to what the channels take. Every text leaves exactly one such sequence of bytes. So a channel may occur anywhere, also inside what the grammar's author would call a word.", "quantifier": "every such grammar in the class of C89, every list of channels, every text", "why_tests_cant": "unbounded texts and grammars; channels may hold tokens of any shape", "anchors": ["libs/asts/applications/application.go:Execute", "libs/asts/applications/application.go:channels"]}
{"id": "C115", "title": "The grammar of grammars reads every text", "statement": "Execute with the grammar of grammars (NewGrammar().Grammar()) ends on every text with a tree or an error; it never panics and never loops.", "quantifier": "every text, whatever the test suites of the tokens", "why_tests_cant": "unbounded texts", "anchors": ["instances/grammars/grammars/grammar.go:Grammar", "libs/asts/applications/application.go:Execute"]}
{"id": "C116", "title": "The grammar of grammars only reads assignments of values", "statement": "Execute with the grammar of grammars recognises a text exactly if, without its blanks and comments, it is '@' name ';', any channels ('-' name, optionally '[' ... ']', ';'), a name, ':' and at least one byte. Nothing then remains, and the tree has the root, the channels, and exactly one instruction, an assignment of a value whose value is everything after the ':', further instructions included. Assignments of composes, everythings, tokens and externals are never recognised: the guarantee that each kind of instruction can be read fails for every text.", "quantifier": "every text, whatever the test suites of the tokens", "why_tests_cant": "a statement about all texts; the existing tests only look for valid suites, which pass for the wrong reason", "anchors": ["instances/grammars/grammars/grammar.go:GrammarToken", "instances/grammars/grammars/grammar.go:instructionToken", "instances/grammars/grammars/grammar.go:valueAssignmentToken", "instances/grammars/tokens/token.go:AnyByte", "instances/grammars/components/channels/channels.go:Channels"]}
{"id": "C117", "title": "What the shared tokens read", "statement": "With the shipped channels, a variable name is the longest sequence of letters that starts with a lower case letter, a SHA-512 is exactly 128 hexadecimal digits, and the letter, digit, hexadecimal and byte tokens are one such byte, of the text without its blanks (space, tab, new line, return) and comments ('//', at least one byte, up to a new line or the end). Blanks and comments may occur inside a name or a hash: 'm y' is read as 'my'. '//' directly before a new line is no comment, and a return does not end one.", "quantifier": "every text, whatever the test suites of the tokens", "why_tests_cant": "unbounded texts", "anchors": ["instances/grammars/tokens/token.go:VariableName", "instances/grammars/tokens/token.go:Sha512Hex", "instances/grammars/tokens/token.go:AnyLetter", "instances/grammars/tokens/token.go:AnyHexCharacter", "instances/grammars/tokens/token.go:AnyByte", "instances/grammars/components/channels/channels.go:Channels"]}
{"id": "C118", "title": "Texts become the truncated code points", "statement": "Every string, well formed or not, has one list of code points: those of its UTF-8 encodings, a byte that starts none counting as 65533. AllCharacters panics for an empty name or text, and otherwise returns a token that recognises exactly the bytes of the text's code points truncated to their last eight bits, one byte per code point; the tree has one element for each, named by the number of the byte in decimal. It recognises its own text entirely exactly if all bytes of the text are below 128 (or the byte 253, which is decoded to a code point that ends in 253). AnyCharacter panics for the same arguments and otherwise recognises exactly one byte that is a truncated code point of the text.", "quantifier": "every name and text, valid UTF-8 or not, and every input", "why_tests_cant": "unbounded texts", "anchors": ["instances/grammars/components/tokens/token.go:AllCharacters", "instances/grammars/components/tokens/token.go:AnyCharacter"]}
{"id": "C119", "title": "What channel conditions do", "statement": "When the root is a line of single bytes and the channels are parsing expressions with arbitrary conditions, Execute recognises the line and leaves a given rest exactly when the bytes can be read one after the other, with the channels taking what they match before each of them and after the last. A channel is taken when its token is recognised, Execute of the condition's previous token returns no error on the data before, and Execute of its next token returns no error on the data after. The data before is the input from where the byte read before (or the channel taken before) started, and empty for the first byte and after the last one.", "quantifier": "all lines of bytes, channels, condition tokens and inputs", "why_tests_cant": "ranges over all inputs and all conditions", "anchors": ["libs/asts/applications/application.go:channels", "libs/asts/applications/application.go:channel", "libs/asts/applications/application.go:channelCondition"]}
{"id": "C120", "title": "A condition on the data before is never met at the end of the root", "statement": "When every channel has a condition on the data before whose token is not found on empty data, what follows the last byte of the root's line is left as it is, although the same channel is taken after the same byte when another byte of the line follows.", "quantifier": "all lines of bytes, such channels and inputs", "why_tests_cant": "shows, for all inputs, that the expected symmetry of channels fails", "anchors": ["libs/asts/applications/application.go:token", "libs/asts/applications/application.go:channelCondition"]}
{"id": "C121", "title": "A condition whose token is optional is no condition", "statement": "A channel whose condition asks for an optional byte before and an optional byte after is taken exactly when it would be without the condition, because Execute returns a tree without a successful line, and no error, when the byte is absent.", "quantifier": "all lines of bytes, channels and inputs", "why_tests_cant": "ranges over all inputs", "anchors": ["libs/asts/applications/application.go:channelCondition"]}
{"id": "C122", "title": "The history can be walked with CommitByHash", "statement": "CommitByHash returns the last commit listed by Commits that has the hash, and an error exactly if none has it or Commits fails. In a database used through one open context, every commit listed is found by its own hash, the first commit has no parent, and for every later one CommitByHash of its parent returns the commit before it, unless SHA-512 collides on two of the strings the listed commits are hashes of.", "quantifier": "all application states; all sequences of operations on a new database", "why_tests_cant": "ranges over all histories; two commits with the same hash would only show in a long or adversarial history", "anchors": ["libs/databases/infrastructure/files/application.go:CommitByHash", "libs/databases/infrastructure/files/application.go:Commits", "libs/databases/domain/references/commits.go:Fetch"]}
{"id": "C123", "title": "Reading many is reading each in order", "statement": "ReadAll and ReadAllByHashes return the results of Read and ReadByHash for each element, in the order given, and otherwise stop with what the first element without a result gives, returning nothing else. In a session ReadAllByHashes returns the data written last under each hash, and an error if one of the hashes was never committed.", "quantifier": "all lists of pointers or hashes, all states of the application and the files", "why_tests_cant": "ranges over all lists and histories", "anchors": ["libs/databases/infrastructure/files/application.go:ReadAll", "libs/databases/infrastructure/files/application.go:ReadAllByHashes"]}
{"id": "C124", "title": "Changed data is not noticed", "statement": "The wished guarantee that a database notices when the bytes of its contents were changed on disk does not hold: after Close of any database made by a session, the bytes of all contents in the file can be replaced by any others of the same total length; Open in a new application then succeeds, lists the same commits and content keys as before, and Read and ReadByHash return the other bytes under the old hashes.", "quantifier": "all sessions and all replacements of the data", "why_tests_cant": "ranges over all histories and all replacement bytes", "anchors": ["libs/databases/infrastructure/files/application.go:Open", "libs/databases/infrastructure/files/application.go:Read", "libs/databases/infrastructure/files/application.go:ReadByHash", "libs/databases/infrastructure/files/application.go:Close"]}
{"id": "C125", "title": "Heads are believed, commit hashes are recomputed", "statement": "Decoding a hash tree takes the first 64 bytes as its head without comparing it with the leaves, so any other 64 bytes in the place of the head decode to a tree with the same leaves whose head is not their Merkle root. The hash of a commit, on the other hand, is never stored: every decoded commit, and so every commit listed by a database after Open of any file, carries SHA-512 of its decoded head, time, parent and proof, and the result of mining is that of the hash and the proof (of the hash alone, not hashed again, if the proof is 0).", "quantifier": "all trees and heads; all encoded commits and all files", "why_tests_cant": "ranges over all bytes", "anchors": ["libs/cryptography/domain/hashtrees/adapter.go:ToHashTree", "libs/databases/domain/references/commit_adapter.go:ToCommit", "libs/databases/domain/references/commit_builder.go:Now", "libs/databases/infrastructure/files/application.go:Open"]}
{"id": "C126", "title": "Open does not check the history", "statement": "The wished guarantee that Open only accepts consistent histories does not hold: for any list of content keys and any list of commits, not empty, their encoding followed by any bytes is a file that Open accepts, listing exactly these keys and commits, whether or not the parents of the commits, the commits of the keys or the data the keys point to exist.", "quantifier": "all keys, commits and data areas", "why_tests_cant": "ranges over all references", "anchors": ["libs/databases/infrastructure/files/application.go:Open", "libs/databases/infrastructure/files/application.go:retrieveReference", "libs/databases/domain/references/adapter.go:ToReference"]}
{"id": "C127", "title": "Written bytes are taken at Commit, not at Write", "statement": "The wished guarantee that Write takes the bytes it is given does not hold: Write keeps the caller's slice. For every sequence of Write, Cancel, Commit and reopening, interleaved with any changes the caller makes to the memory its slices lie in, each Commit stores for every pending content (also those committed before and still pending) the bytes that memory holds at that commit, and reads give these bytes back. In particular bytes put over the slice between Write and Commit are what is read back under the hash given to Write.", "quantifier": "all sessions, all memories, all overlapping slices, all changes of the memory between the calls", "why_tests_cant": "ranges over all interleavings of database calls with changes of the caller's memory", "anchors": ["libs/databases/infrastructure/files/application.go:Write", "libs/databases/infrastructure/files/application.go:Commit", "libs/databases/domain/contents/content_builder.go:WithData", "libs/databases/domain/contents/content.go"]}
{"id": "C128", "title": "Building a hash tree can overwrite a block of the caller", "statement": "The wished guarantee that building a hash tree leaves the caller's blocks alone does not hold: given a slice of at most one block with room behind it in its array, Now replaces the block behind the slice by the empty block, and changes nothing else. With two or more blocks, or no room, every array of the caller is unchanged. In all cases the tree is that of the blocks of the slice.", "quantifier": "all memories, all slices of blocks, all contents", "why_tests_cant": "ranges over all ways a slice lies in its array", "anchors": ["libs/cryptography/domain/hashtrees/builder.go:Now", "libs/cryptography/domain/hashtrees/builder.go:WithBlocks"]}
{"id": "C129", "title": "What the hash tree builder takes and repeats", "statement": "A head and a parent leaf given to the hash tree builder are taken unchecked and take precedence over blocks: after any calls on the builder, Now builds the tree of the last head and the last parent given. Calling Now again on a builder with at least one block gives the same tree and changes no memory. On a builder with an empty list of blocks the first Now panics and the second gives the tree of one empty block.", "quantifier": "all sequences of calls on a builder, all heads, parents, blocks and memories", "why_tests_cant": "ranges over all builder states", "anchors": ["libs/cryptography/domain/hashtrees/builder.go:Now", "libs/cryptography/domain/hashtrees/builder.go:WithHead", "libs/cryptography/domain/hashtrees/builder.go:WithParent"]}
{"id": "C130", "title": "Every builder keeps to its rule", "statement": "Each of the 71 builders of the libraries (all but the hash tree builder, see C128 and C129) follows a rule saying which setters are needed, which are alternatives in order of precedence, and which are optional: after any calls of setters and Now, Now succeeds exactly if all needed values and, where there are alternatives, at least one of them were given, and the object built then holds for each needed or optional part the value given last, of the alternatives only the first one given in the order of the rule, and nothing else. A nil object, empty name, empty list or zero count counts as not given; a number given by pointer counts even if it is 0; names of the interpreter given as bytes count even if they are empty.", "quantifier": "all builders, all sequences of setter calls and Now calls, all arguments", "why_tests_cant": "ranges over all histories of calls on all builders", "anchors": ["libs/asts/domain/grammars/element_builder.go:Now", "libs/asts/domain/trees/tree_builder.go:Now", "libs/databases/domain/references/commit_builder.go:Now", "libs/interpreters/domain/instructions/instruction_builder.go:Now", "libs/queries/domain/queries/token_builder.go:Now"]}
{"id": "C131", "title": "Builders only remember the last arguments", "statement": "For each of these builders, two sequences of calls that agree on the last argument given to each setter build the same object or fail alike: the order of the setters, arguments given earlier and calls of Now in between have no influence.", "quantifier": "all builders, all pairs of call sequences", "why_tests_cant": "relates all pairs of histories", "anchors": ["libs/asts/domain/grammars/element_builder.go:Now", "libs/asts/domain/trees/tree_builder.go:Now", "libs/databases/domain/contents/content_builder.go:Now"]}
{"id": "C132", "title": "A maximum below the minimum never matches", "statement": "The cardinality builder accepts a maximum below the minimum. Whatever the grammar and the input, no matched line of any tree returned by Execute contains an element with such a cardinality: a line with one is never matched, and Execute goes on to the next line.", "quantifier": "all grammars with cardinalities below 2^63, all inputs, all nested trees", "why_tests_cant": "ranges over all grammars and inputs", "anchors": ["libs/asts/applications/application.go:line", "libs/asts/domain/grammars/cardinalities/builder.go:Now"]}
{"id": "C133", "title": "Only the equality of names matters to the parser", "statement": "If all names of a grammar (tokens, values, composes, everythings, externals, recursive references, also inside channels and external grammars) are renamed so that different names stay different, Execute on any input gives the same answer with the names changed in the same way: the same error, panic or non-termination, or the same tree with renamed grammars, the same remaining data and the same bytes.", "quantifier": "all injective renamings, all grammars, all inputs", "why_tests_cant": "relates runs on infinitely many pairs of grammars", "anchors": ["libs/asts/applications/application.go:Execute", "libs/asts/applications/stack.go", "libs/asts/domain/trees/elements.go:Fetch"]}
{"id": "C134", "title": "Bytes have no meaning to the parser", "statement": "If the bytes in a grammar and in the input are exchanged for others, different bytes for different bytes, Execute gives the same answer with the bytes exchanged in the tree and in the remaining data.", "quantifier": "all injective maps of bytes, all grammars, all inputs", "why_tests_cant": "relates runs on infinitely many pairs of inputs", "anchors": ["libs/asts/applications/application.go:Execute", "libs/asts/applications/application.go:elementValue"]}
{"id": "C135", "title": "Test suites do not change parsing", "statement": "Two grammars that differ in nothing but the test suites attached to their tokens give the same answer on every input, up to the suites of the tokens in the tree: the same error, or trees with the same success, remaining data and bytes.", "quantifier": "all pairs of grammars equal up to suites, all inputs", "why_tests_cant": "relates runs on infinitely many pairs of grammars", "anchors": ["libs/asts/applications/application.go:Execute", "libs/asts/domain/grammars/token.go"]}
{"id": "C136", "title": "Order neither notices missing blocks nor foreign ones", "statement": "When Order(data) succeeds, it gives as many blocks as it was given, every one of them taken from data, and they hash, in order, to a selection of the leaves in the order of the leaves. It does not check that the data is complete: when different blocks of a tree have different hashes and none hashes to the padding, any part of the blocks, in any order, is accepted and put in the order of the tree. Nor does it check that all the data belongs to the tree: for a tree of [a, a, b], the data [a, x] with a foreign block x is accepted, and the answer is [a, a].", "quantifier": "all trees and all data given to Order; for the refuted guarantees, all block lists, all parts of them and all orders", "why_tests_cant": "ranges over all block lists, subsets and permutations", "anchors": ["libs/cryptography/domain/hashtrees/adapter.go:ToOrder"]}
{"id": "C137", "title": "Opening a database does not disturb a commit", "statement": "Whatever the order in which the system calls of a Commit in one process and of an Open in another process are made, and whatever database the Open is for, the Commit ends with the outcome and leaves the files that it would alone. The steps of Commit, New and Open, made without interruption, are the operations of the other properties.", "quantifier": "all states, commits, applications and names, and all interleavings of the system calls", "why_tests_cant": "a test sees a few interleavings of thousands of system calls", "anchors": ["libs/databases/infrastructure/files/application.go:Commit", "libs/databases/infrastructure/files/application.go:Open"]}
{"id": "C138", "title": "Before the file is replaced, Open shows the history before the commit", "statement": "If another process ends an Open while the name still stands for the file that was there when a Commit began, the Open succeeds, and what it shows (commits, keys, contents) is the history before this Commit.", "quantifier": "all sessions and allowed commits, all interleavings of a Commit and an Open by another process with usable settings that does not have the database open", "why_tests_cant": "a test sees a few interleavings of thousands of system calls", "anchors": ["libs/databases/infrastructure/files/application.go:Commit", "libs/databases/infrastructure/files/application.go:Open"]}
{"id": "C139", "title": "An Open during a Commit can fail or show bytes of the header as data", "statement": "An Open by another process that ends at any moment during or after a Commit gives an error, the history before, the history after, or a mixture: the commits and keys of the history before, read from the file of the history after. The guarantee that it gives one of the two histories does not hold. For every session and allowed commit there is an interleaving in which both succeed and Open gives the mixture, so that at least the first 152 bytes it reads as data are bytes of the new header. There also is one in which Open fails although a database was there before and is there after.", "quantifier": "all sessions and allowed commits, all interleavings of a Commit and an Open by another process", "why_tests_cant": "the interleavings that break it need a switch between two given system calls", "anchors": ["libs/databases/infrastructure/files/application.go:Open", "libs/databases/infrastructure/files/application.go:retrieveReference", "libs/databases/infrastructure/files/application.go:Commit"]}
{"id": "C140", "title": "One commit at a time, until the file is replaced", "statement": "Two processes that have opened the same history commit at the same time. As long as the name stands for the file that was there at the beginning, this file still holds the whole history, and one of the two has not begun or was refused with an error, while the other goes through the states and to the outcome that it would reach alone.", "quantifier": "all sessions, all pairs of allowed commits, all interleavings", "why_tests_cant": "ranges over all interleavings of two commits", "anchors": ["libs/databases/infrastructure/files/application.go:Commit", "libs/databases/infrastructure/files/application.go:updateDatabaseOnFile"]}
{"id": "C141", "title": "Two commits can destroy the database", "statement": "The guarantee that commits of two processes exclude each other does not hold. For every session and every two allowed commits there is an interleaving in which the first Commit reports success and leaves an empty file, without side files; and one in which the first Commit reports success, the second one an error, and there is no file of that name any more: what is left is the old history under the name of the backup.", "quantifier": "all sessions, all pairs of allowed commits", "why_tests_cant": "the interleavings that break it need a switch between two given system calls", "anchors": ["libs/databases/infrastructure/files/application.go:Commit", "libs/databases/infrastructure/files/application.go:updateDatabaseOnFile"]}
{"id": "C142", "title": "New during a Commit can empty the database", "statement": "The guarantee that New leaves existing databases alone does not hold when another process commits. For every session and allowed commit there is an interleaving in which Commit and New both report success and the database is an empty file, without side files.", "quantifier": "all sessions and allowed commits", "why_tests_cant": "the interleaving that breaks it needs a switch between two given system calls", "anchors": ["libs/databases/infrastructure/files/application.go:New", "libs/databases/infrastructure/files/application.go:Commit"]}
{"id": "C143", "title": "Tokens that refer to themselves once per line are recursive parsing expressions", "statement": "For a grammar as in C89, except that a line may contain one reference to its own token, at most once, after an element that must occur, Execute ends without a panic and finds exactly what the grammar means as a parsing expression with recursion: the reference matches what its token matches at that place, to any depth. The tree has exactly the syntax tree of the parsing expression, and its remaining bytes.", "quantifier": "every grammar of that class, every input, every depth of recursion", "why_tests_cant": "unbounded grammars, inputs and depths", "anchors": ["libs/asts/applications/application.go:Execute", "libs/asts/applications/application.go:token", "libs/asts/applications/application.go:block", "libs/asts/applications/application.go:elementContent", "libs/asts/domain/grammars/elementcontent.go:ElementContent"]}
{"id": "C144", "title": "Exactly what tokens that refer to themselves match", "statement": "For a grammar as in C89, except that lines may contain any number of references to their own token, any number of times, after an element that must occur, Execute ends without a panic and finds exactly what the grammar means as a parsing expression with recursion in which, in each attempt at a line, only the first reference that is tried can match, and only once, whether it matched or not; every later one in the line counts as absent.", "quantifier": "every grammar of that class, every input, every depth of recursion", "why_tests_cant": "unbounded grammars, inputs and depths", "anchors": ["libs/asts/applications/application.go:Execute", "libs/asts/applications/application.go:token", "libs/asts/applications/application.go:block", "libs/asts/applications/application.go:elementContent", "libs/asts/domain/grammars/elementcontent.go:ElementContent"]}
{"id": "C145", "title": "A later line that refers to an enclosing token after the same values never matches", "statement": "It is not the case that the lines of a token are tried independently of each other: if a line of a token refers to an enclosing token (of another name) after some values, a later line of the token that starts with the same values and then needs the same reference is never the line that matched in a tree of Execute, for any input, even if only this line could match it. In the other order of the lines, the input is matched.", "quantifier": "every grammar without externals in which references come after an element that must occur and no token is used inside one of the same name, every input, every tree in the result", "why_tests_cant": "unbounded grammars and inputs", "anchors": ["libs/asts/applications/application.go:Execute", "libs/asts/applications/application.go:token", "libs/asts/applications/application.go:block", "libs/asts/applications/application.go:elementContent"]}
{"id": "C146", "title": "Rounding does not change the number of leaves", "statement": "For fewer than 2^42 blocks, the number of leaves of a hash tree is the least power of two that is not smaller than the number of blocks, although the code computes it from rounded logarithms, provided the logarithm and the division are within one unit in the last place; so the tree is the one an exact computation would give.", "quantifier": "every block list of fewer than 2^42 blocks, every logarithm and division whose relative error is at most 2^-52", "why_tests_cant": "too many lengths to try; the rounding of the logarithm differs between platforms", "anchors": ["libs/cryptography/domain/hashtrees/builder.go:Now"]}
{"id": "C147", "title": "Any number of processes may open while one commits", "statement": "If one process commits while any number of other processes open databases, in any order of system calls and with any of them stopping anywhere, the Commit ends with the outcome and leaves the files that it would alone, and each Open that ends gives what it can give when nobody else opens: the history before while the file has not been replaced, and later an error, that history, the next one, or the mixture of C139.", "quantifier": "every number of processes, every order of their system calls, every session, every allowed commit, every set of names opened", "why_tests_cant": "unbounded number of processes and schedules", "anchors": ["libs/databases/infrastructure/files/application.go:Commit", "libs/databases/infrastructure/files/application.go:Open", "libs/databases/infrastructure/files/application.go:updateDatabaseOnFile", "libs/databases/infrastructure/files/application.go:retrieveReference"]}
{"id": "C148", "title": "One commit at a time among any number of processes, until the file is replaced", "statement": "Any number of processes that have opened the same history commit at the same time, and any number of processes open it. As long as the name stands for the file that was there at the beginning, this file holds the whole history; one of the commits is at a point that it would also reach alone, and goes on to the outcome it would have alone, and each other one has not begun or was refused with an error; and every Open that has ended succeeded and shows the history.", "quantifier": "every number of committing and opening processes, every order of their system calls, every process stopping anywhere, every session and every allowed batches", "why_tests_cant": "unbounded number of processes and schedules", "anchors": ["libs/databases/infrastructure/files/application.go:Commit", "libs/databases/infrastructure/files/application.go:updateDatabaseOnFile", "libs/databases/infrastructure/files/application.go:Open"]}
{"id": "C149", "title": "Commit returns unless the file ends where its data would start", "statement": "Commit on an open context returns, whatever errors the disk gives to its writes, whatever locks are held and whatever else the directory holds, if the context has no history yet or the size of its file is not the position where the data starts; it reads no more chunks than the file has bytes. So it returns after every sequence of successful operations. It never returns when the file holds a history and no data: if the first content of the first Commit could not be written at all, Commit reports success, and calling it again hangs forever; and a file cut off behind its header is opened without an error, a content can be written, and Commit hangs forever.", "quantifier": "all contexts, files, directories, chunk sizes, write failures and locks; all sessions; all histories of a cut off file", "why_tests_cant": "termination for every file size and failure; a hang is no test result", "anchors": ["libs/databases/infrastructure/files/application.go:writeDataAndReferenceOnDestinationFile", "libs/databases/infrastructure/files/application.go:makeChunkSize", "libs/databases/infrastructure/files/application.go:Commit"]}
{"id": "C150", "title": "Which bytes the database decoders accept", "statement": "Pointers, keys, contents and lists of contents are decoded from exactly their encodings, so no two byte strings stand for the same value, and the result does not depend on the memory behind the input. A list of keys is decoded exactly if the input with the memory behind it begins with its encoding and the input has room for one key; so the same input can be two lists, depending on that memory. A commit is decoded exactly from its time, its values with their length, and an end: nothing, or a zero byte with the length and big endian bytes of a proof, then nothing or one byte and a parent; so any byte but zero may stand before the parent, a parent of another length is replaced by its hash, and a proof may begin with zero bytes. A list of commits is decoded exactly from such commits with their lengths in front. A reference is decoded exactly from both lists with their lengths in front and anything behind.", "quantifier": "all byte strings shorter than 2^63, all memory behind them, all decoded values", "why_tests_cant": "an exact characterisation over all inputs, and memory behind a slice that tests do not control", "anchors": ["libs/databases/domain/references/pointer_adapter.go:ToPointer", "libs/databases/domain/references/contentkey_adapter.go:ToContentKey", "libs/databases/domain/references/contentkeys_adapter.go:ToContentKeys", "libs/databases/domain/references/commit_adapter.go:ToCommit", "libs/databases/domain/references/commits_adapter.go:ToCommits", "libs/databases/domain/references/adapter.go:ToReference", "libs/databases/domain/contents/adapter.go:ToInstance", "libs/databases/domain/contents/content_adapter.go:ToInstance"]}
{"id": "C151", "title": "The size of a database file", "statement": "After any session the file of a database without commits is empty. Otherwise its size is exactly: 32 bytes, 152 for every content ever committed, the bytes of all those contents, 136 times the number of leaves less 48 for every commit, where the number of leaves is the least power of two, at least two, not below the number of contents of the commit, and 65 for every commit but the first. Nothing else takes room: not cancelled writes, reopening, or the order of the calls.", "quantifier": "all sessions of writes, cancels, commits and reopenings, all contents, chunk sizes and clocks", "why_tests_cant": "an exact size for every history, not for the few a test builds", "anchors": ["libs/databases/infrastructure/files/application.go:Commit", "libs/databases/infrastructure/files/application.go:Write", "libs/cryptography/domain/hashtrees/adapter.go:ToContent", "libs/databases/domain/references/adapter.go:ToContent", "libs/databases/domain/references/commit_adapter.go:ToContent"]}
{"id": "C152", "title": "Which file a database name stands for", "statement": "A name given to the database application is followed element by element from the configured directory, even if the name begins with a slash: empty elements and dots stay, two dots go up and stop at the root, any other element goes down. Without a configured directory the name itself is the path. Plain names (not empty, no slash, not one or two dots) are exactly the files directly in the directory, different names being different files. It is false that names stay in the directory: two dots, a slash and any plain name lead to a file beside it. It is false that a file has one name: a dot and a slash, or a slash, in front of a name lead to the same file.", "quantifier": "all working directories, configured directories, relative or absolute, and names, as byte strings", "why_tests_cant": "ranges over all byte strings for both parts of a path", "anchors": ["libs/databases/infrastructure/files/application.go:Exists", "libs/databases/infrastructure/files/application.go:New", "libs/databases/infrastructure/files/application.go:Delete", "libs/databases/infrastructure/files/application.go:Open", "libs/databases/infrastructure/files/application.go:Commit"]}
{"id": "C153", "title": "A database application works only in its directory", "statement": "With plain names and extensions without slashes, every sequence of calls on an application (creating, opening, writing, reading, committing, cancelling, closing, deleting) gives, in a directory anywhere in a file system, the answers it gives in a file system that is this directory alone, leaves the same files with the same bytes there, and changes no name outside of the directory. New makes the directories missing on the way and an empty file, if nothing but directories is in the way, and changes no other name or byte; if a file is on the way, or the name is there, it returns an error and changes nothing.", "quantifier": "all file systems, directories, working directories, applications, and sequences of calls with plain names, with failing writes", "why_tests_cant": "ranges over all call sequences and all surrounding file systems", "anchors": ["libs/databases/infrastructure/files/application.go:New", "libs/databases/infrastructure/files/application.go:Open", "libs/databases/infrastructure/files/application.go:Commit", "libs/databases/infrastructure/files/application.go:Delete", "libs/databases/infrastructure/files/application.go:Close"]}
{"id": "C154", "title": "One database opened under two names loses commits", "statement": "Open refuses a database that the application has open under the same name, but not under another name of the same file. It is false that one application keeps all batches it commits: after any session, opening the file under any other name that leads to it succeeds with another context; if both contexts then commit, both calls succeed and each context shows its own batch, but the file holds only the batch of the second, after those of the session.", "quantifier": "all sessions, all other names of the file, all batches and clocks", "why_tests_cant": "ranges over all histories before the second Open and all names", "anchors": ["libs/databases/infrastructure/files/application.go:Open", "libs/databases/infrastructure/files/application.go:Commit"]}
{"id": "C155", "title": "A commit that succeeded can be lost when the power fails", "statement": "No call waits for the disk. Suppose the power fails during a Commit or at any time after it, and the disk keeps the directory of some moment and of each file the bytes of some moment, up to then. Then the database's name leads to nothing, to the old file, to a file that a stopped Commit had left under the destination name before, or to the first bytes of the new file; all other names keep their bytes. Open of the first bytes of a database file succeeds and shows no commits if there are fewer than eight, fails if the part before the contents is not complete, and otherwise succeeds, showing all commits and keys, where reading a content gives its bytes if they are all there and an error if not. It is false that a commit that succeeded survives a loss of power: after every one of them, the disk can hold an empty file under the database's name and no other copy, so that Open succeeds and shows no commit, old or new.", "quantifier": "all sessions, all commits, all moments of the loss of power, all choices of what reached the disk, all lengths of the file", "why_tests_cant": "ranges over all histories and everything a disk may keep; a test cannot cut the power", "anchors": ["libs/databases/infrastructure/files/application.go:Commit", "libs/databases/infrastructure/files/application.go:Open", "libs/databases/infrastructure/files/application.go:ReadByHash"]}
{"id": "C156", "title": "Calls of goroutines that never overlap act one after the other", "statement": "If goroutines share one application value and only one of them is inside a call at any time, then every call (Open, Read, ReadByHash, ReadAll, ReadAllByHashes, ContentKeysByKind, Commits, CommitByHash, Write, Cancel, Commit, Close) answers, and leaves the contexts and the files, exactly as the same calls made by one goroutine in that order. Every application with distinct identifiers has a memory in which this holds, and a new application has the empty one.", "quantifier": "all applications, all memories that hold them, all calls and arguments", "why_tests_cant": "ranges over all states and calls", "anchors": ["libs/databases/infrastructure/files/application.go:Open", "libs/databases/infrastructure/files/application.go:Read", "libs/databases/infrastructure/files/application.go:ReadByHash", "libs/databases/infrastructure/files/application.go:Write", "libs/databases/infrastructure/files/application.go:Cancel", "libs/databases/infrastructure/files/application.go:Commit", "libs/databases/infrastructure/files/application.go:Close", "libs/databases/infrastructure/files/application.go:ReadAll", "libs/databases/infrastructure/files/application.go:ReadAllByHashes", "libs/databases/infrastructure/files/application.go:ContentKeysByKind", "libs/databases/infrastructure/files/application.go:Commits", "libs/databases/infrastructure/files/application.go:CommitByHash"]}
{"id": "C157", "title": "Readers of other databases are not affected by a call in another goroutine", "statement": "Several databases are open in one application. One goroutine makes any one call on one of them, or opens a further database, while any number of other goroutines read the other databases with Read, ReadByHash, ReadAll, ReadAllByHashes, ContentKeysByKind, Commits or CommitByHash. In every order of their steps, every reader that finishes gets the answer it would get with no other goroutine, and the call, when it finishes, answers and leaves what it would alone. The steps are the accesses to the map and to the fields of contexts and the calls to the file system, in some order that all goroutines agree on; what the Go runtime does on data races on the map is not part of the claim.", "quantifier": "all histories of all sets of databases, all calls, any number of readers, all schedules", "why_tests_cant": "ranges over all schedules of any number of goroutines", "anchors": ["libs/databases/infrastructure/files/application.go:Open", "libs/databases/infrastructure/files/application.go:Read", "libs/databases/infrastructure/files/application.go:ReadByHash", "libs/databases/infrastructure/files/application.go:Write", "libs/databases/infrastructure/files/application.go:Cancel", "libs/databases/infrastructure/files/application.go:Commit", "libs/databases/infrastructure/files/application.go:Close", "libs/databases/infrastructure/files/application.go:ReadAll", "libs/databases/infrastructure/files/application.go:ReadAllByHashes", "libs/databases/infrastructure/files/application.go:ContentKeysByKind", "libs/databases/infrastructure/files/application.go:Commits", "libs/databases/infrastructure/files/application.go:CommitByHash"]}
{"id": "C158", "title": "Any number of goroutines may read at the same time", "statement": "Any number of goroutines call Read, ReadByHash, ReadAll, ReadAllByHashes, ContentKeysByKind, Commits or CommitByHash on any contexts of one application, the same or different ones. In every order of their steps each of them that finishes gets the answer it would get alone, and nothing is changed.", "quantifier": "all applications, any number of readers, all schedules", "why_tests_cant": "ranges over all schedules of any number of goroutines", "anchors": ["libs/databases/infrastructure/files/application.go:Read", "libs/databases/infrastructure/files/application.go:ReadByHash", "libs/databases/infrastructure/files/application.go:Commits", "libs/databases/infrastructure/files/application.go:ReadAll", "libs/databases/infrastructure/files/application.go:ReadAllByHashes", "libs/databases/infrastructure/files/application.go:ContentKeysByKind", "libs/databases/infrastructure/files/application.go:CommitByHash"]}
{"id": "C159", "title": "A reader of a database during a Commit on it can get bytes that are no content", "statement": "While a Commit that is allowed runs on a database, any number of other goroutines call ReadByHash on the same context. In every order of their steps the Commit is not affected. A reader that finishes gets the answer from before the Commit, the answer from after it, an error, or the bytes found in the new file where a content with this hash would be if the part of the file before the contents had the old length. ReadAllByHashes fails or gives for each hash one of these. A goroutine that calls ContentKeysByKind, Commits or CommitByHash gets the answer from before or the answer from after. It is false that a reader gets a content or an error: for every content that was committed there is an order in which the Commit succeeds and ReadByHash of its hash answers those other bytes without an error.", "quantifier": "all sessions, all allowed commits, all hashes, any number of readers, all schedules", "why_tests_cant": "ranges over all schedules; a test cannot choose where a goroutine is interrupted", "anchors": ["libs/databases/infrastructure/files/application.go:Commit", "libs/databases/infrastructure/files/application.go:ReadByHash", "libs/databases/infrastructure/files/application.go:Commits", "libs/databases/infrastructure/files/application.go:ReadAll", "libs/databases/infrastructure/files/application.go:ReadAllByHashes", "libs/databases/infrastructure/files/application.go:ContentKeysByKind", "libs/databases/infrastructure/files/application.go:CommitByHash"]}
{"id": "C160", "title": "Two goroutines that open two databases can get the same identifier", "statement": "It is false that two calls of Open in two goroutines of one application that both succeed give two identifiers. Whenever two databases can be opened one after the other, there is an order of the steps of the two goroutines in which both calls succeed with the same identifier. Afterwards this identifier leads to the first database and no context leads to the second one.", "quantifier": "all applications, all pairs of databases that can be opened", "why_tests_cant": "a test cannot choose where a goroutine is interrupted", "anchors": ["libs/databases/infrastructure/files/application.go:Open"]}
{"id": "C161", "title": "A content written by one of two goroutines can be lost", "statement": "It is false that two calls of Write on one context in two goroutines that both succeed leave both contents pending. Whenever each of the two would succeed, there is an order of their steps in which both succeed and only the first content is pending.", "quantifier": "all applications, all pairs of contents", "why_tests_cant": "a test cannot choose where a goroutine is interrupted", "anchors": ["libs/databases/infrastructure/files/application.go:Write"]}
{"id": "C162", "title": "A Write during a Commit can spoil the database", "statement": "It is false that a Write during a Commit in another goroutine on the same context is either part of that Commit or not. For every session, every Commit that is allowed and every content there is an order of the steps in which both calls succeed, the commits and the keys are those without the content, and the file nevertheless ends with its bytes. The next Commit also succeeds. Then ReadByHash of that content answers a piece of the two copies of its bytes with the other pending contents between them, beginning at the length of the other pending contents, which need not be its bytes.", "quantifier": "all sessions, all allowed commits, all contents", "why_tests_cant": "a test cannot choose where a goroutine is interrupted", "anchors": ["libs/databases/infrastructure/files/application.go:Write", "libs/databases/infrastructure/files/application.go:Commit", "libs/databases/infrastructure/files/application.go:ReadByHash"]}
{"id": "C163", "title": "Readers of a database beside a Write, a Cancel or a Close of it", "statement": "Any number of goroutines read with Read, ReadByHash, ReadAll, ReadAllByHashes, ContentKeysByKind, Commits or CommitByHash while one goroutine calls Write or Cancel on any context of the same application, also the one they read. In every order of the steps each reader that finishes gets the answer it would get alone, and the Write or Cancel answers and leaves what it would alone. While one goroutine calls Close, each reader of the same context that finishes gets the answer it would get alone, or an error, and never other bytes or a panic it would not get alone; the Close is not affected.", "quantifier": "all applications, all calls, any number of readers, all schedules", "why_tests_cant": "ranges over all schedules of any number of goroutines", "anchors": ["libs/databases/infrastructure/files/application.go:Write", "libs/databases/infrastructure/files/application.go:Cancel", "libs/databases/infrastructure/files/application.go:Close", "libs/databases/infrastructure/files/application.go:Read", "libs/databases/infrastructure/files/application.go:ReadByHash", "libs/databases/infrastructure/files/application.go:ReadAll", "libs/databases/infrastructure/files/application.go:ReadAllByHashes", "libs/databases/infrastructure/files/application.go:ContentKeysByKind", "libs/databases/infrastructure/files/application.go:Commits", "libs/databases/infrastructure/files/application.go:CommitByHash"]}
{"id": "C164", "title": "One of two Commits in two goroutines can be lost", "statement": "It is false that two calls of Commit on one context in two goroutines that both succeed leave both commits in the database. For every session and every two times at which the Commit is allowed there is an order of the steps in which both succeed, and afterwards the commits and the keys are those of one of them only. The file then ends with a second copy of the bytes of the batch, which no key leads to.", "quantifier": "all sessions, all pairs of allowed commits", "why_tests_cant": "a test cannot choose where a goroutine is interrupted", "anchors": ["libs/databases/infrastructure/files/application.go:Commit"]}
{"id": "C165", "title": "A Cancel during a Commit can lose the contents that are committed", "statement": "It is false that a Cancel during a Commit in another goroutine on the same context comes before it or after it. For every session and every Commit that is allowed there is an order of the steps in which both succeed, the new commit and all its keys are there, and none of its bytes are in the file: all earlier contents read as before, and ReadByHash of each content of the batch is an error.", "quantifier": "all sessions, all allowed commits, all contents of the batch", "why_tests_cant": "a test cannot choose where a goroutine is interrupted", "anchors": ["libs/databases/infrastructure/files/application.go:Cancel", "libs/databases/infrastructure/files/application.go:Commit", "libs/databases/infrastructure/files/application.go:ReadByHash"]}
{"id": "C166", "title": "A token that starts with itself is repeated once at most", "statement": "It is false that a left recursive token reads lists. For a token whose lines are sequences of bytes, and one that refers to the token and then has a sequence of bytes, without channels, Execute ends and does exactly this: if the input starts with one of the lines before, the first such line is matched; otherwise, if it starts with one of the lines behind, the first such line is what the reference matches, and the line with the reference is matched if its bytes follow, and that first line alone otherwise; otherwise it is an error. In particular, for n := @n x | y, every input y x x ... x is in the language of the grammar, and Execute reads y x and leaves the rest.", "quantifier": "all names, all lines before and behind, all inputs, any number of repetitions", "why_tests_cant": "unbounded inputs and numbers of lines; a test with one repetition passes", "anchors": ["libs/asts/applications/application.go:Execute", "libs/asts/applications/application.go:token", "libs/asts/applications/application.go:block", "libs/asts/applications/application.go:line", "libs/asts/applications/application.go:element"]}
{"id": "C167", "title": "File descriptors do not matter to calls that are made one at a time", "statement": "In a process where each open connection has a descriptor number that stands for it, and no lock is held, a call of Open, Read, Write, Cancel, Commit or Close that has the process for itself answers exactly what it answers without descriptors and leaves the same databases and files. Each open connection has again a number that stands for it.", "quantifier": "all applications, file systems, descriptor tables, calls and arguments", "why_tests_cant": "every descriptor table and every state of the files", "anchors": ["libs/databases/infrastructure/files/application.go:Open", "libs/databases/infrastructure/files/application.go:Read", "libs/databases/infrastructure/files/application.go:Write", "libs/databases/infrastructure/files/application.go:Cancel", "libs/databases/infrastructure/files/application.go:Commit", "libs/databases/infrastructure/files/application.go:Close", "libs/databases/infrastructure/files/application.go:updateDatabaseOnFile", "libs/databases/infrastructure/files/application.go:writeDataAndReferenceOnDestinationFile", "vendor/github.com/juju/fslock/fslock_nix.go:TryLock", "vendor/github.com/juju/fslock/fslock_nix.go:Unlock"]}
{"id": "C168", "title": "A Commit that is refused the lock can take the connection of the Commit that holds it", "statement": "It is false that a refused Commit has no effect. For every database that was written and committed in any way, and any two allowed Commits of the same context in two goroutines, there is a schedule where the first succeeds and the second is refused the lock, and the database has lost its connection: the file has the whole new history and the context shows all commits and keys, but each Read of a length above zero fails, Close fails, and Open of the same name fails. The condition is that no descriptor number below the one of the connection is free. The lock of a context keeps its descriptor in one field: the second writes its own number there, closes it, and the new connection of the first gets that number; the Unlock of the first closes it.", "quantifier": "all histories, all pairs of allowed commits, all descriptor tables without a free number below the connection", "why_tests_cant": "needs one schedule of two goroutines out of all; a race detector run does not assert on the descriptor", "anchors": ["libs/databases/infrastructure/files/application.go:Commit", "libs/databases/infrastructure/files/application.go:updateDatabaseOnFile", "libs/databases/infrastructure/files/application.go:Read", "libs/databases/infrastructure/files/application.go:Close", "libs/databases/infrastructure/files/application.go:Open", "vendor/github.com/juju/fslock/fslock_nix.go:TryLock", "vendor/github.com/juju/fslock/fslock_nix.go:Unlock"]}
{"id": "C169", "title": "After that a database can read the file of another one, and close it", "statement": "It is false that Read answers only from the file of its own database. For every database as in C168 there is a schedule of the two Commits such that afterwards, whenever the Open of another name succeeds with another identifier, a Read on the first identifier answers the bytes of the file of the other database, at the offset where the data of the first starts. Close of the first identifier succeeds, and then each Read of a length above zero on the other identifier fails.", "quantifier": "all histories, all pairs of allowed commits, all other files, offsets and lengths within the file", "why_tests_cant": "needs one schedule of two goroutines, and then any other database", "anchors": ["libs/databases/infrastructure/files/application.go:Commit", "libs/databases/infrastructure/files/application.go:updateDatabaseOnFile", "libs/databases/infrastructure/files/application.go:Read", "libs/databases/infrastructure/files/application.go:Close", "libs/databases/infrastructure/files/application.go:Open", "vendor/github.com/juju/fslock/fslock_nix.go:TryLock", "vendor/github.com/juju/fslock/fslock_nix.go:Unlock"]}
{"id": "C170", "title": "A directory can be opened as a database that can never be committed", "statement": "It is false that only a database can be opened. Open of a name that is a directory (for example the empty name, which is the directory of the application) succeeds and changes no name and no file. After any sequence of Write, Cancel and Commit on it, each Write of data and each Cancel was answered with success, no Commit was, the file system is unchanged, each Read of a length above zero fails, there are no commits and no keys, and Close succeeds. New and Delete of the name fail.", "quantifier": "all file systems, applications and names of directories, all sequences of Write, Cancel and Commit", "why_tests_cant": "all sequences of calls on all file systems", "anchors": ["libs/databases/infrastructure/files/application.go:Open", "libs/databases/infrastructure/files/application.go:retrieveReference", "libs/databases/infrastructure/files/application.go:New", "libs/databases/infrastructure/files/application.go:Delete", "libs/databases/infrastructure/files/application.go:Write", "libs/databases/infrastructure/files/application.go:Cancel", "libs/databases/infrastructure/files/application.go:Commit", "libs/databases/infrastructure/files/application.go:Read", "libs/databases/infrastructure/files/application.go:Close"]}
{"id": "C171", "title": "Parsing can take time exponential in the length of the input", "statement": "It is false that the time Execute takes is bounded by a polynomial in the length of the input. The grammar of one token A with the lines '( A x', '( A y' and 'z', where A in a line is a recursive reference, reads m opening brackets, a z and m times y completely and successfully, and parses the token 2^(m+1)-1 times, on 2m+1 bytes. So for every polynomial there is an input on which it parses tokens more often than the polynomial of its length, although every recursive reference comes after a required byte. The counting parser the theorem is about gives the tree the parser gives, for every grammar without channels and externals.", "quantifier": "all depths m, all polynomials c*(length+1)^d, all bounds on the depth of calls that are enough; for the counting, all grammars without channels and externals and all inputs", "why_tests_cant": "a growth rate is a statement on inputs of any length", "anchors": ["libs/asts/applications/application.go:Execute", "libs/asts/applications/application.go:grammar", "libs/asts/applications/application.go:token", "libs/asts/applications/application.go:block", "libs/asts/applications/application.go:line", "libs/asts/applications/application.go:element", "libs/asts/applications/application.go:elementContent"]}
{"id": "C172", "title": "Grammars without recursion are parsed in polynomial time", "statement": "For every grammar without recursive references, channels and externals there are numbers c and d, such that Execute parses tokens at most c*(n+1)^d times on any input of n bytes, matching or not. Everythings and escapes may be used.", "quantifier": "all grammars without recursive references, channels and externals, all inputs", "why_tests_cant": "a growth rate is a statement on inputs of any length", "anchors": ["libs/asts/applications/application.go:Execute", "libs/asts/applications/application.go:grammar", "libs/asts/applications/application.go:token", "libs/asts/applications/application.go:block", "libs/asts/applications/application.go:line", "libs/asts/applications/application.go:element", "libs/asts/applications/application.go:elementContent", "libs/asts/applications/application.go:everything"]}
{"id": "C173", "title": "Work can go on after a process dies in Commit", "statement": "Whatever the moment a process dies in Commit, a new process finds one of three things. Open of the database succeeds and shows the history without the new batch; or it succeeds and shows the history with it; or there is no file of that name, and then renaming the destination file to the name of the database makes Open succeed with the new batch, and renaming the backup file makes it succeed without. In each case every further allowed work (writes, commits, cancels, reopening) then succeeds and shows that history and what was added, in spite of the side files that were left behind.", "quantifier": "all sessions, all commits, all moments between and inside the system calls at which the process can die, all allowed work afterwards", "why_tests_cant": "crash points and what follows them cannot be enumerated", "anchors": ["libs/databases/infrastructure/files/application.go:New", "libs/databases/infrastructure/files/application.go:Open", "libs/databases/infrastructure/files/application.go:Write", "libs/databases/infrastructure/files/application.go:Commit", "libs/databases/infrastructure/files/application.go:updateDatabase", "libs/databases/infrastructure/files/application.go:Exists"]}
{"id": "C174", "title": "New after a process died in Commit loses the history", "statement": "It is false that what a process that died in Commit has left survives ordinary use. In every Commit there is a moment at which the process can die with no file of the database's name, both copies being complete in the two side files. Exists then says no, New and Open succeed, and after any allowed work that ends with a Commit the database holds only that work and both side files are gone, so neither copy is left under the three names.", "quantifier": "all sessions, all commits, all allowed work afterwards that ends with a commit", "why_tests_cant": "it is about every history and every later work", "anchors": ["libs/databases/infrastructure/files/application.go:New", "libs/databases/infrastructure/files/application.go:Open", "libs/databases/infrastructure/files/application.go:Write", "libs/databases/infrastructure/files/application.go:Commit", "libs/databases/infrastructure/files/application.go:updateDatabase", "libs/databases/infrastructure/files/application.go:Exists"]}
{"id": "C175", "title": "Each other kind of assignment, taken alone, reads exactly its texts", "statement": "The grammar of grammars has four kinds of assignment besides that of a value: of a compose (a name with amounts after '|'), of an everything ('#' name, or '#' name '!' name), of a block (lines of elements between '|'), and of an external token (128 hexadecimal digits). With each of them as the root and the channels of the grammar of grammars, Execute recognises a text exactly when the text, without its blanks and comments, starts with a name, ':', such a body, a suite and ';', where the suite is three dashes and a valid part, an invalid part or both, each of them names between '&' after a ':' and before a ';'. The tree then holds exactly that text, and what follows it is what remains.", "quantifier": "all texts, all suites of the tokens", "why_tests_cant": "the texts are unbounded and blanks and comments can be anywhere in them", "anchors": ["instances/grammars/grammars/grammar.go:externalTokenAssignmentToken", "instances/grammars/grammars/grammar.go:tokenAssignmentToken", "instances/grammars/grammars/grammar.go:valueAssignmentToken", "instances/grammars/grammars/grammar.go:suiteToken", "instances/grammars/grammars/grammar.go:suiteInvalidToken", "instances/grammars/grammars/grammar.go:suiteValidToken", "instances/grammars/grammars/grammar.go:suiteBlockToken", "instances/grammars/grammars/grammar.go:delimiterThenSuiteElementToken", "instances/grammars/grammars/grammar.go:blockToken", "instances/grammars/grammars/grammar.go:delimiterThenLineToken", "instances/grammars/grammars/grammar.go:lineToken", "instances/grammars/grammars/grammar.go:elementToken", "instances/grammars/grammars/grammar.go:cardinalityToken", "instances/grammars/grammars/grammar.go:composeAssignmentToken", "instances/grammars/grammars/grammar.go:composeToken", "instances/grammars/grammars/grammar.go:separatorAmountOfComposeToken", "instances/grammars/grammars/grammar.go:everythingAssignmentToken", "instances/grammars/grammars/grammar.go:everythingToken", "instances/grammars/grammars/grammar.go:everythingWithEscapeToken", "instances/grammars/grammars/grammar.go:everythingWithoutEscapeToken"]}
{"id": "C176", "title": "Two names in a row in a line are read as one element", "statement": "It is false that a line of the grammar of grammars can have a name directly followed by another. A text that is recognised as a line is a sequence of elements, names with cardinalities, in which only the last can be without a cardinality; each such text is recognised when no letter and no cardinality follows; and any two names, whatever blanks and comments are between them, are read as one element with the two names glued together.", "quantifier": "all texts, all names, all blanks and comments", "why_tests_cant": "the texts are unbounded", "anchors": ["instances/grammars/grammars/grammar.go:externalTokenAssignmentToken", "instances/grammars/grammars/grammar.go:tokenAssignmentToken", "instances/grammars/grammars/grammar.go:valueAssignmentToken", "instances/grammars/grammars/grammar.go:suiteToken", "instances/grammars/grammars/grammar.go:suiteInvalidToken", "instances/grammars/grammars/grammar.go:suiteValidToken", "instances/grammars/grammars/grammar.go:suiteBlockToken", "instances/grammars/grammars/grammar.go:delimiterThenSuiteElementToken", "instances/grammars/grammars/grammar.go:blockToken", "instances/grammars/grammars/grammar.go:delimiterThenLineToken", "instances/grammars/grammars/grammar.go:lineToken", "instances/grammars/grammars/grammar.go:elementToken", "instances/grammars/grammars/grammar.go:cardinalityToken", "instances/grammars/grammars/grammar.go:composeAssignmentToken", "instances/grammars/grammars/grammar.go:composeToken", "instances/grammars/grammars/grammar.go:separatorAmountOfComposeToken", "instances/grammars/grammars/grammar.go:everythingAssignmentToken", "instances/grammars/grammars/grammar.go:everythingToken", "instances/grammars/grammars/grammar.go:everythingWithEscapeToken", "instances/grammars/grammars/grammar.go:everythingWithoutEscapeToken"]}
{"id": "C177", "title": "A token made of a text passes its own suite exactly for plain texts", "statement": "The only coverage of a token that AllCharacters makes of a text is its own suite, which is that text, as valid. Its result is a tree that recognises the whole text exactly if all bytes of the text are below 128 (or the byte 253); so it is false that the suite a component adds to a token always passes.", "quantifier": "every name and text for which AllCharacters does not panic", "why_tests_cant": "unbounded texts", "anchors": ["instances/grammars/components/tokens/token.go:AllCharacters", "instances/grammars/components/suites/suite.go:Suites", "instances/grammars/components/composes/compose.go:Compose", "libs/asts/applications/application.go:Coverages"]}
{"id": "C178", "title": "Every part of a tree is of a token of the grammar", "statement": "When Execute succeeds, the tree is of the root token of the grammar, and every tree inside it, at any depth, is of a token that the root uses, or that the token of a channel uses, or that an external grammar uses, or is the root of an external under the name of the external. What stands before a value or behind a token is of the token of a channel of the grammar or of one of its externals, and never of another token.", "quantifier": "every grammar with any channels, conditions, externals, everythings and recursive references, every text", "why_tests_cant": "grammars and texts are unbounded and the trees are nested to any depth", "anchors": ["libs/asts/applications/application.go:Execute", "libs/asts/applications/application.go:channels"]}
{"id": "C179", "title": "The names in a parsed grammar follow a fixed table", "statement": "With the grammar of grammars, or any token of it as the root and its channels, every tree that Execute returns has the names of one fixed table: a token named as in the first column holds only tokens with the names in the second (a grammar holds root, channel and instruction; a suite holds suitePrefixConst, suiteValid and suiteInvalid; and so on), at every depth. What is skipped between its bytes is named space, tab, newLine, retChar or singleLineComment. So a search for any other name, or for a name below the wrong parent, finds nothing.", "quantifier": "every token of the grammar of grammars, every text, every suite of the tokens", "why_tests_cant": "the texts are unbounded; no set of scripts shows that another name never occurs", "anchors": ["instances/grammars/grammars/grammar.go:Grammar", "instances/grammars/grammars/grammar.go:GrammarToken"]}
{"id": "C180", "title": "Execute fails only for a reason in the program", "statement": "For every program, compiled or built by hand, with any inputs and modules: if Execute panics, a module to which the program refers, at any depth, panics for some arguments; if it does not return, such a module does not return; if it returns an error, such a module returns an error, or the program refers to an input that is not given, or it has an output for which no instruction with a value stands. A program with such an output never succeeds.", "quantifier": "all programs, nested to any depth, all modules, inputs and states of the outside world", "why_tests_cant": "programs are nested without bound and modules are arbitrary functions", "anchors": ["libs/interpreters/applications/application.go:Execute", "libs/interpreters/applications/application.go:executeValue", "libs/interpreters/applications/application.go:execute"]}
{"id": "C181", "title": "Exactly which bytes make the database decoders panic", "statement": "The decoders of a single pointer, content key and content never panic: what they do not accept is an error. For the decoders of hash trees and their leaves, lists of contents and of keys, commits, lists of commits and references, the inputs (with the bytes behind them in the backing array) on which they panic are exactly those in which, behind accepted elements, an announced length cannot be cut out of the backing array, or ends behind the input although the element is accepted, or overflows. Inputs shorter than the minimal sizes, or of another size where it is fixed, are errors, and so is building a content without data, a pointer without length or an empty list.", "quantifier": "all inputs and all bytes behind them, of any length below 2^63, nested to any depth", "why_tests_cant": "the inputs and the memory behind them are unbounded, and the faults are rare length values", "anchors": ["libs/cryptography/domain/hashtrees/leaf_adapter.go", "libs/databases/domain/references/pointer_adapter.go:ToPointer", "libs/databases/domain/references/contentkey_adapter.go:ToContentKey", "libs/databases/domain/references/contentkeys_adapter.go:ToContentKeys", "libs/databases/domain/references/commit_adapter.go:ToCommit", "libs/databases/domain/references/commits_adapter.go:ToCommits", "libs/databases/domain/references/adapter.go:ToReference", "libs/databases/domain/contents/adapter.go:ToInstance", "libs/databases/domain/contents/content_adapter.go:ToInstance"]}
{"id": "C182", "title": "The texts FromString accepts", "statement": "FromString accepts exactly the texts that have two hexadecimal digits, in either case, for each byte of some bytes; when these are 64 bytes they are the hash, otherwise their SHA-512 is. Every other text is an error, and no text makes it panic. A hash may therefore be read from another text than the one String gives for it.", "quantifier": "all texts of any length and all hash functions", "why_tests_cant": "the texts are unbounded, and all that are not accepted must be errors", "anchors": ["libs/cryptography/domain/hash/adapter.go:FromString", "libs/cryptography/domain/hash/adapter.go:FromBytes"]}
