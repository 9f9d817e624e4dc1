# Formal model of FASTBuild in Rocq

Source: `/repo` (pinned commit, read as text only, never built or run).
Development: `rocq/theories`, logical name `Verif`, Coq 8.16.1, standard library only.

## Method

* `M_*.v`: the model. Total, computable Gallina functions (or step functions of a transition system)
  written function by function after the C++. Every definition cites file and lines; every
  simplification is stated where it is made.
* `S_*.v`: small specifications, written without the model's helpers, where a property needs its own vocabulary.
  Other specifications stand at the top of the `T_*.v` file that uses them.
* `P_*.v`: lemmas, invariants and simulations.
* `T_*.v`: the property theorems. A theorem for property C01 is called `C01_...`, is followed by
  `Print Assumptions`, and has an `Example` beside it that shows a concrete case meeting its hypotheses.
* A claim that is false of the faithful model is stated as `..._refuted`: a theorem that exhibits a concrete
  run. The strongest version that holds stands next to it.
* A theorem that proves only part of a property ends in `_partial`.
* Memory errors (out-of-bounds access, use after free, null pointers) are outcomes of the model (`None`, `Crash`,
  `UB` ...), and theorems exclude them; they are not silently given a value.
* Fixed-width arithmetic is written with explicit wrapping where the width can matter.
* Recursion that Coq cannot see to be structural has a fuel argument; a theorem shows that the fuel given
  suffices, or that more fuel changes nothing.
* Concurrency: one step is one critical section (or one access to shared state); histories are arbitrary lists of steps.
* Hash functions, compression codecs and operating system answers are parameters (universally quantified).

## Properties

| id | property | files | what is modelled | how it is proved | status and limits |
|----|----------|-------|------------------|------------------|-------------------|
| C01 | Dependencies finish before dependents start | `T_Build` | Build passes (DoBuildPass, BuildRecurse, CheckDependencies), starting and finishing of jobs, as a transition system over a node table, with a log of starts and finishes | Invariant over all reachable states and all schedules | **proved**. For every graph, schedule and job result; targets are numbered nodes, jobs are atomic start/finish events. For plain source-file nodes only pre/static dependencies are stated (they have none dynamic). |
| C02 | Success implies the whole closure succeeded; failure is never masked | `T_Build` | The system of C01 | Invariant; failure is traced back by induction on the log | **proved**. Transitive success, blocking by failed dependencies, and every failure traced to a target whose own job or dynamic-dependency step failed. |
| C03 | Each target is built at most once per build | `T_Build` | The system of C01 | Invariant: log positions of starts are unique | **proved**. At most one job per target per build, and no target is both running and waiting. |
| C04 | Up-to-date decisions are sound and complete | `T_Build` | Node::DetermineNeedToBuild*, Node::Finalize, ObjectNode::Finalize inside the system of C01 | Case analysis of the decision; invariants over the log | **proved**. Exact decision for every stamp assignment, plus soundness of skipping and completeness (every start has a reason) over whole builds. |
| C05 | A build that changes nothing rebuilds nothing | `T_Build` | The system of C01 started on the state a previous build left | Induction over passes: no start is possible | **proved**. Proved under the stated hypotheses that nothing changed; the hypothesis on compiler-reported include stamps is necessary (C05_without_include_stamps_refuted). |
| C06 | Interrupted or failed builds are retried | `T_Build` | The system of C01; the stamps a stopped build leaves behind | Invariant: a node that was started and is not up to date has stamp 0 | **proved**. Proved when compilers report only file nodes as includes; C06_non_file_include_refuted shows a failed target that is skipped next time otherwise. A dependency put back to its exact old stamp also allows a skip, and the theorem says so. |
| C07 | Cyclic dependency detection is exact | `T_Cycle` | CheckForCyclicDependencies as a depth-first search with stack and visited tags | Soundness by path construction, completeness by a search invariant | **proved**. Every finite graph; the recursion depth needed is bounded by the number of targets. The error text is not modelled. |
| C08 | Final per-target status is exact | `T_Cycle` | GetFinalStatus, GetFinalStatusFailure | Reachability characterisation of a depth-first search | **proved**. Every finite graph, cyclic or not, and every assignment of states. |
| C09 | A build of an acyclic graph always finishes | `T_Build` | The system of C01 | Measure on unfinished nodes; progress lemma for a pass with nothing outstanding | **proved**. Termination of passes, progress after each pass, and completion after at most one round per node, for every schedule without cancellation. |
| C10 | A distributed job has exactly one owner and is finalised exactly once | `T_Dist` | Distributable jobs on the client: JobQueue, WorkerThread, Client, critical section by critical section | Inductive invariant on where each job is | **proved**. All interleavings of the critical sections: no use after free, one place, finalized at most once and, at rest, exactly once. Deletion at rest is proved for histories where no spoiled race occurs (C10_all_deleted_partial); C10_leak_refuted shows the two ways a job is never deleted. |
| C11 | Concurrency group limits are never exceeded | `T_Queue` | JobQueue::AddJobToBatch, FlushJobBatch, FinalizeCompletedJobs | Invariant over histories | **proved**. Local jobs never exceed the limit; when the limit is below the worker count all jobs in flight (local or remote) are bounded; held-back jobs are kept; a flush is maximal. C11_remote_jobs_refuted: with limit >= worker count the limit does not bound remote jobs. |
| C12 | Work queues hand out the most expensive job and lose nothing | `T_Queue` | JobSubQueue::QueueJobs, RemoveJob | Sortedness and permutation over histories | **proved**. Every history of batches and takes; costs are fixed while queued (a queued node is in state BUILDING and is not revisited). |
| C13 | Saving and loading the dependency database is lossless | `T_Db` | NodeGraph::Save, Load, SaveRecurse, Node::Save/Load, Dependencies::Save/Load at byte level over the stream models | Codec lemmas composed along the node list | **proved**. Byte level: header, configuration part, nodes with reflected members of every property type, dependency lists, paged stream and content hash. Loaded graph equals the saved one up to node addresses; source files carry only their name. The hash functions, path cleaning and path comparison are arbitrary functions (range and reflexivity are hypotheses). PostLoad of project generators and members that are not reflected are outside the model. |
| C14 | A damaged or foreign database is rejected, never misread | `T_Db` | NodeGraph::Load, header and content hash | All byte strings; reading is bounded by the stream lemmas | **proved**. All byte strings: anything without a good header is rejected without interpreting the rest and without memory error; truncation and alteration of a saved database are rejected unless the 64-bit content hashes collide (explicit disjunct). |
| C15 | A crash while saving the database cannot corrupt the next build | `T_Db` | FBuild::SaveDependencyGraph as in-place writing cut at any byte | All prefixes, using C14 | **proved**. Crash after any byte of the in-place overwrite (process kill: writes reach the file in order). Old database saved by the same version, or no old file. C15_other_version_refuted records the case of an old database of another version torn inside the header. |
| C16 | Configuration changes are always noticed | `T_Conf` | What a parse observes and what is recorded; the change checks of NodeGraph::Initialize/Load | Induction over the observations of a parse | **proved**. database reuse implies that re-parsing would give the same result, given that stamps and hashes reveal changes; the side conditions are shown necessary by the _refuted theorems |
| C17 | Path cleaning is a canonicalisation | `T_Path` | NodeGraph::CleanPath as a character-level machine | Simulation by a stack of components | **proved**. Linux and Windows slash conventions; no write outside the output buffer. Outside the stated domain the claim fails: C17_leading_backslash_refuted, C17_root_working_dir_refuted, C17_long_path_refuted. Windows UNC names and 'c:foo' are outside the domain. |
| C18 | Target lookup is exact and case-insensitive, and names are unique | `T_Names` | The hash-bucket table of nodes | Invariant over look-up and create histories | **proved**. Every history of look-up-then-create calls, every hash function, table size and path cleaning. AddNode's ASSERT of uniqueness is not relied on: callers' look-up is modelled. |
| C19 | Relative paths lead back to the file | `T_Path` | PathUtils::GetRelativePath | String induction | **proved**. Linux (case-sensitive) version. |
| C20 | Wildcard matching implements the documented glob language | `T_Glob` | AString::Match and MatchI | Equivalence with an inductive glob relation | **proved**. Match and MatchI, every NUL-free pattern and text; termination and in-bounds reads included. |
| C21 | Packed result files unpack to the same files | `T_Pack` | MultiBuffer | Round trip; exact extraction | **proved**. Every list of up to four files (the code's own limit kMaxFiles) and every index; failures name a bad file. Buffers not made by packing are outside the claim (C21_untrusted_buffer_refuted). |
| C22 | Compressed blocks are validated and decompress to the original | `T_Pack` | Compressor header and block handling, codec as parameter | Round trip; case analysis of headers | **partial**. Round trip for LZ4 up to its input limit and for Zstd below 4 GiB, for any lossless codec; the safety part needs agreeing sizes in stored blocks (C22_validated_overread_refuted), and LZ4 loses data between its limit and 2 GiB (C22_lz4_over_limit_refuted). |
| C23 | Network messages arrive whole and in order | `T_Net` | TCPConnectionPool send and receive, OnReceive of client and server | Reassembly invariant over every fragmentation | **proved**. For all messages below the 32-bit size bound, any fragmentation on either side and any failure. C23_four_gigabytes_refuted shows what happens at the bound. |
| C24 | Publishing to the cache is atomic | `T_Cache` | Cache::Publish, Retrieve over an abstract file system | Invariant over interleavings of system calls | **proved**. Every interleaving of system calls, failures and crashes of any number of publishers that do not overlap in time, from any earlier entry and any temporary file left behind. With overlapping publishers of one entry it is refuted: they share one temporary name. Crashes are process crashes; loss of unsynchronised file data on power failure is not modelled. |
| C25 | Cache trimming removes oldest first and stops at the limit | `T_Cache` | Cache::Trim | Induction on the sorted list | **proved**. All file sets whose sizes sum below 2^64, any limit, any set of files that refuse deletion. |
| C26 | Sorting sorts | `T_Sort` | ShellSort | Each gap permutes; the last gap sorts | **proved**. Every array and comparison; out-of-bounds access is a distinct outcome of the model and is excluded. |
| C27 | Unity generation covers every source exactly once | `T_Unity` | UnityNode: collection, ordering, distribution (binary32 arithmetic from SpecFloat), isolation, texts | Induction over the distribution loop | **proved**. All file lists, counts, isolation settings; the share of each unity file is computed with an exact model of binary32 arithmetic. The output pattern must contain '*': without one it is refuted (all unity files get the same name and all but the last are lost). Also proved: the result does not depend on the order of directory listing, isolation moves no file, -nounity changes no unity file. |
| C28 | Edit-distance suggestions are the true Levenshtein distance | `T_Lev` | LevenshteinDistance | Column invariant against the recursive distance and an edit-script relation | **proved**. Both case modes, every pair whose shorter string is below 1024 (C28_long_strings_refuted beyond). 32-bit wrap of cell values is not modelled (values are bounded by the longer length). |
| C29 | Nearest-target suggestions are the best ones | `T_Lev` | FindNearestNodesInternal | Insertion invariant | **proved**. Every candidate list, limit and capacity; eligibility is characterised exactly (C29_which_targets_pass), and C29_mistyped_letter_refuted shows that a same-length typo is never suggested. |
| C30 | Command-line tokenising and quoting are consistent | `T_Args` | AString::Tokenize, Args, RemoveQuotes, StripQuotes | Induction on the text | **proved**. Every string and every separator other than the quote mark and the backslash. The round trip needs arguments that do not end in a backslash (C30_trailing_backslash_refuted). |
| C31 | Response files are used exactly when needed and carry the same arguments | `T_Args` | Args::Finalize, ResponseFile | Induction over builder calls | **proved**. Every sequence of builder calls, limit, mode and platform flag; the 32-bit total length must not wrap (strings are held in memory with 32-bit lengths). |
| C32 | JSON escaping round-trips | `T_Args` | JSON::Escape | Round trip with a separate decoder | **partial**. Round trip for every text of bytes below 128; no raw control character and no unescaped quote for every text. The full round trip is false (C32_high_bytes_refuted). |
| C33 | In-memory streams return exactly what was written | `T_Stream` | MemoryStream, ChainedMemoryStream, ConstMemoryStream, IOStream | Refinement to byte lists | **proved**. All splits, page sizes, seeks and reads; the size reported by the paged stream is exact below 4 GiB (C33_paged_size_refuted beyond). |
| C34 | The block allocator never hands out memory twice | `T_Pool` | MemPoolBlock, SmallBlockAllocator | Invariant over histories and interleavings | **proved**. MemPoolBlock for every size and power-of-two alignment, and the small block allocator under every interleaving of its atomic parts |
| C35 | Outgoing messages are never stranded | `T_SendQ` | The send queue of a client connection and its thread | Invariant over interleavings | **proved**. Any number of posting threads; every interleaving of posts, signals, the sending thread's steps and a disconnection. A send is assumed to fail only after the quit flag is set (the code's own assertion). |
| C36 | Worker tool synchronisation never deadlocks waiting jobs | `T_Sync` | Tool chain synchronisation on a worker (Server, ToolManifest) | Invariant over interleavings | **partial**. Whatever is lost when, a job starts only when every file of its tool chain is there, and no job disappears while its client is there. If connections are lost only after the manifests they were asked for have arrived, and one at a time, every waiting job's tool chain is being worked on, and at rest no job waits. Both other cases are refuted: a connection lost before it sent the manifest leaves other clients' jobs waiting; two connections lost at once can leave the tool chain assigned for ever to a connection that is gone. |
| C37 | Remote system errors are retried a bounded number of times | `T_Dist` | Result classification on the client (system of C10) | Invariant on system error counts | **proved**. At most three system errors per job, on different workers, at most two retries, failure on the third; a worker with a system error gets no further job. |
| C38 | BFF variable scoping | `T_Scope` | BFFStackFrame, BFFParser statements, ForEach, user functions | Inductive properties of evaluation; comparison with a scoping specification | **partial**. Reads, writes with and without '^', scope exit, ForEach and calls, for all programs of the modelled statements. Two clauses are refuted as stated: an argument that names an earlier parameter gets that parameter's value (C38_call_arguments_refuted; C38_call_arguments_partial covers the other calls), and with 256 arrays in one ForEach the array can change under the loop (C38_loop_arrays_refuted; C38_foreach and C38_no_out_of_range are for at most four arrays per loop). |
| C39 | BFF conditions are evaluated as written | `T_Cond` | BFFBooleanExpParser | Equality with the denotation of a separately defined grammar, both directions | **proved**. Every condition built from literals, variables, comparisons, membership tests, '!', '==', '!=', '&&', '\|\|' and brackets, of any size, with a grammar and a meaning defined separately from the parser. Conversely an accepted header is the text of a condition with that meaning, if it holds no integer whose low byte is the character ')'; with one it is refuted (such an integer closes a bracket). |
| C40 | All included files become dependencies | `T_Incl` | CIncludeParser | Equality with a line-by-line specification | **proved**. All three parsers against a line-by-line specification, for every text whose line markers close their quotes on their line (otherwise parsing reports failure or runs on), and the recording of names. Recording needs the 32-bit hash to tell the names apart and not be 0: refuted otherwise for every 32-bit hash. cl.exe output whose last line is not ended is refuted for that line. |
| C41 | IDE output filtering hides every error pattern | `T_Msg` | CleanMessageToPreventMSBuildFailure | Scan invariant | **partial**. only pattern-ending colons are ever altered (all messages); patterns are hidden for messages of the usual shape; four families of messages for which the full claim fails are exhibited |
| C42 | CRC32 acceleration is equivalent to the definition | `T_Crc` | CRC32 | GF(2) linearity; table correctness by computation over bytes | **proved**. slicing-by-8, table update, incremental and lower-case forms; also 32-bit burst detection |
| C43 | Building by source file finds the right targets | `T_Resolve` | SourceFileTargetResolver | Search invariant; characterisation for several files | **partial**. Proved for one source file (the whole of the statement). For two or more files refuted and characterised: the hint targets are always built, because visit marks are not reset between files. |
| C44 | The remote environment block is well formed | `T_Manifest` | Environment block of a tool manifest | Equality and bounds | **proved**. exact contents, every write inside the allocation, and what a process reads back from the block |
| C45 | Tool manifests survive the network | `T_Manifest` | ToolManifest serialisation | Codec round trip; all prefixes | **partial**. round trip and safety on any bytes proved; truncation is rejected except inside the variable count, where the code accepts a manifest without its variables (exhibited) |
| C46 | Worker queue cancels exactly the disconnected client's jobs | `T_Remote` | JobQueueRemote, WorkerThreadRemote, Server disconnection | Invariant over interleavings | **partial**. Every interleaving of arrivals, tool synchronisation, build threads, reporting and the four sections of a disconnection: each job is in one place or deleted once (no double free, no use after free, no leak), a result is sent at most once and is the one built, jobs of a connected client are unaffected by others, nothing is sent on a connection after its disconnection was dealt with. That a result only goes to the connection its job came from, and that the active count is exact, is proved when no client state is placed at the address of an earlier one; without that it is refuted (the failed list is not purged). Also refuted: in-flight jobs never hold the address of a deleted client; aborted jobs leave the active count. |
| C47 | Stripping a file extension only touches the file name | `T_Path` | PathUtils::StripFileExtension | String lemmas | **partial**. Exact when the file name has an extension or the path has no dot; the full claim is false (C47_directory_dot_refuted). |
| C48 | Imported environment variables are consistent | `T_Conf` | #import, #if exists and the recorded environment | Induction over observations | **proved**. for #import, up to 32-bit hash collisions; #if exists(..) ignores a changed variable (exhibited) |
| C49 | Files are excluded by whole name only | `T_Path` | PathUtils::PathBeginsWith / PathEndsWithFile | String lemmas | **proved**. exact characterisation; Linux (case sensitive) comparison |
| C50 | Directory settings end in exactly the slash they need | `T_Path` | PathUtils::EnsureTrailingSlash | String lemmas | **proved**. both slash conventions |
| C51 | An integer assignment stores the integer | `T_Cond` | Integer assignment in BFFParser | Case analysis on the digits and tokens | **partial**. Proved for all integers whose low byte is not '[' or '{'; for the others refuted: `.X = 123` or `.X = 91` is taken for an opening bracket and rejected, because the bracket tests do not look at the token type. |
| C52 | Cache entries have distinct names and are all found again | `T_Cache` | ICache::GetCacheId and cache file names | Injectivity of fixed-width hexadecimal | **proved**. All keys in range. |
| C53 | A connection closed by the peer is noticed | `T_Net` | TCPConnectionPool::HandleRead on POSIX | Case analysis; stale errno run | **partial**. Proved when no wait inside a message came before; C53_close_not_noticed_refuted shows the stale errno case on POSIX. |
| C54 | BFF assignments compute what is written | `T_Assign` | BFFParser assignment and arithmetic on variables, Using, structs | Equality with a table of operations defined separately | **proved**. C54_assign and C54_assign_only together say which assignments are accepted and what they do; the only right hand side left out of the second is the literal '- {}', which changes nothing. Struct literals, '^', unnamed continuation, Using, If, function properties and printed texts have their own theorems. |
| C55 | A changed BFF rebuilds what changed, and only that | `T_Migrate` | NodeGraph::Migrate, AreNodesTheSame, DoDependenciesMatch, MigrateProperty | Invariant of a recursive traversal: soundness of every copied node; completeness for unchanged definitions | **proved**. C55_sound and C55_changed for every BFF edit, C55_unchanged for edits that change no definition, C55_same_decision for the later decision, C55_ends for termination. Node::Initialize is a parameter: the theorems assume that it only gives the new node dependencies of lower rank and adds source files (and, for C55_unchanged, that it prepares a copy of a node as that node was). |
| C56 | The text of a BFF file is read by one lexical grammar | `T_Tok` | BFFTokenizer::Tokenize and the skipping of space and comments | Equality with an inductive lexical grammar, both directions | **proved**. C56_text and C56_one_meaning for the grammar of S_Tok.v, C56_only for the converse. The two exceptions named in the property are shown to occur by C56_numbers_refuted and C56_single_refuted. |
| C57 | Conditional parts of a BFF file are taken exactly when their condition says so | `T_Tok` | Directives of BFFTokenizer, conditions, macros | Induction over documents (trees of text and directives) against the scanner that looks for matching #endif | **proved**. C57_document for whole files, C57_untaken for the parts not taken, C57_many for the limit. Documents: every line ends in LF, and a '#' stands first on its line. The theorems assume that no variable's value has the 32-bit hash 0 and that clean file names contain '/' (Linux). |
| C58 | Reading a BFF file with its includes ends | `T_Tok` | #include and #once, nesting limit | Measure: depth left, then text left; result independent of fuel | **proved**. C58_ends and C58_one_result for all files; C58_cycle for a file that includes itself in its first line; C58_once_met, C58_once_stays and C58_once_again for #once. |
| C59 | An imported environment variable has exactly its value | `T_Tok` | #import and escaping of its value | Composition with the variable substitution of C38 | **proved**. C59_import composes the tokenizer with the substitution of variables in M_Scope; C59_unset. |
| C60 | All that reading a BFF took from outside is recorded | `T_Tok` | The records of environment variables, file checks and files read | Simulation between two worlds that agree on the final record | **proved**. C60_nothing_else and C60_true. What becomes of the record afterwards is C16 and C48. |
| C61 | The light cache finds every #include of a source file | `T_Light` | The scanner of LightCache.cpp over the text from a position on | Grammar of lines in S_Light; the loop is unrolled fuel-free, induction over the derivation | **proved**. C61_includes for every text of the grammar in S_Light; C61_one_meaning. C61_comment_refuted and C61_next_refuted show forms outside the grammar whose includes are missed. |
| C62 | The light cache's list of files is closed under includes | `T_Light` | ProcessInclude with the include stack, FileExists with the records of other compilations as an oracle | Invariant of the state between two includes; each new file is closed relative to the list so far, and closure is monotone; termination by the number of files not yet listed | **proved**. C62_other_macro: a macro defined only as something else than a file name refuses the compilation. C62_closed, C62_macro, C62_roots and C62_ends. The proviso about other files of the same name beside listed files is necessary (C62_search_refuted), as is that of one definition (C62_macro_refuted); C62_option_macro_refuted: macros of the command line are ignored. |
| C63 | Equal light cache keys mean equal inputs | `T_Light` | Hash: the numbers that are hashed | Injectivity pair by pair; the first name that is there is the same in both worlds because both lists are closed | **proved**. C63_key; C63_same_files and C63_reads for full names (rel = false) and includes by name. The list of include paths is the same on both sides, being part of the arguments that are hashed as well. |
| C64 | A light cache key does not depend on what other compilations did before | `T_Light` | As C62, with and without the oracle | Simulation of two runs with different oracles | **proved**. C64_others. C64_error_refuted and C64_relative_refuted show that both provisos are necessary. |
| C65 | The shared table of file records is a map | `T_Probe` | IncludedFileHashSet with quadratic probing and growth | Invariant: the probes before a record are all taken; squares of odd numbers are distinct modulo a power of two | **proved**. C65_map, C65_found, C65_assert, C65_sparse, C65_few. Between an eighth and a half full a lookup of a new name can go on for ever (C65_stuck_refuted), for an unlikely pattern of hashes. |
| C66 | The compiler gets the user's arguments, with the documented edits and nothing else | `T_Drv` | BuildArgs and the drivers of all compilers | Each rule is a row of a table; order of rows shown irrelevant; induction over tokens against the relation edited; splitting of the result by the lemmas of C30 | **proved**. C66_arguments. The proviso about /I is necessary: C66_separate_include_refuted, C66_lone_quote_refuted. Oddities shown: C66_quoted_option_refuted, C66_trailing_backslash_refuted. |
| C67 | A worker runs GCC and Clang with the arguments that would be used locally | `T_Drv` | SaveRemote and the arguments made on a worker | Simulation over the tokens; the two results are equal as lists of appends | **proved**. C67_same_arguments, for GCC and Clang without source mapping (which is local only). C67_option_as_argument_refuted: the proviso is necessary. |
| C68 | A file name put in place of a placeholder stays in one argument | `T_Drv` | Substitution in an argument | A text is one argument iff no space is outside quotes; this is local | **proved**. C68_one_argument; C68_unquoted_refuted and C68_second_placeholder_refuted show what happens outside it. |
| C69 | The cache key of a command line does not depend on the machine | `T_Drv` | GetCommandLineKey up to the hash | Names relative to the base are independent of the base | **proved**. C69_directory_free, C69_temporary_free. C69_deoptimized_refuted: a file compiled with deoptimized options is looked up and stored under the optimized key. C69_terminal_refuted: the key depends on whether the output is a terminal. |
| C70 | Which files are compiled with the deoptimized options | `T_Drv` | ShouldUseDeoptimization | Case analysis; search in a C string | **proved**. C70_deoptimized. |
| C71 | Which compilations may be distributed and cached | `T_Flags` | ObjectNode::DetermineFlags, ShouldUseCache and the test for distribution, on the tokens of the options | Fold over the tokens; a flag that can be taken back is characterised by the last token that sets it | **proved**. C71_cl, C71_gcc, C71_other, C71_use. C71_objective_refuted: -x objective-c++ and -xobjective-c are not noticed. C71_deoptimized_options_refuted: the options of deoptimized compilations are not looked at. |
| C72 | The fix-up of a unity file's preprocessed text changes only the flags it means to | `T_Fix` | DoClangUnityFixup on the text as a list of characters | Induction on the rounds of the loop; induction on the pieces of the text with strstr characterised as first occurrence | **proved**. C72_only_blanks (any text) and C72_fixup (texts of the form Clang writes). C72_no_return shows that the form is needed. |
| C73 | A directory listing has exactly the files that its settings show | `T_Dir` | GetFilesRecurse with the filter of DirectoryListNode on a tree of entries; the sort of C26 | Induction on the tree for what is listed; the sorted list without duplicates is unique | **proved**. C73_listing, C73_any_order, C73_absent. C73_dots_refuted: directories like ..data are skipped. |
| C74 | The stamp of a directory listing changes when the listing does | `T_Dir` | The text given to the hash | Texts that begin with a path which does not occur in them can be split uniquely | **partial**. C74_stamp, C74_stable. C74_joined_refuted: the names are hashed with nothing between them, so the files a and b in /d have the stamp of the file a/d/b. Missing from the full statement: directories whose full path occurs again in the names below them, for which it is false. |
| C75 | RemoveDir deletes what it lists and nothing else | `T_Dir` | RemoveDirNode::DoBuild on a set of files and directories; unlink and rmdir | Invariants over the loops; in the reverse of the order of bytes what is inside a directory comes before it | **proved**. C75_only_listed, C75_all, C75_plain, C75_many. C75_excluded_refuted: excluded directories are deleted when empty. C75_fails_refuted: three settings with which the build always fails. |
| C76 | Each input of an object list has its own object | `T_Objs` | GatherDynamicDependencies and the functions it calls on a list of named nodes | Invariant over the inputs: names are unique up to case, each object has its source; replay on a larger graph for the next build | **proved**. C76_objects, C76_sources, C76_succeeds, C76_again, C76_names, C76_apart. C76_case_refuted: of files that differ only in case one is not compiled. C76_again_refuted: a named file in another case fails in the second build. |
| C77 | Each file that CopyDir finds is copied to its own place | `T_Objs` | DoDynamicDependencies of CopyDir on a list of named nodes | As C76 | **proved**. C77_copies. C77_case_refuted: of files that differ only in case one is not copied. |
| C78 | Strings keep their text, stay in their memory and give it back | `T_Str` | M_Str: a heap of blocks with bounds, kinds and freed blocks; AString as pointer, length, reserve and ownership flag; each mutating member of AString and AStackString, with its Grow, Copy and FREE, as a function that fails on any access outside of a live block; fresh memory has arbitrary contents | a representation invariant (each string alone holds its block, which holds its text and a terminator) kept by every operation; a frame relation for the rest of the heap; induction over the list of operations. Texts are specified in S_Str without memory | **proved**. C78_histories, C78_terminated, C78_no_leak and C78_all_given_back cover every sequence of uses that is in order. Three refuted theorems show what lies outside: appending a pointer into the string itself, constructing with nothing reserved, and sums of lengths over 32 bits. Format, VFormat, Tokenize, Find and comparisons are not part of this model. |
| C79 | A target gets exactly the settings its scope gives | `T_Props` | Function.cpp PopulateProperties and all it calls, as functions from a scope, a class of properties and the targets to values; FixupFolderPath, FixupFilePath | inference rules as specification; both directions by nested and mutual induction; strings through aliases by induction on fuel with a rank on aliases | **proved**. C79_settings (set exactly by the rules of S_Props, both ways), C79_strings (texts and aliases), C79_scope (required settings were in scope; what is set was in scope; what was in scope is set), C79_graph_kept. Refuted: C79_negative_refuted (-1 becomes 4294967295 for settings without a range), C79_server_refuted (a relative file on a server loses a slash). CleanPath is a parameter (C17). |
| C80 | A list of targets is what its names stand for | `T_Props` | GetNodeList (three forms), GetNodeListInternal with its tags | leaves of an alias as an inductive relation; the marked search equals first occurrences by an invariant on finished aliases | **proved**. C80_name, C80_names, C80_one_pass, C80_no_alias, C80_no_duplicates (for one name). Refuted: C80_duplicates_refuted (several names: each starts a new search for duplicates), C80_own_target_refuted (an alias of itself is accepted, with no targets). Premise: names are unique (C18), aliases have no cycles. |
| C81 | Every function call makes the target it names | `T_Props` | ParseFunction, Commit, ProcessAlias for calls within calls, with the header kept per function | induction on calls, with the headers a call leaves alone | **proved**. C81_names (when no function is called within a call of the same function), C81_history. Without that premise refuted: C81_nested_refuted (the outer alias is lost), C81_nested_nameless_refuted (the outer target has no name). |
| C82 | A worker asks for no more jobs than it has places for | `T_Needy` | Server.cpp FindNeedyClients read by read, FinalizeCompletedJobs, the message handlers, connections coming and going, as a transition system | invariant linking the running count to the true burden of the clients counted so far; a measure for termination; an invariant on turns for fairness | **proved**. C82_counters, C82_ask, C82_bound, C82_calm, C82_never_stuck, C82_ends, C82_served. The bound without the term for the clients is refuted: C82_race_refuted (a job being received is counted neither as requested nor as active). |
| C83 | A worker learns of available jobs | `T_Avail` | Client.cpp CommunicateJobAvailability, EnqueueSendJobAvailability, the connecting thread, giving a job away, as a transition system | invariant: the figure noted is 0 or what the worker goes by | **proved**. C83_told, C83_quiet, C83_true_figures. Without the premise that the connection had been greeted refuted: C83_connecting_refuted (a stale status of 0 is sent after the greeting and is not corrected while the number of jobs stays the same). C83_gone_refuted: after the last job was given the worker is not told 0. |
| C84 | A linker or librarian is given exactly its inputs | `T_Link` | LinkerNode.cpp BuildArgs and the GetInputFiles functions on trees of nodes, LibraryNode.cpp BuildArgs | relations for what a node is made of and what an argument becomes; induction on trees and on the tokens | **proved**. C84_program_inputs, C84_nothing_missing, C84_library_inputs, C84_resources, C84_linker, C84_librarian. C84_libpath_refuted: /LIBPATH: with its directory in the next argument is given to the linker as an empty directory. |
| C85 | Libraries named in linker options are dependencies | `T_Link` | LinkerNode.cpp GetOtherLibraries token by token and search by search with a growing graph, DependOnNode on trees of aliases | a relation for what options mention, one for a search; induction on tokens and on searches | **proved**. C85_found (default libraries given once), C85_value_missing, C85_libraries. Refuted: C85_past_end_refuted (an option without its value at the end makes the loop run past the end), C85_absolute_refuted (full paths on Linux and macOS), C85_default_twice_refuted. |
| C86 | Linker options are understood as the linker understands them | `T_Link` | LinkerNode.cpp DetermineLinkerTypeFlags, DetermineFlags, GetImportLibName | each flag is an or over the tokens, because the tests exclude each other | **proved**. C86_by_name, C86_by_type, C86_msvc, C86_shared, C86_implib. C86_wl_refuted: -Wl,--oformat=prx is never recognised. |
| C87 | Connections to workers keep to the limit and leave no worker out | `T_Conns` | Client.cpp ConnectToWorkers, one step per round of its loops, with the threads of connections between any two steps | an invariant on the records of workers; what is remembered of a worker is tied to the history; the distance from the next index to a waiting worker only shrinks | **proved**. C87_limit, C87_once, C87_polite, C87_pass, C87_fair. Refuted readings: C87_same_address_refuted (an address that is twice in the list), C87_at_once_refuted (no pause after a connection that was made and lost). |
| C88 | Remote jobs in the profile belong to their workers | `T_Conns` | BuildProfiler.cpp RecordRemote with the numbers RegisterFoundWorkers gives | induction on the results from the last | **partial**. C88_jobs: each job once, in order, its thread with a heading. The worker's name is wrong as soon as there are two workers: C88_worker_refuted. C88_numbers_partial: right if workers had numbers of their own and turned up in their order; C88_order_refuted: without that order there is no name. |
| C89 | Options are read as the compiler reads them | `T_Opts` | ProjectGeneratorBase.cpp ExtractIntellisenseOptions on the tokens of AString::Tokenize, its four callers and its prefixes; LightCache.cpp for the key | induction on the arguments; the argument that is a value is passed over when its turn comes | **proved**. C89_includes, C89_forced, C89_defines, C89_total, C89_language. Without the condition on values: C89_twice_refuted, C89_stolen_refuted. Also refuted: C89_quote_refuted (a quote alone is undefined behaviour), C89_language_refuted, C89_gcc_forced_refuted (-include is not seen by the light cache). |
| C90 | The compilation database has an entry for each source | `T_Compdb` | CompilationDatabase.cpp with both EnumerateInputFiles functions; directory listings have files only once they are built, on the way | depth-first traversal with an invariant (every node after those it needs), so that directories are listed before they are asked for; the text is taken apart by a grammar of JSON; escapes commute with the search for placeholders | **proved**. C90_database, for names and options of 7-bit text (C32 has what happens to others). What is not a source but is in the database: C90_isolate_refuted. |
| C91 | Workers that offer themselves are found, others are not | `T_Broker` | SetAvailability with its timers for many workers on one folder, UpdateBrokerageFilePath, the cleaning of old files, InitBrokerage, FindWorkers | invariants over histories: every token of a worker has its present name and the time of its last update, and a token that is refreshed is never old enough to be cleaned; a moving bound for the age of files | **proved**. C91_published, C91_withdrawn, C91_address, C91_orphans and C91_client, for a file server that does as it is told and one clock; C91_published and C91_withdrawn for workers that have not been killed. What happens else: C91_restart_refuted, C91_retry_refuted. What is found although it should not be: C91_local_refuted, C91_self_refuted, C91_twice_refuted. |
| C92 | The process that builds has the options of the command line | `T_Cli` | ProcessCommandLine as compiled for Windows with the text that it keeps for other processes, the two steps of the wrapper, and the rules by which Windows programs take a command line apart | the kept text is a list of pieces between spaces, each quoted or a word, and taking it apart gives the arguments back; the loop composes over appended arguments; tables of options are compared with a table of switches | **proved**. C92_settings, C92_values, C92_ranges and C92_forwarded; the last for command lines in which only paths, database files and targets have spaces, no argument has a quote, none of them ends in a backslash, and each option has its value. What happens else: C92_sourcefile_refuted, C92_backslash_refuted, C92_dangling_refuted, C92_wsl_refuted, C92_report_refuted. |
| C93 | XCode projects contain every file in its place | `T_Xcode` | AddFile and GetFolderFor with their search and recursion, the sorting of files and folders, all objects of the project with their identifiers, ProcessString_PBX, EscapeArgument and the name of the project; read back by a separate reader of property lists and XML attributes | an invariant of the tree (each folder has its parent among the earlier ones, each file its folder) by induction over the files; sorting is a permutation; identifiers are injective below 2^32 objects; the reader and the writer of values are compared letter by letter | **proved**. C93_tree, C93_identifiers (exactly for at most a hundred configurations), C93_place (for folders whose names need no quotes, and paths with one kind of slash), C93_values, C93_arguments, C93_name. What happens else: C93_group_refuted, C93_name_refuted. |
| C94 | What a program prints is read whole, and reading it ends | `T_Proc` | the loop of ReadAllData one system call at a time, beside a program that writes byte after byte to two bounded pipes, processes that it has started, a clock and the abort flag, in any order | what was written is what was read and what is in the pipes; an invariant says which pipes were seen empty after the exit; a measure goes down with every turn of both sides | **proved**. C94_whole, C94_part, C94_children, C94_ends, C94_timeout and C94_no_early_timeout, for Linux and macOS. What does not hold: C94_timeout_refuted, C94_leftover_refuted. |
| C95 | Exec and Test do what the program did | `T_Proc` | DoBuild of both nodes as functions of the outcome of the run, with a disk of limited room; GetFullArgs and GetInputFiles on texts and the splitting in Process::Spawn | case analysis on top of C94; the text is a list of arguments between spaces and splitting gives them back | **proved**. C95_exec, C95_test, C95_aborted, C95_arguments (for arguments whose spaces are inside quotes) and C95_quoted. What does not hold: C95_disk_refuted. |
| C96 | Projects for Visual Studio list every file once, in its folder | `T_Vcx` | adding, sorting and dropping files, the folder of a file, the list of folders with their hashes, and the text of settings and names; the path of a file from the directory of the project is any function, and so is the hash | the list without duplicates is strictly ordered, so it is determined by its elements; an invariant says that a folder that was seen has all folders around it, but for those that are being added; more names than hashes for the refutation | **proved**. C96_files, C96_order, C96_folder, C96_declared (if the hashes of the folders differ), C96_identifiers, C96_value, C96_no_value and C96_name. What does not hold: C96_declared_refuted, C96_name_refuted, C96_spelling_refuted, C96_order_refuted. |
| C97 | Solutions list every project and folder once, nested as asked | `T_Sln` | canonical and collapsed folders, gathering and sorting of projects, and the generator up to text: listings, dependencies, folders with items, lines for configurations, nesting; finding projects by name, relative paths and the checksum are any functions; the header, default configurations and the test that projects have all configurations are not modelled | membership in each list of the output is shown equal to a predicate on the settings, by induction over the settings; strict order makes lists unique | **proved**. C97_made, C97_projects, C97_folders, C97_items (if no two folders differ only in case), C97_configurations, C97_nested (on Windows), C97_parents_listed and C97_name. What does not hold: C97_nested_refuted and C97_flat (not on Windows), C97_dependency_refuted, C97_name_refuted. |
| C98 | The pool of threads runs every job once, in order, and comes to rest | `T_TPool` | threads, callers of EnqueueJob and the destructor as a transition system in which each moves between any two steps of the others; the queue, the semaphore with and without a maximum, the start of threads by the first and their end | an invariant counts: the jobs that wait are no more than the signals and threads on their way to the queue, or the signals suffice for all idle threads; a measure that every internal step makes smaller shows that the pool comes to rest | **partial**. C98_order, C98_once, C98_busy, C98_rests, C98_rest, C98_returns and C98_all_run_partial. Missing, since it does not hold: none is left when the destructor returns (C98_lost_refuted, C98_lost_max_refuted); C98_all_run_partial proves it when none was waiting at the call. |
| C99 | Copy() copies every source to its own place and overwrites nothing | `T_Copy` | GetSourceNodes and Commit of FunctionCopy over a graph of files, aliases and other nodes; making a path full and clean is any function that is idempotent and does not depend on case | the graph at any time is the one at the start and the external sources met so far; finding a name in it is reduced to finding it in the one at the start; induction over sources and over targets | **proved**. C99_copied, C99_targets, C99_where, C99_refused and C99_made. C99_case_refuted: on Linux files whose names differ only in case cannot be copied into one folder. |
| C100 | The numbers that a build reports count every node once | `T_Stats` | GatherPostBuildStatistics and its recursion over any graph, with the flags, times and lists of dependencies of nodes; additions of 32 bits; the sort of C26; the flags that objects of the light cache get | the new nodes of every visit are a list without repetition that is closed under dependencies at the end; the fuel suffices since it is more than the nodes without a tag; the numbers are folds over that list; totals by induction over the types | **partial**. C100_counts, C100_times, C100_dearest, C100_shown, C100_totals and C100_light_partial. C100_light_misses_refuted: light misses leave out what is stored afterwards and count what was never looked for. C100_total_failed_refuted: the totals have neither failures nor processor time. Numbers are of 32 bits and wrap. |
| C101 | A worker gives what its owner allows | `T_Idle` | Update of the idle detection, the CPUs that UpdateAvailability offers, the threads that take work, and Load and Save of the settings over bytes; readings are any; floats are fractions or no number | invariants of the two smoothers over any list of readings; induction over quiet, loud and equal readings; round trip of the bytes | **partial**. C101_limit, C101_modes, C101_becomes_idle, C101_not_early, C101_becomes_busy, C101_stays_idle, C101_share, C101_settings_partial and C101_other_file. C101_memory_refuted: the free memory to leave is not saved. C101_junk_refuted: of a file that ends after its header the mode is read from memory that was never set. C101_mode_refuted: a mode that does not exist is taken for dedicated. Floats are exact fractions or no number; how the use of CPUs is measured is not modelled. |
| C102 | ListDependencies writes every file once, in order | `T_LDep` | FilterFileDependencies and DoBuild of ListDependencies over any graph with weak dependencies; the sort of C26; the text | what was collected grows by exactly the files wanted and stays without repetition, by induction over the three lists of dependencies; the sort permutes; names differ, so that nothing is left out as repeated | **proved**. C102_lines, C102_text and C102_no_descent. That names in a graph differ without case is C18; matching a pattern is any function here (C20). |
| C103 | Folders exist once they were asked for | `T_Ensure` | the disk as a tree of entries, mkdir and lstat on Linux, EnsurePathExists part by part, with any action of others before each call; links are not modelled | what others keep and this program adds is kept, by induction over the parts of the path; the invariant that everything is in a folder gives the folders above | **partial**. C103_made_partial, C103_for_file_partial, C103_kept, C103_only, C103_succeeds and C103_file_succeeds. The full statement fails: true is also returned where a file, a socket or a block device has the name (C103_file_refuted, C103_special_refuted), and false for every file in the root (C103_root_refuted). |
| C104 | Files are written and read whole | `T_FStr` | the loops of ReadBuffer and WriteBuffer over any sequence of results of the system; the text that TextFile makes of its lines and its result | the file grows by a prefix of the buffer, by induction over the results; lines are found again by splitting the text | **partial**. C104_written, C104_running, C104_writes, C104_read, C104_read_ends, C104_read_all, C104_built and C104_lines. That writing returns fails if the system takes nothing and reports no error (C104_forever_refuted). The result of close is not looked at by the code. |
| C105 | One process builds in a folder at a time | `T_Single` | processes with and without wrapper, the two locks and the flag in shared memory, as a transition system for any number of processes | the owners of the locks are those whose phase says so, and each final process is the one its main process waits for: invariants over all histories | **partial**. C105_one_partial (if no main process of a wrapper is killed while it waits), C105_each, C105_refused and C105_waits. The full statement fails: after the main process was killed its final process goes on, and another process without wrapper builds at the same time (C105_one_refuted). If a final process ends before it says that it started, the main process waits for ever (C105_hang_refuted). |

## Findings

Behaviour of the code, found while proving, that contradicts what a user would expect. Each is a theorem (`_refuted`), or a
hypothesis shown necessary.

* Build decisions: a compiler that reports includes without stamps, or an include that is not a file, defeats the up-to-date check (C05, C06).
* Distribution: two families of histories leave a job object never deleted (C10). A concurrency limit not below the worker count does not bound remote jobs (C11).
* Configuration: an edit between reading a BFF and stamping it goes unnoticed, LIB is read before Settings sets .Environment, and a different root file with the same database is accepted (C16). `#if exists(VAR)` is not re-checked (C48).
* Database: an old database of another version, torn inside the header, is read as a database of the present version (C15).
* Paths: leading backslashes, a root working directory and paths over the buffer size are not cleaned (C17). A dot in a directory name is taken for an extension (C47).
* Formats: MultiBuffer over-reads on foreign buffers and overruns its arrays above four files (C21). LZ4 loses data between its limit and 2 GiB, and stored blocks can be over-read (C22). Message totals wrap at 4 GiB (C23). The paged stream's size wraps (C33). A tool manifest truncated inside its variable count is accepted (C45).
* Cache: overlapping publishers of one entry share a temporary name (C24).
* Unity: an output pattern without '*' loses all files but the last (C27).
* Suggestions: strings of 1024 characters and more, and a mistyped letter (C28, C29).
* Text: a trailing backslash breaks quoting (C30), bytes above 127 break JSON output (C32), four families of messages still look like errors to MSBuild (C41).
* Workers: a connection lost before its manifest arrives starves jobs of other clients, and two simultaneous losses leave a tool chain unowned (C36). An address of a client state that is used again sends results to the wrong client; aborted jobs stay in the active count (C46). A stale errno hides a closed connection (C53).
* BFF: an integer whose low byte is ')' closes a bracket (C39) and one whose low byte is '[' or '{' opens one (C51). An argument that names an earlier parameter gets that parameter's value, and 256 arrays in a ForEach wrap the freeze count (C38). `.A - {}` is silently nothing (C54). Numbers are read as octal or hexadecimal after a leading 0 and wrap at 32 bits, and a single '&' or '|' is read as '=' (C56). A directive after other text on its line is obeyed, but not seen while a part is skipped; text after #endif is ignored; more than 255 operands are refused; exists() is false for a value whose hash is 0 (C57).
* Includes: a 32-bit hash collision, or the hash 0, drops an include; the last line of cl.exe output without a line end is dropped (C40).
* Light cache: a file with an unsupported line is refused only for the first compilation that meets it; later ones get a key that leaves out what is included behind that line (C64). A key can be made from a relative path hash that was never set (C64). Only the first definition of an include macro is followed, though the comment in the code says all must be (C62); a macro of the command line is ignored (C62). The MSVC search order is used for all compilers (C62). An #include behind a comment on its line, and #include_next, are missed (C61). Quadratic probing by squares need not find a free bucket (C65).
* Compiler command lines: a writable file that is compiled with the deoptimized options uses the cache under the key of the optimized options, for reading and for writing (C69). With GCC and Clang the cache key depends on whether the output of FASTBuild is a terminal (C69). On a worker, cl.exe's `/I dir` with a space loses the directory, and a last argument `/I"` is undefined behaviour (C66). Options in quotes are recognised only if they take an argument (C66). Only one placeholder per argument is replaced (C68).
* Flags: Objective C++ (`-x objective-c++`, or `-xobjective-c`) is distributed although the code says that Objective C can't be; the options used for deoptimized compilation are not examined, so with /Zi only there objects that need a PDB file are cached (C71).
* Directory lists: directories whose names begin with two dots, like `..data`, are taken for the parent directory and skipped with all
  they hold (C73). The stamp hashes the names with nothing between them; replacing the files `a` and `b` of `/d` by `a/d/b` is not
  noticed (C74).
* RemoveDir: a directory in .RemoveExcludePaths is deleted all the same if it is empty; if it is not, the build fails because rmdir
  does. It also fails if sub-directories exist but are not searched, and if one of .RemovePaths is inside another (C75).
* Files that differ only in case, which Linux allows: the second one found in a directory is taken for the first; it is neither compiled
  (C76) nor copied (C77), without a message. A file in .CompilerInputFiles written in another case than it is already known by builds
  once; the next build stops with a conflict of the file with itself (C76).
* C78: `s += s.Get() + a` (a raw pointer into the string itself) is undefined behaviour for every nonempty text: with room left the byte-wise copy overwrites the terminator it is looking for and runs out of the block, without room an owning string reads memory that Grow has just freed (`C78_own_text_refuted`; `s += s` and assignments from a part of the string itself are fine). `AString( 0 )` marks the shared static empty text as owned, so destroying the string frees static memory (`C78_reserve_zero_refuted`; the only caller passes a constant that is not 0). Appending when the lengths add up to 2^32 or more cuts the new length to 32 bits and overruns the buffer (`C78_wrap_refuted`).
* C79: `PopulateUInt32` casts a negative number without a range to a huge one (`.WorkerConnectionLimit = -1` is 4294967295); `FixupFilePath` makes `\\server\file` into `\server\file` on Windows, where `FixupFolderPath` takes care not to.
* C80: `GetNodeList` for a property that is an array of names starts a new tag sweep for every name, so `m_RemoveDuplicates` does not remove duplicates across names (`.Targets = { 'a', 'a' }` lists `a` twice). `Alias( 'X' ) { .Targets = 'X' }` is accepted and makes an alias of nothing, although `.Targets` is required: the alias is registered before its targets are looked up.
* C81: the header of a call is stored in the `Function` object, which is shared by all calls. A call in the body of a call of the same function (`Exec( 'A' ) { Exec( 'B' ) { ... } ... }`) overwrites and clears it: the alias `A` is never made. For functions that take the name of the target from the header (`Alias`, `ObjectList`) the outer target gets an empty name.
* C82: a worker counts a job whose message is being handled neither as requested nor as active (`Process( MsgJob )` decrements the one before it increments the other, without the list lock), so it can let itself in for one job more per client than intended.
* C83: a connection is told about jobs as soon as it is in the list, before it stands. If jobs come and go while it is being made, a status of 0 waits; if jobs come back just before the connection stands, the greeting says 5, `m_NumJobsAvailableSentToClient` is 5, and the stale status 0 is sent after it. As long as the number stays 5 the worker is not corrected and asks for nothing. After the last job was given away the worker is never told 0: the note was reset to 0, which equals the new number.
* C84: `/LIBPATH: C:\libs` (directory in the next argument) is read as a library directory by `GetOtherLibraries`, but `BuildArgs` turns the first argument into `/LIBPATH:""` and leaves the directory as an input of the linker.
* C85: when `-L`, `-l`, `/LIBPATH:`, `/DEFAULTLIB:` or `/NODEFAULTLIB:` is the last argument, `GetOtherLibsArg` moves the iterator to the end and the loop in `GetOtherLibraries` then moves it past the end, so `it != end` never becomes false: tokens beyond the array are read. On Linux and macOS only `X:` counts as a full path, so a library given by its full path is looked for below the library directories and, not being found there, is no dependency. Of a default library given twice, one `/NODEFAULTLIB:` takes away only one.
* C86: in `DetermineFlags` the argument is turned to lower case before it is compared with `-Wl`, so `-Wl,--oformat=prx` does not make a DLL.
* C87: an address that is twice in the list of workers is connected to twice (`C87_same_address_refuted`). `m_ConnectionDelayTimer` is restarted only when an attempt fails; a worker that accepts and then closes the connection is connected to again in the next pass, about a millisecond later (`C87_at_once_refuted`).
* C88: `RegisterFoundWorkers` sets `m_UniqueId` of every worker to the size of the list, not to its position. `RecordRemote` therefore files all remote jobs of a build under one machine, with the name of the worker whose result came first (`C88_worker_refuted`). `RecordRemote` itself stores a name only when the array grows, so that, even with numbers of their own, a worker that turns up after one with a higher number would have no name (`C88_order_refuted`).
* C89: after an option with its value in the next argument, that argument is read again as an option: `-I /Include` also gives the directory `nclude` (`C89_twice_refuted`), and `-isystem /Dev/x` gives the definition `ev/x` (`C89_stolen_refuted`). `-D\"` makes `Trim( 1, 1 )` run past the end of a text of one character (`C89_quote_refuted`). `-std c++17` is handed on as `c++17` (`C89_language_refuted`). Forced includes are `/FI` and `-FI` only; the light cache is available with GCC and Clang, whose option is `-include`, so its key does not depend on a header that they force (`C89_gcc_forced_refuted`).
* C90: `UnityNode::EnumerateInputFiles` leaves out no file, while `GetFiles` leaves out the list of isolated files; so `compile_commands.json` has an entry that compiles that text file (`C90_isolate_refuted`).
* C91: a worker that is killed and started again, and does not offer itself, leaves its old token for a day or more: `SetAvailability( false )` removes a token only after `SetAvailability( true )` (`C91_restart_refuted`). For the same reason a removal that failed is never tried again (`C91_retry_refuted`).
* C91: of the local addresses only 127.0.0.1 is refused. A host name that stands for 127.0.1.1, as Debian sets it up, is published as `127.0.1.1`, by which each client reaches itself (`C91_local_refuted`).
* C91: a machine that is published by its host name is not recognised as the local one, since only addresses are compared (`C91_self_refuted`); a worker with tokens in two folders is found twice (`C91_twice_refuted`); `FASTBUILD_BROKERAGE_PATH=/b;` names the folder `/main/22.linux/` as well (`C91_last_semicolon`).
* C92: the arguments that are passed on to other processes are not quoted alike. The value of `-sourcefile` has no quotes, so a source file with a space in its name becomes a file and a target (`C92_sourcefile_refuted`); with `-wsl` nothing is quoted (`C92_wsl_refuted`); a target or path that ends in a backslash takes in the quote and what follows (`C92_backslash_refuted`).
* C92: `-sourcefile` as last argument, without a file, is accepted if an earlier `-sourcefile` had one; under a wrapper it then takes `-wrapperintermediate` for its file, so that the second process believes it is the first and stops because another instance is running, or with `-wait` waits forever for its parent, which waits for it (`C92_dangling_refuted`). Everything that begins with `-report` asks for a report, `-reports` too (`C92_report_refuted`).
* C93: the names of groups in an XCode project are written without quotes, unlike all other values; a folder with a space in its name makes a project that cannot be read (`C93_group_refuted`).
* C93: the identifiers of configurations are counted from 0 for the project, 100 for the first target and 200 for the second: with more than a hundred configurations two objects have the same identifier (`C93_identifiers`).
* C93: nothing asks for an extension of the folder of the project. Without one the last letter of its name is dropped or, if a folder above has a dot in its name, the end of the name is before its start and the copy reads outside the text (`C93_name_refuted`).
* C94: the time limit of Test() is looked at only when half a second has passed without output, so a test that prints something more often is never stopped (`C94_timeout_refuted`). Likewise a program that has ended is waited for as long as a process it has left behind goes on printing (`C94_leftover_refuted`); what such a process writes after a pause is lost.
* C95: with ExecUseStdOutAsOutput neither the opening nor the writing of the file is checked: on a full disk the target succeeds with a file that is cut off, or with the old one (`C95_disk_refuted`). Test() checks both.
* C96: the folders that have been declared are recognised by a hash of 32 bits alone: a folder whose hash is that of another one is not declared (`C96_declared_refuted`). Names of files, folders and configurations are written without escapes, so a file "R&D.cpp" makes a project that cannot be read (`C96_name_refuted`). Files are compared without case but folders with it, so folders that differ only in case are both declared (`C96_spelling_refuted`); which of two spellings of a file is kept depends on the order (`C96_order_refuted`). The first base path in the list counts, not the longest; a file directly in it is shown below the next one.
* C97: the folder around a folder is looked for with the slash of the system in a path that has the slashes of Windows, so on Linux and macOS nested solution folders are written side by side (`C97_nested_refuted`, `C97_flat`). Projects are found without regard to case but dependencies and folders match names exactly: another spelling is accepted and silently left out (`C97_dependency_refuted`), while the lists of what to build and deploy do ignore case. A project without extension in a directory with a period has an end before its start (`C97_name_refuted`). Items are matched without case though folders are told apart with it, so folders that differ only in case get the items of both. Identifiers of dependencies are not written in upper case, though those of the listing are; identifiers of folders are a checksum of 32 bits, so two folders may share one.
* C98: a thread looks into the queue first and reads m_WantToQuit afterwards. If a job is added and the destructor called in between, the thread leaves, and the job is never run, although the comment says that all jobs are consumed before shutting down; the destructor returns (and only asserts that the queue is empty) (`C98_lost_refuted`, `C98_lost_max_refuted`). The build waits for its worker threads first, so only a pool that is destroyed at once is affected.
* C99: names in the graph are compared without case on every system, so on Linux two different files "README" and "Readme" cannot be copied into one folder (`C99_case_refuted`); it is an error, nothing is lost.
* C100: an object that the light cache lacks and that is then stored is counted as a miss and as a light store, but not as a light miss, and with a cache that is only written an object that could not be stored is a light miss although nothing was looked up (`C100_light_misses_refuted`): "Misses: 10 (0 Light)" is what a first build with the light cache shows. The members of m_Totals for failures and processor time are always 0 (`C100_total_failed_refuted`).
* C101: WorkerSettings::Save leaves out m_MinimumFreeMemoryMiB, which is 1024 again at the next start (`C101_memory_refuted`). WorkerSettings::Load does not look at whether it could read, nor at the first three bytes: of a file that was cut after its header the mode is an uninitialized variable (`C101_junk_refuted`), and any mode above 3 makes the worker a dedicated one, since the switch of UpdateAvailability has no default (`C101_mode_refuted`).
* C102: no deviation from the documentation. Of an alias, objects are listed and not their sources, since exactly two steps are made (`C102_no_descent`).
* C103: `FileIO::DirectoryCreate` takes `EEXIST` for success, also when a file has the name, so that `EnsurePathExists` returns true with no folder there (`C103_file_refuted`). `DirectoryExists` tests `( st_mode & S_IFDIR ) != 0`, which is also true of sockets and block devices (`C103_special_refuted`). `EnsurePathExistsForFile` of a file in the root asks for the empty path and fails (`C103_root_refuted`).
* C104: `FileStream::WriteBuffer` takes a result of 0 of `write` for progress and never returns if this goes on (`C104_forever_refuted`); `ReadBuffer` stops there. `TextFile` opens its file for writing before anything else, so that a failure leaves it cut short (`C104_case`); it is built again next time (C06).
* C105: a final process of a wrapper holds only its own lock, and a process without wrapper asks only for the main one: if the main process is killed, which wrappers are for, two processes build in one folder (`C105_one_refuted`). `WrapperMainProcess` waits for `Started` without looking whether the final process lives, and waits for ever, keeping the folder, if it died before (`C105_hang_refuted`).
* Source file targets: with two or more files the hints are always built (C43).

## Trusted base

* The kernel of Coq 8.16.1 (checked again by `coqchk`).
* `Print Assumptions` says "Closed under the global context" for every property theorem: no axioms are used. `coqchk` also lists the
  axioms of standard library modules that are merely loaded (`Coq.ssr.ssrunder.Under_rel.*`); no theorem depends on them.
* The transcription from C++ to Gallina by hand. It is the largest part of the trusted base. Each definition cites its lines.
* The assumptions named in the theorems' hypotheses, and the simplifications stated at the definitions.

## What is modelled

The files cited in the headers of the `M_*.v` files, and within them the functions cited at each definition:

* `M_Args.v`: AString.cpp, Args.cpp, JSON.cpp, ResponseFile.cpp
* `M_Array.v`: shared definitions
* `M_Avail.v`: Client.cpp
* `M_Broker.v`: Protocol.h, TCPConnectionPool.cpp, WorkerBrokerage.cpp, WorkerBrokerageClient.cpp, WorkerBrokerageServer.cpp, WorkerBrokerageServer.h
* `M_Build.v`: CopyFileNode.cpp, Dependencies.h, ExecNode.cpp, FBuild.cpp, JobQueue.cpp, Node.cpp, Node.h, NodeGraph.cpp, ObjectNode.cpp, TextFileNode.cpp, UnityNode.cpp
* `M_Bytes.v`: IOStream.h
* `M_Cache.v`: Cache.cpp, FileIO.cpp, FileIO.h, FileStream.cpp, ICache.cpp
* `M_Cli.v`: FBuildOptions.cpp, FBuildOptions.h, Main.cpp
* `M_Codec.v`: IOStream.cpp, IOStream.h
* `M_Compdb.v`: CompilationDatabase.cpp, ObjectListNode.cpp, UnityNode.cpp
* `M_Cond.v`: AString.cpp, AString.h, BFFBooleanExpParser.cpp, BFFOperators.h, BFFParser.cpp, BFFToken.h
* `M_Conf.v`: BFFFile.cpp, BFFFileExists.cpp, BFFTokenizer.cpp, FBuild.cpp, NodeGraph.cpp
* `M_Conns.v`: BuildProfiler.cpp, BuildProfiler.h, Client.cpp
* `M_Copy.v`: FunctionCopy.cpp, NodeGraph.cpp
* `M_Crc.v`: CRC32.cpp, CRC32.h
* `M_Cycle.v`: FBuild.cpp, NodeGraph.cpp
* `M_Db.v`: BFFFileExists.cpp, Dependencies.cpp, Dependencies.h, FBuild.cpp, Node.cpp, NodeGraph.cpp, NodeGraph.h
* `M_Dir.v`: DirectoryListNode.cpp, FileIO.cpp, PathUtils.cpp, RemoveDirNode.cpp
* `M_Dist.v`: Assert.h, Client.cpp, Job.cpp, Job.h, JobQueue.cpp, Node.h, WorkerThread.cpp
* `M_Drv.v`: CompilerDriverBase.cpp, CompilerDriverBase.h, CompilerDriver_CL.cpp, CompilerDriver_GCCClang.cpp, CompilerDriver_OrbisWavePSSLC.cpp, ObjectNode.cpp, ObjectNode.h
* `M_Ensure.v`: FileIO.cpp
* `M_FStr.v`: FileStream.cpp, TextFileNode.cpp
* `M_Fix.v`: ObjectNode.cpp
* `M_Flags.v`: ObjectNode.cpp, ObjectNode.h
* `M_Glob.v`: AString.cpp
* `M_Idle.v`: IdleDetection.cpp, IdleDetection.h, Worker.cpp, WorkerSettings.cpp, WorkerSettings.h, WorkerThreadRemote.cpp
* `M_Incl.v`: CIncludeParser.cpp
* `M_LDep.v`: ListDependenciesNode.cpp
* `M_Lev.v`: LevenshteinDistance.cpp, NodeGraph.cpp
* `M_Light.v`: LightCache.cpp
* `M_Link.v`: AString.cpp, DLLNode.cpp, LibraryNode.cpp, LinkerNode.cpp, NodeGraph.cpp, ObjectListNode.cpp
* `M_Manifest.v`: AString.cpp, ToolManifest.cpp, ToolManifest.h
* `M_Migrate.v`: CompilerInfoNode.cpp, CompilerNode.cpp, Dependencies.h, Node.cpp, Node.h, NodeGraph.cpp, ObjectNode.cpp, PropertyType.h, UnityNode.cpp
* `M_Msg.v`: AString.cpp, AString.h, Node.cpp
* `M_Names.v`: AString.cpp, Function.cpp, Node.cpp, NodeGraph.cpp, ObjectListNode.cpp, ObjectNode.cpp
* `M_Needy.v`: Server.cpp, Server.h
* `M_Net.v`: Client.cpp, Protocol.h, Server.cpp, TCPConnectionPool.cpp
* `M_Objs.v`: CopyDirNode.cpp, NodeGraph.cpp, ObjectListNode.cpp, ObjectNode.cpp
* `M_Opts.v`: AString.cpp, ProjectGeneratorBase.cpp
* `M_Pack.v`: Compressor.cpp, Compressor.h, MultiBuffer.cpp, MultiBuffer.h
* `M_Path.v`: FBuildOptions.cpp, NodeGraph.cpp, PathUtils.cpp, PathUtils.h
* `M_Pool.v`: Conversions.h, MemPoolBlock.cpp, MemPoolBlock.h, SmallBlockAllocator.cpp, SmallBlockAllocator.h
* `M_Probe.v`: LightCache.cpp
* `M_Proc.v`: ExecNode.cpp, Process.cpp, TestNode.cpp
* `M_Props.v`: AliasNode.cpp, Function.cpp, NodeGraph.cpp, PathUtils.cpp
* `M_Queue.v`: FBuild.cpp, JobQueue.cpp, JobQueue.h, WorkerThread.cpp
* `M_Remote.v`: JobQueueRemote.cpp, Server.cpp, Server.h, WorkerThreadRemote.cpp
* `M_Resolve.v`: Node.h, SourceFileTargetResolver.cpp
* `M_Scope.v`: AString.cpp, BFFParser.cpp, BFFStackFrame.cpp, BFFStackFrame.h, BFFUserFunctions.h, BFFVariable.cpp, BFFVariable.h, Function.cpp, FunctionForEach.cpp, FunctionIf.cpp, FunctionPrint.cpp, FunctionUsing.cpp
* `M_SendQ.v`: Client.cpp
* `M_Single.v`: FBuildOptions.cpp, Main.cpp, SystemMutex.cpp
* `M_Sln.v`: AString.cpp, SLNGenerator.cpp, SLNNode.cpp, SLNNode.h, VSProjectGenerator.cpp
* `M_Sort.v`: Sort.h
* `M_Stats.v`: FBuildStats.cpp, FBuildStats.h, JobQueue.cpp, Node.h, ObjectNode.cpp
* `M_Str.v`: AStackString.h, AString.cpp, AString.h, Conversions.h
* `M_Stream.v`: ChainedMemoryStream.cpp, ConstMemoryStream.cpp, Conversions.h, IOStream.cpp, IOStream.h, MemoryStream.cpp
* `M_Sync.v`: Server.cpp, ToolManifest.cpp, ToolManifest.h
* `M_TPool.v`: Semaphore.cpp, ThreadPool.cpp, ThreadPool.h
* `M_Tok.v`: BFFFileExists.cpp, BFFMacros.cpp, BFFToken.h, BFFTokenizer.cpp, FBuild.cpp, Function.cpp
* `M_Unity.v`: AString.cpp, UnityNode.cpp, UnityNode.h
* `M_Vcx.v`: VSProjectGenerator.cpp
* `M_Xcode.v`: ProjectGeneratorBase.cpp, ProjectGeneratorBase.h, XCodeProjectGenerator.cpp, XCodeProjectNode.cpp

## What is not modelled

* What compilers, linkers and other tools do; process creation; the contents of command lines of each node type.
* The operating system below its calls: durability on power failure, memory exhaustion, time, fairness of scheduling.
* Weak memory: critical sections are taken to be atomic, and unsynchronised flags to be sequentially consistent.
* The hash functions (xxHash), compression libraries (LZ4, Zstd), and floating point other than the unity distribution.
* Node types' own Initialize and DoBuild except where cited; project generators; monitor and report output (except the cache
  row of C52); the worker's user interface; OS-specific code for Windows and macOS except where a theorem names them.

