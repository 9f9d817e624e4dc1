{"id": "C01", "title": "Dependencies finish before dependents start", "statement": "Whenever the build starts building a target, every pre-build dependency, every static dependency and every dynamic dependency of that target has already been brought up to date in this build.", "quantifier": "every dependency graph, every set of already-stamped targets, every worker completion order and every dynamic-dependency result, after any number of build passes", "why_tests_cant": "Tests run a few small graphs with the schedules the OS happens to choose; the claim is about all graphs and all interleavings of passes and completions.", "anchors": ["Code/Tools/FBuild/FBuildCore/Graph/NodeGraph.cpp: DoBuildPass, BuildRecurse, CheckDependencies", "Code/Tools/FBuild/FBuildCore/WorkerPool/JobQueue.cpp: AddJobToBatch, FinalizeCompletedJobs"]}
{"id": "C02", "title": "Success implies the whole closure succeeded; failure is never masked", "statement": "If the build reports a target as up to date then every transitive dependency of that target is up to date and none of them failed; a target with a failed dependency is never built in that build and never reported up to date.", "quantifier": "every graph, every set of failing jobs, every schedule", "why_tests_cant": "The failing set and the schedule are universally quantified; a test can only enumerate a handful.", "anchors": ["Code/Tools/FBuild/FBuildCore/Graph/NodeGraph.cpp: CheckDependencies, BuildRecurse", "Code/Tools/FBuild/FBuildCore/WorkerPool/JobQueue.cpp: FinalizeCompletedJobs", "Code/Tools/FBuild/FBuildCore/FBuild.cpp: Build"]}
{"id": "C03", "title": "Each target is built at most once per build", "statement": "During one build, a build job is created at most once for each target, no matter how many paths lead to it and how many passes are made.", "quantifier": "every graph (including heavily shared DAGs), every schedule, every number of passes", "why_tests_cant": "Requires an invariant over unbounded histories of passes and completions.", "anchors": ["Code/Tools/FBuild/FBuildCore/Graph/NodeGraph.cpp: BuildRecurse, DoBuildPass", "Code/Tools/FBuild/FBuildCore/WorkerPool/JobQueue.cpp: AddJobToBatch"]}
{"id": "C04", "title": "Up-to-date decisions are sound and complete", "statement": "A previously built target is skipped only if it has a recorded non-zero stamp and, for every non-weak recorded dependency, the dependency's current stamp is non-zero and equal to the stamp recorded when the target was last built; conversely if all these hold and no clean build is forced, it is not rebuilt.", "quantifier": "every target, dependency list (with and without weak dependencies) and stamp assignment", "why_tests_cant": "Stamps are 64 bit values over lists of any length.", "anchors": ["Code/Tools/FBuild/FBuildCore/Graph/Node.cpp: DetermineNeedToBuildStatic, DetermineNeedToBuildDynamic, DetermineNeedToBuild, Finalize"]}
{"id": "C05", "title": "A build that changes nothing rebuilds nothing", "statement": "After a build in which a set of targets was finalized with no stamp of any dependency changing since, the next up-to-date check answers 'no build needed' for each of those targets.", "quantifier": "every graph and every assignment of stamps produced by the previous build", "why_tests_cant": "Quantifies over all build histories; tests check a few sample projects.", "anchors": ["Code/Tools/FBuild/FBuildCore/Graph/Node.cpp: Finalize, DetermineNeedToBuildStatic, DetermineNeedToBuildDynamic"]}
{"id": "C06", "title": "Interrupted or failed builds are retried", "statement": "If building a target is started but does not complete successfully (it fails, or the build is cancelled at any point before the result is finalized), then in the next build made from the saved state that target is considered out of date and is built again, unless a dependency whose change caused the build was put back to its exact old stamp.", "quantifier": "every graph whose compilers report only files as includes, every cancellation point between passes, every failing job set", "why_tests_cant": "The cancellation point is universally quantified.", "anchors": ["Code/Tools/FBuild/FBuildCore/Graph/NodeGraph.cpp: BuildRecurse", "Code/Tools/FBuild/FBuildCore/WorkerPool/JobQueue.cpp: FinishedProcessingJob, FinalizeCompletedJobs, DoBuild", "Code/Tools/FBuild/FBuildCore/Graph/Node.cpp: DetermineNeedToBuildStatic"]}
{"id": "C07", "title": "Cyclic dependency detection is exact", "statement": "The check for cyclic dependencies terminates on every graph; it reports a cycle only if the reachable graph has one, and if the reachable graph contains a cycle among unfinished targets it reports it.", "quantifier": "every finite directed graph, including self loops and heavily shared subgraphs", "why_tests_cant": "Graphs of every shape and size.", "anchors": ["Code/Tools/FBuild/FBuildCore/Graph/NodeGraph.cpp: CheckForCyclicDependencies, CheckForCyclicDependenciesRecurse"]}
{"id": "C08", "title": "Final per-target status is exact", "statement": "After a build, a requested target is reported OK exactly when it is up to date; it is reported failed exactly when it failed or a failed dependency can be reached through unfinished dependencies; otherwise it is reported incomplete. The search terminates on cyclic graphs.", "quantifier": "every graph and every assignment of final states", "why_tests_cant": "The traversal shares one visited-tag across the whole graph, so correctness depends on global graph shape.", "anchors": ["Code/Tools/FBuild/FBuildCore/FBuild.cpp: GetFinalStatus, GetFinalStatusFailure"]}
{"id": "C09", "title": "A build of an acyclic graph always finishes", "statement": "If the graph is acyclic and every started job eventually reports a result, repeated build passes reach a state where the requested target is either up to date or failed; every pass with no job outstanding makes progress.", "quantifier": "every finite acyclic graph, every schedule, every outcome", "why_tests_cant": "Liveness over unbounded schedules.", "anchors": ["Code/Tools/FBuild/FBuildCore/Graph/NodeGraph.cpp: DoBuildPass, BuildRecurse, CheckDependencies", "Code/Tools/FBuild/FBuildCore/FBuild.cpp: Build"]}
{"id": "C10", "title": "A distributed job has exactly one owner and is finalised exactly once", "statement": "Through every interleaving of local workers, remote workers, races, disconnections and cancellations, each distributable job is in exactly one place, is finalised at most once and is freed at most once, and is never used after being freed.", "quantifier": "every interleaving of queueing, local take, remote take, race start, local completion, remote completion, disconnection and finalisation, for any number of jobs", "why_tests_cant": "Races between local and remote completion are timing dependent; there are too many interleavings to test.", "anchors": ["Code/Tools/FBuild/FBuildCore/WorkerPool/JobQueue.cpp: QueueDistributableJob, GetDistributableJobToProcess, GetDistributableJobToRace, OnReturnRemoteJob, ReturnUnfinishedDistributableJob, FinalizeCompletedJobs, FinishedProcessingJob"]}
{"id": "C11", "title": "Concurrency group limits are never exceeded", "statement": "At every moment the number of jobs belonging to a concurrency group that are queued or running on this machine is at most that group's limit (counting those on other machines too if the limit is below the number of local workers), and jobs held back by a limit are still pending.", "quantifier": "every sequence of batch flushes, job starts and completions, every group configuration", "why_tests_cant": "Histories of any length.", "anchors": ["Code/Tools/FBuild/FBuildCore/WorkerPool/JobQueue.cpp: FlushJobBatch, FinishedProcessingJob, FinalizeCompletedJobs", "Code/Tools/FBuild/FBuildCore/Graph/SettingsNode.cpp"]}
{"id": "C12", "title": "Work queues hand out the most expensive job and lose nothing", "statement": "Each sub queue is always sorted by recursive cost; adding a batch keeps exactly the old jobs plus the new ones; taking a job returns one of maximal cost and removes exactly that job.", "quantifier": "every sequence of batch insertions and removals, all cost values (with ties)", "why_tests_cant": "Unbounded batches and histories.", "anchors": ["Code/Tools/FBuild/FBuildCore/WorkerPool/JobQueue.cpp: JobSubQueue::QueueJobs, JobSubQueue::RemoveJob"]}
{"id": "C13", "title": "Saving and loading the dependency database is lossless", "statement": "Loading a database produced by saving a graph yields the same targets, in the same order, with the same names, types, stamps, build times and dependency lists (indices, recorded stamps and weak flags).", "quantifier": "every well-formed graph, any number of targets and dependencies, all stamp values", "why_tests_cant": "Unbounded data.", "anchors": ["Code/Tools/FBuild/FBuildCore/Graph/NodeGraph.cpp: Save, Load", "Code/Tools/FBuild/FBuildCore/Graph/Node.cpp: Save, SaveExtended, Load, LoadExtended", "Code/Tools/FBuild/FBuildCore/Graph/Dependencies.cpp: Save, Load", "Code/Core/FileIO/IOStream.h"]}
{"id": "C14", "title": "A damaged or foreign database is rejected, never misread", "statement": "A database file that is truncated, has the wrong identifier or version, or whose content hash does not match is rejected before any of its contents is interpreted.", "quantifier": "every byte string", "why_tests_cant": "All byte strings.", "anchors": ["Code/Tools/FBuild/FBuildCore/Graph/NodeGraph.cpp: ReadHeaderAndUsedFiles, Load, Initialize", "Code/Tools/FBuild/FBuildCore/Graph/NodeGraph.h: NodeGraphHeader"]}
{"id": "C15", "title": "A crash while saving the database cannot corrupt the next build", "statement": "If the process is killed at any point while the dependency database is being written over an older one, the next start either uses the complete old database, uses the complete new one, or detects the damage and rebuilds from scratch.", "quantifier": "every old database of the same version or none, every new database, every crash point in the sequence of writes", "why_tests_cant": "Crash points cannot be enumerated by tests.", "anchors": ["Code/Tools/FBuild/FBuildCore/FBuild.cpp: SaveDependencyGraph", "Code/Tools/FBuild/FBuildCore/Graph/NodeGraph.cpp: Save, Load, ReadHeaderAndUsedFiles"]}
{"id": "C16", "title": "Configuration changes are always noticed", "statement": "If any configuration file used by the last parse changed content, any imported environment variable changed, or any file whose existence was tested in the configuration appeared or disappeared, the database is not reused as-is.", "quantifier": "every recorded set of files, variables and existence tests and every current environment, when stamps and hashes reveal changes, no file is edited while it is being parsed, and the root file is the same", "why_tests_cant": "All environments.", "anchors": ["Code/Tools/FBuild/FBuildCore/Graph/NodeGraph.cpp: Load", "Code/Tools/FBuild/FBuildCore/BFF/BFFFileExists.cpp: CheckFile, CheckForChanges", "Code/Tools/FBuild/FBuildCore/FBuild.cpp: ImportEnvironmentVar"]}
{"id": "C17", "title": "Path cleaning is a canonicalisation", "statement": "Cleaning a path yields an absolute path with no '.', no '..', no empty component and only native slashes; it denotes the same location as the input resolved component by component against the working directory; cleaning twice gives the same result as cleaning once.", "quantifier": "every absolute path and every relative path that does not start with a slash, below 65536 characters in all, and every clean absolute working directory other than the root", "why_tests_cant": "All strings.", "anchors": ["Code/Tools/FBuild/FBuildCore/Graph/NodeGraph.cpp: CleanPath, IsCleanPath"]}
{"id": "C18", "title": "Target lookup is exact and case-insensitive, and names are unique", "statement": "Looking up a name finds a target exactly when a target whose name is equal ignoring ASCII case was added, regardless of hash collisions and table size, and the graph never holds two targets whose names are equal ignoring case.", "quantifier": "every sequence of additions and lookups, every hash function", "why_tests_cant": "Collisions and histories are universally quantified.", "anchors": ["Code/Tools/FBuild/FBuildCore/Graph/NodeGraph.cpp: AddNode, FindNode, FindNodeInternal, FindNodeExact, CreateNode", "Code/Tools/FBuild/FBuildCore/Graph/Node.cpp: CalcNameHash"]}
{"id": "C19", "title": "Relative paths lead back to the file", "statement": "The relative path computed from a base directory to a file, resolved against that base directory, denotes the original file.", "quantifier": "all clean absolute base directories and file paths", "why_tests_cant": "All strings.", "anchors": ["Code/Core/FileIO/PathUtils.cpp: GetRelativePath"]}
{"id": "C20", "title": "Wildcard matching implements the documented glob language", "statement": "A pattern matches a string exactly when the string can be obtained by replacing each '*' by any (possibly empty) text and each '?' by one character other than '.', all other characters matching literally; matching always terminates.", "quantifier": "every pattern and every string", "why_tests_cant": "All strings; backtracking matchers are a classic source of missed cases.", "anchors": ["Code/Core/Strings/AString.cpp: Match, MatchI", "Code/Core/FileIO/PathUtils.cpp: IsWildcardMatch"]}
{"id": "C21", "title": "Packed result files unpack to the same files", "statement": "Packing a list of files into one buffer and extracting the i-th entry yields the i-th file's bytes; asking for an index past the end is refused.", "quantifier": "every list of up to four files of any sizes (the code's own limit) and every index", "why_tests_cant": "Unbounded data.", "anchors": ["Code/Tools/FBuild/FBuildCore/Helpers/MultiBuffer.cpp: CreateFromFiles, ExtractFile"]}
{"id": "C22", "title": "Compressed blocks are validated and decompress to the original", "statement": "Whatever the compression level and whether or not compression helps, decompressing a compressed block returns the original bytes and the block passes validation; a block that passes validation is decompressed without reading outside it.", "quantifier": "every input below the 4 GiB format limit, every level, any lossless codec; every byte string for the safety part", "why_tests_cant": "All byte strings, all codecs.", "anchors": ["Code/Tools/FBuild/FBuildCore/Helpers/Compressor.cpp: Compress, CompressZstd, Decompress, IsValidData"]}
{"id": "C23", "title": "Network messages arrive whole and in order", "statement": "Whatever partial sends and receives the network performs, the receiver is handed exactly the sequence of messages (with their payloads) passed to send.", "quantifier": "every sequence of messages below the 32-bit size limit and every fragmentation of the byte stream", "why_tests_cant": "Fragmentation is decided by the kernel and the network.", "anchors": ["Code/Core/Network/TCPConnectionPool.cpp: Send, SendInternal, HandleRead", "Code/Tools/FBuild/FBuildCore/Protocol/Client.cpp: OnReceive", "Code/Tools/FBuild/FBuildCore/Protocol/Server.cpp: OnReceive"]}
{"id": "C24", "title": "Publishing to the cache is atomic", "statement": "At every instant, including after a crash at any step of a publish, reading a cache entry gives nothing, the previous complete entry or the new complete entry, never partial data.", "quantifier": "every old state, every data, every crash point and every I/O failure, one publisher", "why_tests_cant": "Crash points and I/O failures.", "anchors": ["Code/Tools/FBuild/FBuildCore/Cache/Cache.cpp: Publish, Retrieve"]}
{"id": "C25", "title": "Cache trimming removes oldest first and stops at the limit", "statement": "Trimming deletes nothing if the cache already fits; otherwise it deletes files in order of age, never deletes a file when an older deletable one is left, stops as soon as the total is within the limit, and the remaining total is within the limit unless every remaining file refused to be deleted.", "quantifier": "every set of cache files (sizes, ages), every limit, every set of undeletable files", "why_tests_cant": "Unbounded sets.", "anchors": ["Code/Tools/FBuild/FBuildCore/Cache/Cache.cpp: Trim, GetCacheFiles"]}
{"id": "C26", "title": "Sorting sorts", "statement": "Sorting an array yields a permutation of the input that is ordered by the given comparison.", "quantifier": "every array and every strict weak order", "why_tests_cant": "All arrays of all lengths.", "anchors": ["Code/Core/Containers/Sort.h: ShellSort", "Code/Core/Containers/Array.h: Sort"]}
{"id": "C27", "title": "Unity generation covers every source exactly once", "statement": "Each input file is assigned to exactly one unity file, the order of files is kept, and no file is lost or duplicated whatever the rounding of the per-unity allocation; every file is either compiled through its unity or listed as isolated.", "quantifier": "every file list, every number of unity files (at least one), every isolation setting, every output pattern with a '*'", "why_tests_cant": "Floating point rounding depends on the counts.", "anchors": ["Code/Tools/FBuild/FBuildCore/Graph/UnityNode.cpp: DoBuild, FilterForceIsolated"]}
{"id": "C28", "title": "Edit-distance suggestions are the true Levenshtein distance", "statement": "The distance used for 'did you mean' suggestions equals the minimum number of single character insertions, deletions and substitutions between the two names (ignoring case where requested).", "quantifier": "every pair of strings whose shorter one is below 1024 characters", "why_tests_cant": "All strings.", "anchors": ["Code/Core/Strings/LevenshteinDistance.cpp: LevenshteinDistanceImpl"]}
{"id": "C29", "title": "Nearest-target suggestions are the best ones", "statement": "The suggestions offered for an unknown target are ordered by increasing distance and no omitted eligible target is closer than an offered one.", "quantifier": "every set of targets and every input", "why_tests_cant": "Unbounded sets.", "anchors": ["Code/Tools/FBuild/FBuildCore/Graph/NodeGraph.cpp: FindNearestNodesInternal"]}
{"id": "C30", "title": "Command-line tokenising and quoting are consistent", "statement": "Splitting a command line into tokens yields tokens whose boundaries are separators outside quotes only, loses no non-separator character, and removing quotes from a quoted token gives back the original argument, for arguments that do not end in a backslash.", "quantifier": "every string and every separator other than the quote mark and the backslash", "why_tests_cant": "All strings.", "anchors": ["Code/Core/Strings/AString.cpp: Tokenize, RemoveQuotes", "Code/Tools/FBuild/FBuildCore/Helpers/Args.cpp"]}
{"id": "C31", "title": "Response files are used exactly when needed and carry the same arguments", "statement": "A command line at or above the platform limit is never passed directly; it is either moved to a response file with the same arguments or reported as an error; arguments are only changed at separator positions.", "quantifier": "every argument list, executable name, limit and mode", "why_tests_cant": "All strings and limits.", "anchors": ["Code/Tools/FBuild/FBuildCore/Helpers/Args.cpp: Finalize, AddDelimiter"]}
{"id": "C32", "title": "JSON escaping round-trips", "statement": "Decoding an escaped string with a standard JSON decoder gives the original string, and the escaped text contains no raw control character or unescaped quote.", "quantifier": "every string", "why_tests_cant": "All strings.", "anchors": ["Code/Tools/FBuild/FBuildCore/Helpers/JSON.cpp: AppendEscaped, Escape", "Code/Tools/FBuild/FBuildCore/Helpers/CompilationDatabase.cpp"]}
{"id": "C33", "title": "In-memory streams return exactly what was written", "statement": "Data written to a paged or growable memory stream in any split is returned unchanged and in order, the reported size is the number of bytes written, and reads from a constant stream never go past its end.", "quantifier": "every sequence of writes, every page size, every sequence of reads and seeks; the size of a paged stream below 4 GiB", "why_tests_cant": "All histories.", "anchors": ["Code/Core/FileIO/ChainedMemoryStream.cpp", "Code/Core/FileIO/MemoryStream.cpp", "Code/Core/FileIO/ConstMemoryStream.cpp", "Code/Core/FileIO/IOStream.cpp"]}
{"id": "C34", "title": "The block allocator never hands out memory twice", "statement": "Every block returned by the pool allocator is aligned, lies inside a page owned by the pool, and does not overlap any other block currently in use.", "quantifier": "every sequence of allocations and frees, every block size and alignment", "why_tests_cant": "All histories.", "anchors": ["Code/Core/Mem/MemPoolBlock.cpp: Alloc, Free, AllocPage", "Code/Core/Mem/SmallBlockAllocator.cpp: Alloc, Free, AllocateMemoryForPage"]}
{"id": "C35", "title": "Outgoing messages are never stranded", "statement": "Whenever a message is waiting to be sent to a worker the sender thread has a pending wake-up, and messages are sent in the order queued; a status update is never lost, only superseded by a newer one.", "quantifier": "every interleaving of enqueues and sender wake-ups", "why_tests_cant": "Interleavings.", "anchors": ["Code/Tools/FBuild/FBuildCore/Protocol/Client.cpp: SendMessageInternal, SendQueueMainLoop"]}
{"id": "C36", "title": "Worker tool synchronisation never deadlocks waiting jobs", "statement": "If jobs on a worker wait for a toolchain, then the toolchain is either already synchronised or a request for it is outstanding on a live connection.", "quantifier": "every interleaving of job arrivals, manifest and file arrivals and disconnections, any number of clients and toolchains", "why_tests_cant": "Interleavings over many connections.", "anchors": ["Code/Tools/FBuild/FBuildCore/Protocol/Server.cpp: Process(MsgJob), Process(MsgManifest), Process(MsgFile), CheckWaitingJobs, OnDisconnected, RequestMissingFiles", "Code/Tools/FBuild/FBuildCore/Helpers/ToolManifest.cpp"]}
{"id": "C37", "title": "Remote system errors are retried a bounded number of times", "statement": "A job that hits system errors on remote workers is retried elsewhere at most the configured number of times, the offending workers are not used again for further jobs, and after the limit the job fails.", "quantifier": "every history of remote results", "why_tests_cant": "Histories.", "anchors": ["Code/Tools/FBuild/FBuildCore/Protocol/Client.cpp: ProcessJobResultCommon", "Code/Tools/FBuild/FBuildCore/WorkerPool/Job.h"]}
{"id": "C38", "title": "BFF variable scoping", "statement": "A variable read returns the value from the innermost enclosing scope that declares it. An assignment without '^' changes only the scope it stands in; an assignment with '^' changes the nearest enclosing declaration. Leaving a scope (braces, If, ForEach, a function body) restores exactly the variables visible before it was entered, except for values assigned with '^'. A ForEach runs its body once per element, in order, and the array cannot change under it. A user function sees nothing of its caller but its arguments, and changes nothing there.", "quantifier": "every program of assignments, scopes, If, ForEach, Using, Print, user functions and calls, from every reachable state", "why_tests_cant": "All programs.", "anchors": ["Code/Tools/FBuild/FBuildCore/BFF/BFFStackFrame.cpp: GetVariableRecurse, SetVar, GetParentDeclaration", "Code/Tools/FBuild/FBuildCore/BFF/BFFParser.cpp: ParseVariableDeclaration, StoreVariable*, ParseUserFunctionCall", "Code/Tools/FBuild/FBuildCore/BFF/Functions/FunctionForEach.cpp: ParseFunction"]}
{"id": "C39", "title": "BFF conditions are evaluated as written", "statement": "A condition evaluates to the value of its expression with '!' binding tightest and the binary operators applied strictly left to right; parentheses group.", "quantifier": "every well-formed condition", "why_tests_cant": "All expressions.", "anchors": ["Code/Tools/FBuild/FBuildCore/BFF/BFFBooleanExpParser.cpp: ParseBooleanExp, ParseBinaryBooleanExp, ParseUnaryBooleanExp, ParseSubBooleanExp"]}
{"id": "C40", "title": "All included files become dependencies", "statement": "Every file named by an include line in preprocessor or compiler output (GCC/Clang line markers, cl.exe /showIncludes lines, cl.exe #line 1 directives) is recorded as a dependency, once per file, and nothing else is, provided no two of the names share a 32-bit hash and none has the hash 0.", "quantifier": "every compiler output whose line markers close their quotes on their line and whose last line is ended", "why_tests_cant": "All strings.", "anchors": ["Code/Tools/FBuild/FBuildCore/Helpers/CIncludeParser.cpp: ParseGCC_Preprocessed, ParseMSCL_Output, ParseMSCL_Preprocessed, AddInclude"]}
{"id": "C41", "title": "IDE output filtering hides every error pattern", "statement": "After filtering a message for MSBuild no '<error|warning> CODE:' pattern remains that MSBuild would treat as a build failure, and nothing but the offending colons is altered.", "quantifier": "every message", "why_tests_cant": "All strings.", "anchors": ["Code/Tools/FBuild/FBuildCore/Graph/Node.cpp: CleanMessageToPreventMSBuildFailure"]}
{"id": "C42", "title": "CRC32 acceleration is equivalent to the definition", "statement": "The table-driven, eight-bytes-at-a-time checksum equals the bit-by-bit CRC-32 of the same bytes for every length and buffer alignment.", "quantifier": "every byte string and every alignment", "why_tests_cant": "All byte strings.", "anchors": ["Code/Core/Math/CRC32.cpp: CRC_SlicingBy8, SlicingInit"]}
{"id": "C43", "title": "Building by source file finds the right targets", "statement": "When the user names source files, the targets built are exactly the nodes under the hint targets that directly depend on one of them (except nodes only reached through another such node, which are built with it), once each, or the hint targets if some file has none.", "quantifier": "every graph, hint list and source list", "why_tests_cant": "Visited marks shared across searches make the result depend on graph shape and on order.", "anchors": ["Code/Tools/FBuild/FBuildCore/Helpers/SourceFileTargetResolver.cpp: Resolve, FindTargetsRecurse"]}
{"id": "C44", "title": "The remote environment block is well formed", "statement": "The environment block built on a worker is exactly the NUL separated list of variables, with the first %1 of each replaced by the tool directory, terminated by an extra NUL, and building it never writes outside the allocated block.", "quantifier": "every list of variables and every tool directory", "why_tests_cant": "All strings.", "anchors": ["Code/Tools/FBuild/FBuildCore/Helpers/ToolManifest.cpp: DeserializeFromRemote"]}
{"id": "C45", "title": "Tool manifests survive the network", "statement": "A manifest serialised by a client is deserialised by a worker to the same files, stamps, hashes, sizes and environment variables; truncated data is rejected.", "quantifier": "every manifest with at least one file, and every proper prefix of its serialisation", "why_tests_cant": "Unbounded data.", "anchors": ["Code/Tools/FBuild/FBuildCore/Helpers/ToolManifest.cpp: SerializeForRemote, DeserializeFromRemote"]}
{"id": "C46", "title": "Worker queue cancels exactly the disconnected client's jobs", "statement": "When a client disconnects none of its pending or completed jobs is later reported, the jobs of other clients are unaffected, and no job is freed twice.", "quantifier": "every interleaving of job arrivals, completions and disconnections", "why_tests_cant": "Interleavings.", "anchors": ["Code/Tools/FBuild/FBuildCore/WorkerPool/JobQueueRemote.cpp: CancelJobsWithUserData, GetJobToProcess, FinishedProcessingJob, GetCompletedJob"]}
{"id": "C47", "title": "Stripping a file extension only touches the file name", "statement": "Removing the extension of a path leaves its directory part unchanged.", "quantifier": "every path", "why_tests_cant": "All strings.", "anchors": ["Code/Core/FileIO/PathUtils.cpp: StripFileExtension"]}
{"id": "C48", "title": "Imported environment variables are consistent", "statement": "Within one configuration parse, all imports of the same environment variable see the same value or the parse fails, and each variable is recorded exactly once with the hash of its value.", "quantifier": "every sequence of imports and every environment history", "why_tests_cant": "Histories.", "anchors": ["Code/Tools/FBuild/FBuildCore/FBuild.cpp: ImportEnvironmentVar"]}
{"id": "C49", "title": "Files are excluded by whole name only", "statement": "A file named in an exclusion list matches a path exactly when the path is that name or ends in a slash followed by it; never because a longer file name happens to end the same way.", "quantifier": "every path and every file name", "why_tests_cant": "All strings.", "anchors": ["Code/Core/FileIO/PathUtils.cpp: PathEndsWithFile"]}
{"id": "C50", "title": "Directory settings end in exactly the slash they need", "statement": "Completing a directory with a slash yields the same directory followed by one native slash: nothing is added if there is one, a foreign slash is replaced, and repeating it changes nothing.", "quantifier": "every path on both slash conventions", "why_tests_cant": "All strings.", "anchors": ["Code/Core/FileIO/PathUtils.cpp: EnsureTrailingSlash"]}
{"id": "C51", "title": "An integer assignment stores the integer", "statement": "Assigning, adding or subtracting an integer literal in a configuration file leaves the variable holding that integer, the sum or the difference, whatever the integer.", "quantifier": "every 32-bit integer and every earlier value of the variable", "why_tests_cant": "All integers: a handful of literal values happens to behave differently.", "anchors": ["Code/Tools/FBuild/FBuildCore/BFF/BFFParser.cpp: ParseVariableDeclaration", "Code/Tools/FBuild/FBuildCore/BFF/Tokenizer/BFFToken.h: IsCurlyLeftBracket, IsSquareLeftBracket"]}
{"id": "C52", "title": "Cache entries have distinct names and are all found again", "statement": "Two cache entries have the same name only if the source, the command line, the tool and the precompiled header keys are all equal; every entry lies in a directory that the cache report and trimming examine; the report counts each file in exactly one row.", "quantifier": "every key, cache directory, file and time", "why_tests_cant": "All keys.", "anchors": ["Code/Tools/FBuild/FBuildCore/Cache/ICache.cpp: GetCacheId", "Code/Tools/FBuild/FBuildCore/Cache/Cache.cpp: GetFullPathForCacheEntry, GetCacheFiles, OutputInfo"]}
{"id": "C53", "title": "A connection closed by the peer is noticed", "statement": "When the peer closes a connection, the receiving side stops waiting for data on it and drops the connection, whatever was received before. (Refuted as stated on POSIX: a close reported after the receiving thread once had to wait within a message is taken for data still to come.)", "quantifier": "all histories of arrivals, waits and errors on a connection, before and after the close", "why_tests_cant": "Whether the close is seen depends on an error code left over by an earlier call in the same thread, so on the whole history of fragmentation.", "anchors": ["Code/Core/Network/TCPConnectionPool.cpp: HandleRead, ThreadFunc_Connection"]}
{"id": "C54", "title": "BFF assignments compute what is written", "statement": "After .Name = rhs, .Name + rhs or .Name - rhs, the name stands for what the operator makes of its old value and of the value of the right hand side, and no other name changes: texts with their $Variables$ replaced and '^' escapes, integers within 32 bits, booleans, arrays element by element, structs member by member (a member of both is added, the others are kept). Every other combination of types is an error. Using() makes exactly the members variables of the current scope; If runs its body exactly when the condition holds; a function reads its properties as they stand at the end of its braces.", "quantifier": "every state, name, operator and right hand side, and every nesting of values", "why_tests_cant": "All combinations of old value, operator and operand, with texts and structs of any size and depth.", "anchors": ["Code/Tools/FBuild/FBuildCore/BFF/BFFParser.cpp: StoreVariableString, StoreVariableArray, StoreVariableStruct, StoreVariableBool, StoreVariableInt, StoreVariableToVariable, PerformVariableSubstitutions", "Code/Tools/FBuild/FBuildCore/BFF/BFFVariable.cpp: ConcatVarsRecurse", "Code/Tools/FBuild/FBuildCore/BFF/Functions/FunctionUsing.cpp: ParseFunction", "Code/Tools/FBuild/FBuildCore/BFF/Functions/FunctionIf.cpp"]}
{"id": "C55", "title": "A changed BFF rebuilds what changed, and only that", "statement": "When the BFF was edited, each target of the new BFF either is built again or is unchanged: there was a target of that name with the same type, the same settings and the same dependencies, themselves unchanged, and all that was recorded of its last build is kept, so that it is out of date just when it would have been with the old BFF. A target whose type, settings or dependencies changed is built again. If the BFF still defines all its targets as before (comments, formatting), nothing is built because of the edit, and the targets found by the last build (the objects of a list) are known again. The comparison always ends.", "quantifier": "all old graphs and all new graphs without cycles, of any size and with any settings, names and recorded states", "why_tests_cant": "The outcome depends on the whole graph: children are compared first, nodes are created on the way, and visits are shared between all paths.", "anchors": ["Code/Tools/FBuild/FBuildCore/Graph/NodeGraph.cpp: Migrate, MigrateNode, MigrateProperty, AreNodesTheSame, DoDependenciesMatch", "Code/Tools/FBuild/FBuildCore/Graph/Node.cpp: Migrate"]}
{"id": "C56", "title": "The text of a BFF file is read by one lexical grammar", "statement": "A text of words, .Variables, strings, numbers, operators, brackets, white space and comments is read as exactly the tokens it spells: a word or number goes on as far as it can, the longer operator is preferred, comments run to the end of the line, '^' takes the next character of a string with it, and the words of the language are told from names. No text has two readings, and a text that is accepted has this form, except that numbers with a superfluous 0 in front or out of range, and a single '&' or '|', are accepted too.", "quantifier": "all texts", "why_tests_cant": "Texts of any length and any mixture of token kinds, with every pair of neighbours.", "anchors": ["Code/Tools/FBuild/FBuildCore/BFF/Tokenizer/BFFTokenizer.cpp: Tokenize, SkipWhitespace, SkipToNextToken", "Code/Tools/FBuild/FBuildCore/BFF/Tokenizer/BFFToken.cpp", "Code/Tools/FBuild/FBuildCore/BFF/BFFKeywords.cpp"]}
{"id": "C57", "title": "Conditional parts of a BFF file are taken exactly when their condition says so", "statement": "A file of text, #define, #undef, #once, #import, #include and nested #if / #elif / #else / #endif is read as the tokens of the parts that are taken: of each conditional, the first part whose condition holds. A condition is a disjunction of conjunctions of names, exists(X), file_exists('f') and their negations, with '&&' binding stronger. What stands in a part that is not taken makes no difference. A condition with more than 255 operands is refused.", "quantifier": "all documents of any size and nesting, all conditions, all environments, file systems and macro states", "why_tests_cant": "Nesting and conditions are unbounded, and parts that are skipped can contain anything.", "anchors": ["Code/Tools/FBuild/FBuildCore/BFF/Tokenizer/BFFTokenizer.cpp: HandleDirective, HandleDirective_If, HandleDirective_IfExpression, HandleDirective_IfCondition, ParseToEndIf", "Code/Tools/FBuild/FBuildCore/BFF/BFFMacros.cpp"]}
{"id": "C58", "title": "Reading a BFF file with its includes ends", "statement": "Reading ends for every set of files, also when files include each other, with the same result each time. A file that includes itself without #once is refused. A file in which #once was met adds nothing when it is included again.", "quantifier": "all file contents and all include graphs", "why_tests_cant": "Include graphs can be cyclic and of any size; the nesting limit has to stop every cycle.", "anchors": ["Code/Tools/FBuild/FBuildCore/BFF/Tokenizer/BFFTokenizer.cpp: Tokenize, HandleDirective_Include, HandleDirective_Once"]}
{"id": "C59", "title": "An imported environment variable has exactly its value", "statement": "#import X makes .X a string variable whose value, in any scope, is exactly the value of the environment variable, also when it contains '$' or '^'. A variable that is not set is an error.", "quantifier": "all values of environment variables", "why_tests_cant": "Values can contain any characters, including those that are special in strings.", "anchors": ["Code/Tools/FBuild/FBuildCore/BFF/Tokenizer/BFFTokenizer.cpp: HandleDirective_Import", "Code/Tools/FBuild/FBuildCore/FBuild.cpp: ImportEnvironmentVar", "Code/Tools/FBuild/FBuildCore/BFF/BFFParser.cpp: PerformVariableSubstitutions"]}
{"id": "C60", "title": "All that reading a BFF took from outside is recorded", "statement": "After a BFF is read, the recorded environment variables, file existence answers and files are everything the result depends on: with any other environment and file system that agree on these, reading gives the same tokens and the same record. What is recorded is true.", "quantifier": "all BFF files, environments and file systems", "why_tests_cant": "It quantifies over all pairs of environments.", "anchors": ["Code/Tools/FBuild/FBuildCore/BFF/Tokenizer/BFFTokenizer.cpp: HandleDirective_IfCondition, HandleDirective_Import, Tokenize", "Code/Tools/FBuild/FBuildCore/BFF/BFFFileExists.cpp", "Code/Tools/FBuild/FBuildCore/FBuild.cpp: ImportEnvironmentVar"]}
{"id": "C61", "title": "The light cache finds every #include of a source file", "statement": "In a text of lines of code, blank lines, comments and directives, where a directive stands first on its line with at most one comment between its words, the light cache notes exactly the #include and #define lines, in order, with the names they give. (Comments before the '#', #include_next and comments that begin behind code are the exceptions.)", "quantifier": "all source texts of that form, of any length", "why_tests_cant": "Texts of any length, with strings and comments that contain anything.", "anchors": ["Code/Tools/FBuild/FBuildCore/Cache/LightCache.cpp: Parse, ParseDirective, ParseDirective_Include, ParseDirective_Define, ParseIncludeString, ParseMacroName, SkipCommentBlock"]}
{"id": "C62", "title": "The light cache's list of files is closed under includes", "statement": "When the light cache gives a key, its list of files has the source, the forced includes and with each file every file that its includes lead to by the usual search: beside the including file, then on the include paths, provided no other listed file has a file of that name beside it. An include by macro is followed if the macro always has the same definition, in the file or one before it. Every listed file is there and listed once, and the search ends even when files include each other.", "quantifier": "all file systems, include graphs (cyclic too), include paths and forced includes, and all timings of other compilations", "why_tests_cant": "Include graphs are unbounded and cyclic; each file is visited once, with only one of the stacks it can be reached by.", "anchors": ["Code/Tools/FBuild/FBuildCore/Cache/LightCache.cpp: Hash, ProcessInclude, ProcessIncludeFromIncludeStack, ProcessIncludeFromIncludePath, FileExists"]}
{"id": "C63", "title": "Equal light cache keys mean equal inputs", "statement": "If two compilations of sources with the light cache get the same key, then unless the hash collides on just these names and texts, they list the same files with the same contents. Then also each include leads to the same file in both, whatever other files have been added or removed in between, so a compiler reads the same.", "quantifier": "all pairs of file systems", "why_tests_cant": "It is about all pairs of states of the file system, including files that appear earlier on the include path.", "anchors": ["Code/Tools/FBuild/FBuildCore/Cache/LightCache.cpp: Hash, FileExists", "Code/Tools/FBuild/FBuildCore/Graph/ObjectNode.cpp: GetCacheName"]}
{"id": "C64", "title": "A light cache key does not depend on what other compilations did before", "statement": "Records of files are shared between all compilations of a build. If the files are of the supported form and all compilations agree on using relative paths, the outcome is the same whatever records are there already and whenever others add them.", "quantifier": "all include graphs and all interleavings with other compilations", "why_tests_cant": "The order in which threads meet a shared header varies from run to run.", "anchors": ["Code/Tools/FBuild/FBuildCore/Cache/LightCache.cpp: FileExists, AddError"]}
{"id": "C65", "title": "The shared table of file records is a map", "statement": "The table in which records of files are shared finds the record that was inserted for a name, and nothing for a name that was not inserted, however often it has grown. Lookups of names that are there end, and all lookups end while less than an eighth of the buckets is taken. Inserting a new name never finds it there.", "quantifier": "all hash functions, all sequences of insertions", "why_tests_cant": "It depends on all possible patterns of collisions.", "anchors": ["Code/Tools/FBuild/FBuildCore/Cache/LightCache.cpp: IncludedFileHashSet"]}
{"id": "C66", "title": "The compiler gets the user's arguments, with the documented edits and nothing else", "statement": "For each kind of compilation (compile, preprocess, compile preprocessed text), the arguments the compiler gets are those of the user in their order, without the options listed for that compiler and stage and the arguments that belong to them, with placeholders replaced, followed by the few options FASTBuild adds. On a cl.exe worker, relative include directories are moved below the job's root, if the directory is attached to its /I.", "quantifier": "all option texts, compilers, stages, file names and settings", "why_tests_cant": "Option texts are free-form and of any length; options interact with their neighbours.", "anchors": ["Code/Tools/FBuild/FBuildCore/Graph/ObjectNode.cpp: BuildArgs, ExpandCompilerForceUsing", "Code/Tools/FBuild/FBuildCore/ExeDrivers/Compiler/CompilerDriverBase.cpp", "Code/Tools/FBuild/FBuildCore/ExeDrivers/Compiler/CompilerDriver_GCCClang.cpp", "Code/Tools/FBuild/FBuildCore/ExeDrivers/Compiler/CompilerDriver_CL.cpp"]}
{"id": "C67", "title": "A worker runs GCC and Clang with the arguments that would be used locally", "statement": "The options sent to a worker, made into a command line there, give the same text as compiling the same preprocessed text locally, provided that what follows an option with an argument is not itself one of the options FASTBuild looks for.", "quantifier": "all option texts", "why_tests_cant": "Edits happen in two places, on two machines; texts are split twice.", "anchors": ["Code/Tools/FBuild/FBuildCore/Graph/ObjectNode.cpp: SaveRemote, BuildArgs, DoBuild2", "Code/Tools/FBuild/FBuildCore/ExeDrivers/Compiler/CompilerDriver_GCCClang.cpp: ProcessArg_PreparePreprocessedForRemote, ProcessArg_CompilePreprocessed"]}
{"id": "C68", "title": "A file name put in place of a placeholder stays in one argument", "statement": "A name without quotes that does not end in a backslash, put in place of a placeholder, leaves that argument a single argument, if it has no spaces or the placeholder is in quotes.", "quantifier": "all arguments and names", "why_tests_cant": "Names come from the file system.", "anchors": ["Code/Tools/FBuild/FBuildCore/ExeDrivers/Compiler/CompilerDriverBase.cpp: ProcessArg_BuildTimeSubstitution", "Code/Core/Strings/AString.cpp: Tokenize"]}
{"id": "C69", "title": "The cache key of a command line does not depend on the machine", "statement": "With relative paths, the command line part of a cache key is the same whatever directory the tree is in and whatever temporary files are used. (It does depend on whether output goes to a terminal, and does not tell a deoptimized compilation from an optimized one.)", "quantifier": "all option texts, working directories and file names", "why_tests_cant": "Directories of any form on any machine.", "anchors": ["Code/Tools/FBuild/FBuildCore/Graph/ObjectNode.cpp: GetCommandLineKey, BuildArgs, GetCommandLine, ShouldUseCache"]}
{"id": "C70", "title": "Which files are compiled with the deoptimized options", "statement": "A file is deoptimized exactly if it is not a unity file, is writable, and either deoptimization of writable files is on, or that of marked files is on and the marker lies wholly in its first 1024 bytes before any zero byte.", "quantifier": "all file contents and settings", "why_tests_cant": "Markers at every position of every content.", "anchors": ["Code/Tools/FBuild/FBuildCore/Graph/ObjectNode.cpp: ShouldUseDeoptimization"]}
{"id": "C71", "title": "Which compilations may be distributed and cached", "statement": "With cl.exe, an object may be distributed exactly if the compiler allows it, it uses no mapped source files and makes no precompiled header, and its options have no /clr, /P, /ZW and no /analyze left in force; and cached exactly if the compiler allows it and there is no /clr, no /P and, except with clang-cl, no /Zi or /ZI. With GCC and Clang, it may be distributed if the compiler allows it and there is no Objective C option, no mapped source, no precompiled header and no coverage data in force. Of an option that can be taken back, the last one counts. (Objective C++ is not noticed, and the deoptimized options are not looked at.)", "quantifier": "all option texts, compilers and settings", "why_tests_cant": "Option texts are free-form, options can be repeated and taken back.", "anchors": ["Code/Tools/FBuild/FBuildCore/Graph/ObjectNode.cpp: DetermineFlags, ShouldUseCache", "Code/Tools/FBuild/FBuildCore/Graph/ObjectListNode.cpp: Initialize"]}
{"id": "C72", "title": "The fix-up of a unity file's preprocessed text changes only the flags it means to", "statement": "Whatever the preprocessed text of a unity file is, the fix-up for Clang keeps its length and changes only digits 1 and 2 to spaces. If the text has the form Clang writes, exactly the begin and return flags of the files that the unity file itself includes are blanked; the markers in these files, other markers and the code are kept.", "quantifier": "all texts, any number and nesting of files", "why_tests_cant": "Preprocessed text has any content and any number of markers.", "anchors": ["Code/Tools/FBuild/FBuildCore/Graph/ObjectNode.cpp: DoClangUnityFixup"]}
{"id": "C73", "title": "A directory listing has exactly the files that its settings show", "statement": "Listing a directory gives exactly the files in directories that are entered (recursion is on and they are not excluded), whose names match one of the patterns, and which are neither excluded by name nor by pattern; each once and in order of bytes. Directories are listed if asked for. It does not depend on the order in which the system returns entries, nor on anything else. (A directory whose name begins with two dots is taken for the parent and is skipped.)", "quantifier": "all directory trees of any depth and size, all settings, Windows and POSIX comparison of names", "why_tests_cant": "Trees, patterns and the order of directory entries are unbounded.", "anchors": ["Code/Tools/FBuild/FBuildCore/Graph/DirectoryListNode.cpp: DoBuild, DirectoryListNodeFileIO helper", "Code/Core/FileIO/FileIO.cpp: GetFilesRecurse, IsMatch", "Code/Core/FileIO/PathUtils.cpp"]}
{"id": "C74", "title": "The stamp of a directory listing changes when the listing does", "statement": "Two listings of a directory have the same stamp only if they have the same files and directories (and, if asked for, the same read-only flags), provided that the hash does not collide and that the full path of the directory does not occur again in what it holds; and the order in which the system returns entries does not change the stamp. (Without the last proviso it is wrong: the names are hashed with nothing between them.)", "quantifier": "all pairs of directory trees, all settings, any hash function", "why_tests_cant": "All pairs of trees.", "anchors": ["Code/Tools/FBuild/FBuildCore/Graph/DirectoryListNode.cpp: MakePrettyName, DoBuild"]}
{"id": "C75", "title": "RemoveDir deletes what it lists and nothing else", "statement": "RemoveDir deletes only listed files, and directories only if they are listed (or are the root, if that was asked for) and have become empty, even if it fails half way; when it succeeds, nothing that was listed is left. When all files are listed and all directories entered, as with the default settings, it succeeds and removes all that is in the directories and nothing outside of them. (An excluded directory is deleted if it is empty and makes the build fail if it is not; overlapping paths make it fail.)", "quantifier": "all directory trees, file systems, settings and lists of disjoint directories", "why_tests_cant": "Needs every shape of tree and every partial failure.", "anchors": ["Code/Tools/FBuild/FBuildCore/Graph/RemoveDirNode.cpp: DoBuild", "Code/Core/FileIO/FileIO.cpp: FileDelete, DirectoryDelete"]}
{"id": "C76", "title": "Each input of an object list has its own object", "statement": "When an object list determines its inputs without an error, every input has an object that belongs to this list and compiles this file, at a place made from the output path, the file's place below the listed directory, prefix, name and extension; there are no other objects; inputs that differ (not just in case) never share an object, not even with another list's; nothing else in the graph is touched; and the next build with the same inputs finds the same. It succeeds if no names conflict. (Files that differ only in case: one of them is silently not compiled.)", "quantifier": "all inputs (listed directories, unity files, other lists, named files), graphs and settings", "why_tests_cant": "Name conflicts depend on the whole graph and on all inputs together.", "anchors": ["Code/Tools/FBuild/FBuildCore/Graph/ObjectListNode.cpp: GatherDynamicDependencies, GetObjectFileName, CreateDynamicObjectNode", "Code/Tools/FBuild/FBuildCore/Graph/ObjectNode.cpp: Initialize"]}
{"id": "C77", "title": "Each file that CopyDir finds is copied to its own place", "statement": "When CopyDir determines its copies without an error, each listed file has a copy at its place below the destination, made from this file; files that differ (not just in case) never share a destination; the next build finds the same. (Files that differ only in case: one of them is silently not copied.)", "quantifier": "all lists of directories and files, all graphs", "why_tests_cant": "Conflicts depend on the whole graph and on all files together.", "anchors": ["Code/Tools/FBuild/FBuildCore/Graph/CopyDirNode.cpp: DoDynamicDependencies"]}
{"id": "C78", "title": "Strings keep their text, stay in their memory and give it back", "statement": "Take any sequence of constructions (empty, reserved, stack-backed, copied, moved, from C strings and ranges), assignments, appends, character and text replacements, case changes, trims, length and reserve changes, clears and destructions of any number of strings, where arguments may be other strings, parts of them or, for assignments and AString appends, the string itself. As long as lengths fit 32 bits and no raw pointer into a string is appended to that same string, no byte outside live memory is read or written, nothing is freed twice, every string always holds exactly the text those operations define and is NUL terminated at its length, no operation changes another string, and when all strings are destroyed no allocation is left.", "quantifier": "every finite sequence of string operations on any number of strings, all texts including ones with embedded NULs, all contents of fresh memory", "why_tests_cant": "aliasing, growth points and embedded NULs combine without bound; a test sees an overrun only if it hits the exact capacity", "anchors": ["Code/Core/Strings/AString.cpp", "Code/Core/Strings/AString.h", "Code/Core/Strings/AStackString.h"]}
{"id": "C79", "title": "A target gets exactly the settings its scope gives", "statement": "Calling a function of the BFF language succeeds in setting the properties of its target exactly when every required setting is in scope and every setting in scope has the right type, range and kind of value; then each setting has the value in scope (aliases replaced by the files they stand for, files and folders made full or relative paths with proper slashes, members of structs read from the struct first and from the enclosing scope if they may be inherited), every other setting keeps its default, and no existing target is changed.", "quantifier": "every class of properties (nested to any depth), every scope, every set of existing targets with aliases of aliases", "why_tests_cant": "the rules combine over all types, metadata, nesting and aliases; tests try single properties", "anchors": ["Code/Tools/FBuild/FBuildCore/BFF/Functions/Function.cpp: PopulateProperties, PopulateProperty, PopulateStringHelper, PopulatePathAndFileHelper, PopulateArrayOfStructs, PopulateArrayOfStructsElement, PopulateCustom", "Code/Core/FileIO/PathUtils.cpp: FixupFolderPath, FixupFilePath"]}
{"id": "C80", "title": "A list of targets is what its names stand for", "statement": "Naming targets in a list gives, for each name in turn, the target of that name, or, for an alias, the targets it stands for, through aliases of aliases, in order; a name nobody has becomes a file; a target of a kind that is not allowed is an error; no alias is ever in the result; where duplicates are to be removed each target comes once, where it was first.", "quantifier": "every graph of targets without alias cycles, every list of names, every choice of allowed kinds", "why_tests_cant": "aliases nest to any depth and may share targets; tests use one or two levels", "anchors": ["Code/Tools/FBuild/FBuildCore/BFF/Functions/Function.cpp: GetNodeList, GetNodeListInternal", "Code/Tools/FBuild/FBuildCore/Graph/AliasNode.cpp: Initialize"]}
{"id": "C81", "title": "Every function call makes the target it names", "statement": "Function calls, with calls in their bodies to any depth, make exactly the targets they name, inner ones first, each under its name, with an alias if it has a name in its header and another as its output; they fail exactly when a name is taken.", "quantifier": "every nesting of function calls, every history of earlier calls", "why_tests_cant": "the name of a header is kept in an object shared by all calls of the function; only some nestings and orders of calls expose it", "anchors": ["Code/Tools/FBuild/FBuildCore/BFF/Functions/Function.cpp: ParseFunction, Commit, ProcessAlias, GetNameForNode"]}
{"id": "C82", "title": "A worker asks for no more jobs than it has places for", "statement": "A worker's counts of requests not answered and jobs not finished are always the true ones. It only asks for a job while it has let itself in for fewer than one job per processor, plus one, plus one per client; while no job is being received it keeps to one per processor plus one. A round of asking always ends; undisturbed, it leaves no place empty while a client has jobs, asks nobody for more than they have, and asks in turn, the clients with the most jobs first.", "quantifier": "every interleaving of the worker's thread, connections, disconnections and messages, any number of clients and processors", "why_tests_cant": "the counters are read and changed by different threads without a common lock", "anchors": ["Code/Tools/FBuild/FBuildCore/Protocol/Server.cpp: FindNeedyClients, FinalizeCompletedJobs, OnConnected, OnDisconnected, Process"]}
{"id": "C83", "title": "A worker learns of available jobs", "statement": "Once the client's loop has seen jobs to give away, every worker whose connection had been greeted by then will go by a figure above zero, and by the true figure if the periodic update was due; nothing is sent twice; no figure is made up.", "quantifier": "every interleaving of connecting, status updates, sending and giving jobs away, every sequence of numbers of jobs", "why_tests_cant": "three threads share the note of what was sent; the window between connecting and noting is small", "anchors": ["Code/Tools/FBuild/FBuildCore/Protocol/Client.cpp: CommunicateJobAvailability, EnqueueSendJobAvailability, SendQueueThreadFunc, SendQueueMainLoop, Process( MsgRequestJob )"]}
{"id": "C84", "title": "A linker or librarian is given exactly its inputs", "statement": "A program is linked from everything its .Libraries and .Libraries2 are made of, in that order, with nothing missing and the object of a precompiled header once; each argument of the options becomes what its placeholder asks for, once per input, or stays what it is; MSVC library directories are cleaned and quoted with no backslash before the closing quote.", "quantifier": "every tree of libraries, lists of objects, shared libraries and copies, every options text", "why_tests_cant": "the shapes of dependency trees and of options are unbounded", "anchors": ["Code/Tools/FBuild/FBuildCore/Graph/LinkerNode.cpp: BuildArgs, GetInputFiles, GetAssemblyResourceFiles", "Code/Tools/FBuild/FBuildCore/Graph/LibraryNode.cpp: BuildArgs", "Code/Tools/FBuild/FBuildCore/Graph/ObjectListNode.cpp: GetInputFiles", "Code/Tools/FBuild/FBuildCore/Graph/DLLNode.cpp: GetImportLibName"]}
{"id": "C85", "title": "Libraries named in linker options are dependencies", "statement": "Each library that the linker options mention (inputs, default libraries that are not excluded, -l) is a dependency on the first place, among the library directories in order and then those of the LIB variable, at which there is a node or a file; one that is not a file is an error. Each name in .Libraries is a dependency, an alias by its targets.", "quantifier": "every options text, every graph and disk, every nesting of aliases", "why_tests_cant": "the texts, directories and files are unbounded", "anchors": ["Code/Tools/FBuild/FBuildCore/Graph/LinkerNode.cpp: GetOtherLibraries, GetOtherLibrary, GetOtherLibsArg, DependOnNode"]}
{"id": "C86", "title": "Linker options are understood as the linker understands them", "statement": "The kind of linker is told by its type or by the name of its file; a DLL, incremental linking, warnings as errors and the import library are recognised exactly when the options ask for them, in any case and with slash or dash.", "quantifier": "every name of a linker, every options text", "why_tests_cant": "texts of options are unbounded", "anchors": ["Code/Tools/FBuild/FBuildCore/Graph/LinkerNode.cpp: DetermineLinkerTypeFlags, DetermineFlags, IsLinkerArg_MSVC, IsStartOfLinkerArg_MSVC, GetImportLibName"]}
{"id": "C87", "title": "Connections to workers keep to the limit and leave no worker out", "statement": "A client never has more connections than its limit or than the pool has workers, nor two to one worker of the pool; it connects only to workers without a system error that have not refused it within ten seconds; each pass connects to every such worker or reaches the limit; and no worker is connected to twice while another one waits.", "quantifier": "every pool, limit and first worker, every interleaving of the client's thread with connections that are made, refused and lost, with system errors and with time", "why_tests_cant": "interleavings of threads and histories of connections are unbounded", "anchors": ["Code/Tools/FBuild/FBuildCore/Protocol/Client.cpp: RegisterFoundWorkers, ConnectToWorkers, SendQueueThreadFunc, ProcessJobResultCommon"]}
{"id": "C88", "title": "Remote jobs in the profile belong to their workers", "statement": "The profile of a build shows each remote job once, in order, on a thread that has a heading, below the name of the worker that did it.", "quantifier": "every pool, every sequence of results of remote jobs", "why_tests_cant": "sequences of results are unbounded", "anchors": ["Code/Tools/FBuild/FBuildCore/Helpers/BuildProfiler.cpp: RecordRemote, Serialize", "Code/Tools/FBuild/FBuildCore/Protocol/Client.cpp: RegisterFoundWorkers, ProcessJobResultCommon"]}
{"id": "C89", "title": "Options are read as the compiler reads them", "statement": "The include directories, forced includes, definitions and language options that the light cache and the project generators read from compiler options are the values that the command line gives, each once, without the quotes around it, in the order in which the compiler searches them, as long as no value looks like an option.", "quantifier": "every text of options, every command line it spells, with values in the same argument or in the next one", "why_tests_cant": "command lines are unbounded", "anchors": ["Code/Tools/FBuild/FBuildCore/Helpers/ProjectGeneratorBase.cpp: ExtractIncludePaths, ExtractDefines, ExtractAdditionalOptions, ExtractIntellisenseOptions", "Code/Tools/FBuild/FBuildCore/Cache/LightCache.cpp: Hash"]}
{"id": "C90", "title": "The compilation database has an entry for each source", "statement": "The compilation database of some targets is a JSON document with one entry for each source of each object list or library that the targets need, each list once; an entry has the working directory, the source, its object and the compiler's arguments, in which the names of source and object are filled in.", "quantifier": "every acyclic graph, every set of targets, every text of options, every name", "why_tests_cant": "graphs, names and options are unbounded", "anchors": ["Code/Tools/FBuild/FBuildCore/Helpers/CompilationDatabase.cpp: Generate, VisitNodes, HandleObjectListNode, HandleInputFile", "Code/Tools/FBuild/FBuildCore/Graph/ObjectListNode.cpp: EnumerateInputFiles, GetObjectFileName", "Code/Tools/FBuild/FBuildCore/Graph/UnityNode.cpp: EnumerateInputFiles", "Code/Tools/FBuild/FBuildCore/Helpers/JSON.cpp: Escape"]}
{"id": "C91", "title": "Workers that offer themselves are found, others are not", "statement": "A worker that goes on offering itself has, ten seconds later and from then on, exactly one fresh token in the shared folder, under a name its machine had in the last five minutes, whatever other workers do; a worker that withdraws or stops has none; tokens of workers that are gone disappear within a day and a half as long as some worker is heard of; a client finds the workers it is given by name or, if none, those with tokens in any of its folders except itself.", "quantifier": "every number of workers, every history of calls, stops, crashes and waiting times, every sequence of names and addresses of the machines, every set of folders", "why_tests_cant": "histories, delays and numbers of workers are unbounded", "anchors": ["Code/Tools/FBuild/FBuildCore/WorkerPool/WorkerBrokerage.cpp: InitBrokerage", "Code/Tools/FBuild/FBuildCore/WorkerPool/WorkerBrokerageServer.cpp: SetAvailability, UpdateBrokerageFilePath", "Code/Tools/FBuild/FBuildCore/WorkerPool/WorkerBrokerageClient.cpp: FindWorkers", "Code/Core/Network/TCPConnectionPool.cpp: GetAddressAsString"]}
{"id": "C92", "title": "The process that builds has the options of the command line", "statement": "Every switch, path, number and target has the value that the last argument about it gives; when FBuild runs itself through other processes (for IDEs), the process that builds has the same options as the one the user started, for command lines whose paths and targets may contain spaces.", "quantifier": "every command line, every environment setting of the cache", "why_tests_cant": "command lines are unbounded and every argument can come before or after every other", "anchors": ["Code/Tools/FBuild/FBuildCore/FBuildOptions.cpp: ProcessCommandLine", "Code/Tools/FBuild/FBuildCore/FBuildOptions.h", "Code/Tools/FBuild/FBuild/Main.cpp: WrapperMainProcess, WrapperIntermediateProcess, WrapperModeForWSL"]}
{"id": "C93", "title": "XCode projects contain every file in its place", "statement": "The XCode project lists every file once, under groups that are the folders of its path relative to the longest base path, with its name and full path, and nothing else; every group and file has one parent, no two objects have the same identifier, and every identifier mentioned exists; values and arguments are read back as the text that was configured.", "quantifier": "all lists of files, base paths and configurations, both path conventions, every text", "why_tests_cant": "the tree grows with the files and each new file can create folders at any depth; identifiers and escapes depend on all of them", "anchors": ["Code/Tools/FBuild/FBuildCore/Helpers/XCodeProjectGenerator.cpp: GeneratePBXProj, ProcessString_PBX", "Code/Tools/FBuild/FBuildCore/Helpers/ProjectGeneratorBase.cpp: AddFile, GetFolderFor", "Code/Tools/FBuild/FBuildCore/Graph/XCodeProjectNode.cpp: DoBuild"]}
{"id": "C94", "title": "What a program prints is read whole, and reading it ends", "statement": "When a program that the build runs has ended, everything it has written to its two outputs has been read, in order, and its status is known; program and reader never wait for each other for ever; a program that hangs beyond its time limit is killed and reported as late, and none is killed before.", "quantifier": "all programs (what they write, when and how they end), all sizes of pipes and reads, all schedules of program, reader, clock, abort and other processes", "why_tests_cant": "the order of writes, reads, exit and clock cannot be controlled in a test; loss or deadlock shows at one order in many", "anchors": ["Code/Core/Process/Process.cpp: ReadAllData, Read, ReadCommon, IsRunning, WaitForExit, Terminate"]}
{"id": "C95", "title": "Exec and Test do what the program did", "statement": "Exec() succeeds exactly when the program ends with the expected status and Test() exactly when it ends in time with status zero and its output was stored; the output file holds what the program wrote; an aborted build leaves the file alone; the program is given the inputs, in order, and the output in place of %1 and %2.", "quantifier": "all programs, schedules, settings, lists of inputs, option texts", "why_tests_cant": "depends on every status, output and order of events; option texts are unbounded", "anchors": ["Code/Tools/FBuild/FBuildCore/Graph/ExecNode.cpp: DoBuild, GetFullArgs, GetInputFiles", "Code/Tools/FBuild/FBuildCore/Graph/TestNode.cpp: DoBuild", "Code/Core/Process/Process.cpp: Spawn"]}
{"id": "C96", "title": "Projects for Visual Studio list every file once, in its folder", "statement": "The project that VCXProject() writes holds every file that was given and no others, each once and in an order that does not depend on the order in which they were given; each is shown in its folder below a base path; every folder that is used and those around it are declared, once, with different identifiers; settings read back as they were written.", "quantifier": "all lists of files and base paths, all hashes, all values of settings", "why_tests_cant": "lists, names and collisions of hashes are unbounded; tests compare a few projects", "anchors": ["Code/Tools/FBuild/FBuildCore/Helpers/VSProjectGenerator.cpp: AddFile, CanonicalizeFilePaths, GetFolderPath, GenerateVCXProjFilters, WritePGItem"]}
{"id": "C97", "title": "Solutions list every project and folder once, nested as asked", "statement": "The solution that VSSolution() writes is made exactly when all projects it mentions exist; it lists every project mentioned anywhere and no others, each once, in the order of the names, with its dependencies; it lists every folder given and those around them, once, with their items; every project has its line for every configuration, and is built or deployed where asked; projects are nested in the folders that hold them and folders in those around them.", "quantifier": "all settings, all graphs of projects, all checksums", "why_tests_cant": "lists and paths are unbounded; tests compare a few solutions", "anchors": ["Code/Tools/FBuild/FBuildCore/Graph/SLNNode.cpp: Initialize, GatherProjects", "Code/Tools/FBuild/FBuildCore/Helpers/SLNGenerator.cpp: WriteProjectListings, WriteSolutionFolderListings, WriteProjectConfigurationPlatforms, WriteNestedProjects"]}
{"id": "C98", "title": "The pool of threads runs every job once, in order, and comes to rest", "statement": "Jobs that are added to a pool of threads begin in the order in which they were added, each once, and never more at once than there are threads; no job waits while a thread has nothing to do; without new jobs the pool comes to rest, and then all jobs have ended; the destructor always returns, and then no job is being run and none is left.", "quantifier": "all numbers of threads, all orders in which threads, callers and the destructor move, all jobs, also jobs that add jobs", "why_tests_cant": "schedules are unbounded in number and length; a lost wake-up needs one certain order", "anchors": ["Code/Core/Process/ThreadPool.cpp: EnqueueJob, ThreadFunc, ~ThreadPool", "Code/Core/Process/Semaphore.cpp: Signal, Wait"]}
{"id": "C99", "title": "Copy() copies every source to its own place and overwrites nothing", "statement": "Copy() copies every file that its sources stand for, through aliases at any depth, and no other; no two are copied to the same place, and no target is a source or anything else that the build knows; a destination that is a folder gets each file under its path below SourceBasePath, or under its file name; folders and things that are not files are refused, and nothing is refused without need.", "quantifier": "all graphs, lists of sources, base paths and destinations", "why_tests_cant": "aliases nest to any depth, and clashes depend on all names together", "anchors": ["Code/Tools/FBuild/FBuildCore/BFF/Functions/FunctionCopy.cpp: Commit, GetSourceNodes"]}
{"id": "C100", "title": "The numbers that a build reports count every node once", "statement": "The summary and the reports of a build are always found, whatever the shape of the graph; the nodes seen, built and failed, the hits, misses and stores of the cache, of them those of the light cache, and the times, by type and in total, are those of exactly the nodes that the target needs, each counted once; the most expensive nodes are listed without repetition, the dearest first, and the summary shows the twenty dearest.", "quantifier": "all graphs of nodes with any flags and times, all targets, with and without the dependencies of compilers", "why_tests_cant": "shared dependencies and their orders are without bound, and each number depends on the whole graph", "anchors": ["Code/Tools/FBuild/FBuildCore/Helpers/FBuildStats.cpp: FBuildStats::GatherPostBuildStatistics, GatherPostBuildStatisticsRecurse, NodeCostSorter", "Code/Tools/FBuild/FBuildCore/Helpers/FBuildStats.h: FBuildStats::Stats", "Code/Tools/FBuild/FBuildCore/Graph/ObjectNode.cpp: ObjectNode::RetrieveFromCache"]}
{"id": "C101", "title": "A worker gives what its owner allows", "statement": "A worker never offers more CPUs than were set, and no more of its threads take work; it offers none when disabled, when a restart is due or when disk or memory are short, and all when dedicated; when it works only while idle it begins after ten quiet readings and not before ten of them since the start or since five loud ones in a row, which always end it, and fewer than five do not; in proportion it follows the free share that was read; and settings that were saved are those of the next start.", "quantifier": "all histories of readings, settings and states of the machine, all settings files", "why_tests_cant": "histories are without bound, and the smoothing depends on all of a history", "anchors": ["Code/Tools/FBuild/FBuildWorker/Worker/IdleDetection.cpp: IdleDetection::Update", "Code/Tools/FBuild/FBuildWorker/Worker/Worker.cpp: Worker::UpdateAvailability", "Code/Tools/FBuild/FBuildWorker/Worker/WorkerSettings.cpp: WorkerSettings::WorkerSettings, Load, Save", "Code/Tools/FBuild/FBuildCore/WorkerPool/WorkerThreadRemote.cpp: WorkerThreadRemote::IsEnabled"]}
{"id": "C102", "title": "ListDependencies writes every file once, in order", "statement": "The file that ListDependencies writes names every file that the objects of its source are made from and that a pattern asks for, and no other, each once and in order; weak dependencies are left out, and so is what lies deeper; the names can be read back from the text.", "quantifier": "all graphs, sources, lists of patterns and systems", "why_tests_cant": "shared headers and their orders are without bound", "anchors": ["Code/Tools/FBuild/FBuildCore/Graph/ListDependenciesNode.cpp: ListDependenciesNode::DoBuild, FilterFileDependencies"]}
{"id": "C103", "title": "Folders exist once they were asked for", "statement": "After FileIO::EnsurePathExists or EnsurePathExistsForFile returns true, every folder of the path exists, also when other threads and processes make folders at the same time; nothing that was on disk is lost or changed, nothing but folders of the path is made, and it does not fail if nothing stands in the way.", "quantifier": "all disks, paths, permissions and all actions of others between any two calls of the system", "why_tests_cant": "the races between looking and making, and the states of a disk, are without bound", "anchors": ["Code/Core/FileIO/FileIO.cpp: FileIO::EnsurePathExists, EnsurePathExistsForFile, DirectoryCreate, DirectoryExists"]}
{"id": "C104", "title": "Files are written and read whole", "statement": "However little the system writes or reads in one call: what FileStream::WriteBuffer returns is how much of the buffer is in the file, less than all only after an error, and ReadBuffer gives the bytes of the file in order, all that are wanted and there unless there is an error; both return. A TextFile that is built without failure holds exactly its lines, and they can be read back.", "quantifier": "all buffers, files, lists of lines and all sequences of results of the calls of the system", "why_tests_cant": "short and failed calls can come at every point of a transfer", "anchors": ["Code/Core/FileIO/FileStream.cpp: FileStream::ReadBuffer, WriteBuffer, ReadIntoString, WriteFromString", "Code/Tools/FBuild/FBuildCore/Graph/TextFileNode.cpp: TextFileNode::DoBuild"]}
{"id": "C105", "title": "One process builds in a folder at a time", "statement": "However many FBuild processes are started in one folder, with and without -wrapper and -wait, and whichever of them end or are killed at whatever time, no two of them build there at once; one is refused only while another holds the folder; and the main process of a wrapper returns only when its final process has ended.", "quantifier": "all numbers of processes and all interleavings of their steps, with processes killed at any point", "why_tests_cant": "the schedules of any number of processes, and the points at which one is killed, are without bound", "anchors": ["Code/Tools/FBuild/FBuild/Main.cpp: Main, WrapperMainProcess, WrapperIntermediateProcess", "Code/Core/Process/SystemMutex.cpp: SystemMutex::TryLock, Unlock"]}
