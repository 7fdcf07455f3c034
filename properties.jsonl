{"id": "C01", "title": "Dependency database: a closed session is read back exactly", "statement": "Whatever bytes the auxiliary dependency database (.d) file held before, once a session of reads, expects, writes and overwrite marks is ended with close(), opening the file again yields exactly the lines the session accepted followed by the lines it wrote, in order, and the database is recognised as properly closed.", "quantifier": "all prior file contents (any byte string or no file), all sequences of API operations", "why_tests_cant": "both the prior bytes and the operation sequence are unbounded; a test samples a handful", "anchors": ["libbuild2/depdb.cxx: depdb::depdb, read_, write, change, close", "libbuild2/depdb.hxx: depdb::expect"]}
{"id": "C02", "title": "Dependency database: an interrupted session never looks properly closed", "statement": "If the process dies at any point of a session that had switched to writing, with any prefix of the pending output on disk, then the file left behind is never accepted as a properly closed database, and the lines a later reader gets from it are a prefix of the lines accepted and written so far: no old line that follows the overwrite point is ever returned.", "quantifier": "all prior contents, all operation sequences, every crash point (every byte prefix of the unflushed output)", "why_tests_cant": "crash points times contents times sequences cannot be enumerated", "anchors": ["libbuild2/depdb.cxx: change (truncate comment lines 153-160), close, read_"]}
{"id": "C03", "title": "Dependency database: expect() detects every mismatch and repairs the file", "statement": "Calling expect() on a list of values and closing leaves a database holding exactly those values; and if the database is still in the read mode at the end then every expected value had been stored, in the same position.", "quantifier": "all prior contents, all lists of expected values", "why_tests_cant": "needs all contents including corrupt and truncated ones", "anchors": ["libbuild2/depdb.hxx: expect", "libbuild2/depdb.cxx: read_, write, close"]}
{"id": "C04", "title": "Dependency database: skip() agrees with reading the rest", "statement": "skip() returns true exactly when reading every remaining line one by one would have reached the end marker.", "quantifier": "all remaining byte contents", "why_tests_cant": "the failing inputs depend on the parity of newline runs; needs all byte strings", "anchors": ["libbuild2/depdb.cxx: skip, read_"]}
{"id": "C05", "title": "Dependency database: close_to_reopen() without a reopen equals close(), and with a reopen it is an append", "statement": "The file after close_to_reopen() reads back the same as after close(); reopening, writing lines and closing reads back as the earlier lines followed by the new ones.", "quantifier": "all prior contents, all operation sequences before and after", "why_tests_cant": "unbounded histories", "anchors": ["libbuild2/depdb.cxx: close_to_reopen, depdb(reopen_state), close"]}
{"id": "C06", "title": "Dependency database: a read-only session does not modify the file", "statement": "A database opened read-only never changes the bytes of the file, yet reports the same lines and the same switch to writing as a writable session performing the same reads.", "quantifier": "all contents, all sequences of read operations", "why_tests_cant": "unbounded", "anchors": ["libbuild2/depdb.cxx: depdb_base ctor, change, close"]}
{"id": "C07", "title": "Make dependency declarations: escaped paths are read back exactly", "statement": "For every non-empty path, writing it with make escaping and parsing it back yields the path, and the parser consumes exactly that word.", "quantifier": "all strings, all surrounding context", "why_tests_cant": "all byte strings", "anchors": ["libbuild2/make-parser.cxx: make_parser::next (static)"]}
{"id": "C08", "title": "Make dependency declarations: a rendered declaration parses into its targets and prerequisites", "statement": "For every list of targets and prerequisites rendered as 'targets: prerequisites' over any number of lines joined by backslash continuations, the parser returns first exactly the targets, then exactly the prerequisites, in order, and then reports the end.", "quantifier": "all lists of names and all ways of breaking the declaration into lines", "why_tests_cant": "unbounded lists and line breaks", "anchors": ["libbuild2/make-parser.cxx: make_parser::next"]}
{"id": "C09", "title": "Target state merging is order independent and failure is never lost", "statement": "The state of a multi-step or multi-member execution obtained by merging the individual states does not depend on the order or grouping of the merges; it is failed whenever one of them is failed and changed only if one of them is changed.", "quantifier": "all multisets of target states in all orders", "why_tests_cant": "all orders", "anchors": ["libbuild2/target-state.hxx: operator|=", "libbuild2/algorithm.cxx: straight_execute_members, reverse_execute_members, execute_recipe"]}
{"id": "C10", "title": "Action identifiers are packed and compared without confusion", "statement": "An action is recovered exactly from its packed form (meta-operation, inner and outer operation), and equality and inequality of actions and action ids are complementary.", "quantifier": "all identifiers in the 4-bit range", "why_tests_cant": "finite but never swept; the comparison operators contradict each other", "anchors": ["libbuild2/action.hxx: action, operator==, operator!="]}
{"id": "C11", "title": "File cache: the contents of an intermediate file survive compression, decompression and pinning", "statement": "For every sequence of cache entry operations (write, close, open, unpin, preempt) the contents that a reader sees through the entry are the contents the entry was initialised with (last written and closed, or found on disk), and the uncompressed file exists whenever a read handle is open.", "quantifier": "all operation sequences, all compression settings", "why_tests_cant": "unbounded histories", "anchors": ["libbuild2/file-cache.cxx: preempt, compress, decompress", "libbuild2/file-cache.ixx: entry::pin, unpin, open, init_new"]}
{"id": "C12", "title": "File cache: a crash during compression loses nothing", "statement": "If the process dies at any point while an entry is being compressed, initialising the entry from the existing files on the next run yields the original contents.", "quantifier": "all crash points of the compression sequence", "why_tests_cant": "crash points", "anchors": ["libbuild2/file-cache.cxx: preempt, compress", "libbuild2/file-cache.ixx: init_existing"]}
{"id": "C13", "title": "File cache: a crash during decompression loses nothing", "statement": "If the process dies at any point while an entry is being decompressed, initialising the entry from the existing files on the next run yields the original contents.", "quantifier": "all crash points of the decompression sequence", "why_tests_cant": "crash points", "anchors": ["libbuild2/file-cache.cxx: decompress", "libbuild2/file-cache.ixx: init_existing"]}
{"id": "C14", "title": "Scheduler task queue: no task is lost, duplicated or reordered", "statement": "For every interleaving of pushes, front pops (helpers) and back pops (the owner), the circular queue behaves as a double-ended queue: each accepted task is popped exactly once, helpers receive the oldest, the owner the newest, and a push is refused only when the queue holds its full depth.", "quantifier": "all operation sequences, all depths", "why_tests_cant": "wrap-around positions times operation orders", "anchors": ["libbuild2/scheduler.hxx: task_queue, push, pop_front, pop_back"]}
{"id": "C15", "title": "Scheduler task queue: waiting on a group never runs tasks queued before the group", "statement": "While a queue mark is set, the owner only pops tasks pushed after the mark was set; restoring the mark makes the earlier ones available again.", "quantifier": "all operation sequences and nesting of marks", "why_tests_cant": "nesting and wrap-around", "anchors": ["libbuild2/scheduler.hxx: queue_mark, pop_back", "libbuild2/scheduler.cxx: wait_impl"]}
{"id": "C16", "title": "Scheduler: the number of active threads never exceeds the configured maximum", "statement": "Outside of shutdown, no sequence of thread starts, suspends, resumes, waits, helper activity, allocations and serializations ever makes the number of active threads exceed the limit.", "quantifier": "all interleavings of scheduler events, all limits", "why_tests_cant": "schedules", "anchors": ["libbuild2/scheduler.cxx: deactivate_impl, activate_impl, allocate, deallocate, serialize, activate_helper, create_helper, helper"]}
{"id": "C17", "title": "Scheduler: every thread is accounted for", "statement": "At every point active + idle + waiting + ready + starting threads equal the initially active threads plus the helpers created: no thread is forgotten or counted twice.", "quantifier": "all interleavings of scheduler events", "why_tests_cant": "schedules", "anchors": ["libbuild2/scheduler.cxx: deactivate_impl, activate_impl, create_helper, helper, shutdown"]}
{"id": "C18", "title": "Scheduler: wait returns only after all tasks of the group completed", "statement": "A wait for a task count to drop to its start value returns only in a state in which it has dropped, and a suspended waiter is woken for every transition that lets it proceed (no lost wakeup).", "quantifier": "all interleavings of task completions and suspensions", "why_tests_cant": "schedules", "anchors": ["libbuild2/scheduler.cxx: wait_impl, suspend, resume", "libbuild2/scheduler.txx: async, task_thunk"]}
{"id": "C19", "title": "Scheduler: pushing and popping an execution phase restores the queued tasks", "statement": "pop_phase() after push_phase() restores exactly the tasks that were queued before, and no task of the outer phase runs during the inner phase.", "quantifier": "all queue contents, all nestings of phases", "why_tests_cant": "nesting", "anchors": ["libbuild2/scheduler.cxx: push_phase, pop_phase"]}
{"id": "C20", "title": "Run phase: all threads holding the phase agree on it", "statement": "For every interleaving of phase lock, unlock and switch operations, all threads that currently hold the phase hold the context's current phase, and when nobody holds or waits for it the phase is load.", "quantifier": "all numbers of threads, all interleavings", "why_tests_cant": "schedules", "anchors": ["libbuild2/context.cxx: run_phase_mutex::lock, unlock, relock"]}
{"id": "C21", "title": "Run phase: load is exclusive", "statement": "At most one thread is executing in the load phase at any time.", "quantifier": "all interleavings", "why_tests_cant": "schedules", "anchors": ["libbuild2/context.cxx: run_phase_mutex::lock, unlock, relock (lm_)"]}
{"id": "C22", "title": "Run phase: waiting threads are never stranded", "statement": "Whenever some thread waits for a phase, some other thread holds the current phase (so its release will switch the phase), or the waited-for phase is already current.", "quantifier": "all interleavings", "why_tests_cant": "deadlock freedom over schedules", "anchors": ["libbuild2/context.cxx: run_phase_mutex::lock, unlock, relock"]}
{"id": "C23", "title": "Run phase: a failed load is seen by every later phase switch", "statement": "After a thread fails during load, every later lock or switch of the phase reports failure.", "quantifier": "all interleavings", "why_tests_cant": "schedules", "anchors": ["libbuild2/context.cxx: phase_switch::~phase_switch, run_phase_mutex::fail_"]}
{"id": "C24", "title": "Execute: the recipe of a target runs at most once per action", "statement": "However many dependents execute a target concurrently, its recipe is run at most once, every caller that gets a final state gets the state of that single run (or failed, if the target failed to match so that there is nothing to run), and no internal assertion fails; the last two unless re-matching the target with further match options fails after it has been applied.", "quantifier": "all numbers of callers and interleavings", "why_tests_cant": "schedules", "anchors": ["libbuild2/algorithm.cxx: execute_impl, execute_recipe, lock_impl"]}
{"id": "C25", "title": "Execute: in the last-mode operations the recipe runs for the last dependent and is not forgotten", "statement": "In the operations executed in the 'last' mode (clean) the recipe runs only after every dependent asked for it, and it does run when all of them asked.", "quantifier": "all dependent counts and interleavings", "why_tests_cant": "schedules", "anchors": ["libbuild2/algorithm.cxx: execute_impl (dependents)"]}
{"id": "C26", "title": "Match: a target is locked by at most one thread", "statement": "The target lock is mutually exclusive; the target is marked busy exactly while it is locked; a thread that waits for a target is resumed once it is unlocked (unless the lock is abandoned because the phase could not be locked); and what an earlier lock holder achieved (touched, tried, matched, applied, executed) is not undone by a later one in the same operation.", "quantifier": "all numbers of threads and interleavings", "why_tests_cant": "schedules", "anchors": ["libbuild2/algorithm.cxx: lock_impl, unlock_impl"]}
{"id": "C27", "title": "Names: what is printed with quoting is read back", "statement": "Printing a list of strings, or a list of names with projects, directories, types and pairs, with normal quoting and reading the text as the value of a variable yields the same list (this is how config.build values survive a save and load).", "quantifier": "all lists of strings without NUL; all lists of names in the form in which the parser itself would make them", "why_tests_cant": "unbounded strings over all byte values, arbitrary lists", "anchors": ["libbuild2/name.cxx: to_stream", "libbuild2/lexer.cxx: next, word, skip_spaces", "libbuild2/parser.cxx: parse_names, parse_names_trailer", "libbuild2/variable.cxx: value_traits<string>::convert"]}
{"id": "C28", "title": "Names: comparison is a total order consistent with equality", "statement": "name::compare() is antisymmetric, transitive and zero only for equal names.", "quantifier": "all triples of names", "why_tests_cant": "all triples", "anchors": ["libbuild2/name.hxx: name::compare"]}
{"id": "C29", "title": "Targets: name and extension survive combine and split", "statement": "Combining a target name with an extension into its textual form and splitting it again yields the same name and extension, for every pair that the documentation allows.", "quantifier": "all names and extensions", "why_tests_cant": "dot-run parity cases are unbounded", "anchors": ["libbuild2/target.cxx: target::split_name, target::combine_name"]}
{"id": "C30", "title": "JSON: comparison is a total order", "statement": "Comparison of JSON values is a total preorder in which numbers compare by value regardless of representation null is the smallest, arrays compare lexicographically and objects compare lexicographically by their members in the order of names, whatever order they were written in; two values are equal exactly if they denote the same JSON value.", "quantifier": "all JSON values of any depth", "why_tests_cant": "unbounded nesting", "anchors": ["libbuild2/json.cxx: json_value::compare"]}
{"id": "C31", "title": "JSON: appending numbers adds them", "statement": "Appending a number to a number yields their mathematical sum or is rejected; it is never a silently different number.", "quantifier": "all 64-bit signed and unsigned pairs in all representations", "why_tests_cant": "2^128 pairs", "anchors": ["libbuild2/json.cxx: append_numbers"]}
{"id": "C32", "title": "JSON: appending and prepending objects merges members", "statement": "Appending (prepending) an object to an object keeps every existing member in place with existing values overridden (kept), adds the missing members, and never creates a duplicate member.", "quantifier": "all objects", "why_tests_cant": "unbounded", "anchors": ["libbuild2/json.cxx: json_value::append, prepend"]}
{"id": "C33", "title": "Evaluation contexts follow operator precedence, associativity and short-circuiting", "statement": "The value of an evaluation context expression is the one given by its syntax tree (ternary right associative, then ||, &&, comparison left associative, !), and operands that short-circuiting skips have no effect.", "quantifier": "all expressions", "why_tests_cant": "unbounded nesting", "anchors": ["libbuild2/parser.cxx: parse_eval_ternary, parse_eval_or, parse_eval_and, parse_eval_comp, parse_eval_value"]}
{"id": "C34", "title": "Variables: a lookup respects visibility and finds the innermost value", "statement": "A lookup returns the value from the innermost scope that has one, never looking beyond what the visibility of the variable allows.", "quantifier": "all scope chains and variable maps", "why_tests_cant": "unbounded chains", "anchors": ["libbuild2/scope.cxx: lookup_original", "libbuild2/variable.cxx: variable_map::lookup"]}
{"id": "C35", "title": "Variables: command line overrides take effect as documented", "statement": "The overridden value is the innermost applicable assignment override (or the original) with the applicable prefixes prepended and suffixes appended, innermost scope first and in command line order, except those superseded by the assignment; without a target the location of the result is that of its innermost part. The lookup is defined unless there are project overrides while the value comes from outside of any project. For targets this excludes prefixes and suffixes that are limited to a scope.", "quantifier": "all scope chains, originals and override lists", "why_tests_cant": "unbounded chains and lists", "anchors": ["libbuild2/scope.cxx: lookup_override_info"]}
{"id": "C36", "title": "Variables: the most specific variable pattern applies", "statement": "Among the variable patterns that match a qualified name one with the longest prefix plus suffix is used, whatever the order of insertion. If '**' was never inserted after the same pattern with '*' when there were others of the same length, then for the same prefix and suffix '*' wins over '**', otherwise the one inserted last wins, and a new pattern is applied to the existing variables for which it would be used. A new variable gets what a pattern that must be matched says; an existing one keeps its type, can only become more restricted and, if overridden, must be overridable.", "quantifier": "all pattern sets, insertion orders, tree shapes, names and variables", "why_tests_cant": "orders and shapes of the search tree", "anchors": ["libbuild2/variable.hxx: variable_patterns::pattern::operator<", "libbuild2/variable.cxx: variable_pool::insert, variable_pool::update, match_pattern, merge_pattern, variable_patterns::insert"]}
{"id": "C37", "title": "Values: integers survive conversion to names and strings and back", "statement": "A string is accepted as an int64 or uint64 value exactly if it is a decimal or hexadecimal (0x) numeral with an optional sign (no minus for uint64) that is in range, and its value is then the number it denotes. Every value is recovered from its name and from the result of $string() with any supported base and any width; the latter is the shortest numeral padded with zeros.", "quantifier": "all 64-bit values, all strings, all widths", "why_tests_cant": "2^64 values", "anchors": ["libbuild2/variable.cxx: value_traits<int64_t>::convert, value_traits<uint64_t>::convert", "libbuild2/variable.hxx: reverse", "libbuild2/utility.cxx: to_string", "libbuild2/functions-integer.cxx: string"]}
{"id": "C38", "title": "Configuration: what is saved", "statement": "A configuration variable no longer used is saved or dropped, and warned about, exactly as the last applicable config.config.persist rule says, and as the documented defaults say when none applies; a bad rule is diagnosed. Every registered variable with a value ends up in the file (modules in the order of priority, each variable once, provided modules are registered before variables), unless it is registered as omitted when null, empty, false or default, or it is inherited from an outer project that itself saves it (and is being configured, if the value is overridden). Values set in the project itself are never treated as inherited, and a value whose outer project no longer uses the variable becomes the project's own.", "quantifier": "all rule lists, registrations, variables, amalgamations, overrides and values", "why_tests_cant": "unbounded rule lists, variables and outer projects", "anchors": ["libbuild2/config/operation.cxx: save_config_variable, save_config", "libbuild2/config/module.cxx: save_variable, save_module", "libbuild2/config/module.hxx: saved_modules, find_variable"]}
{"id": "C39", "title": "Up-to-date decision: a target older than a prerequisite or with a changed prerequisite is updated", "statement": "A target is reported as up to date only if it exists, no prerequisite was changed by this build and newer than it; timestamps that are equal count as newer only if the prerequisite was changed.", "quantifier": "all prerequisite lists, states and timestamps", "why_tests_cant": "unbounded lists", "anchors": ["libbuild2/algorithm.cxx: execute_prerequisites", "libbuild2/target.ixx: mtime_target::newer"]}
{"id": "C40", "title": "Scheduler: shard sizes are prime", "statement": "The number of mutex shards chosen is 1 for a serial build and otherwise the first odd prime number that is not less than the computed target size; the search for it always terminates.", "quantifier": "all thread counts and scale factors (without overflow)", "why_tests_cant": "all sizes", "anchors": ["libbuild2/scheduler.cxx: shard_size"]}
{"id": "C41", "title": "File cache: a temporary entry leaves nothing behind", "statement": "When a temporary cache entry is destroyed, after any history of operations in which files could be removed, neither the uncompressed nor the compressed file remains; a permanent entry keeps its files.", "quantifier": "all operation sequences, including failed compressions and abandoned writes", "why_tests_cant": "unbounded histories", "anchors": ["libbuild2/file-cache.cxx: remove, init_new, preempt", "libbuild2/file-cache.ixx: entry::~entry"]}
{"id": "C42", "title": "Scheduler: queued tasks and ready threads are never stranded", "statement": "If tasks are queued and no thread is active then some thread has been woken up or is being started; a thread whose wait is over does not stay asleep while there is room for it that nobody already woken will take.", "quantifier": "all histories of scheduler events (any number of threads, spurious wakeups, arbitrary choice of the notified thread) without a failure to create a thread, before shutdown", "why_tests_cant": "all interleavings and unbounded histories", "anchors": ["libbuild2/scheduler.cxx: deactivate_impl, activate_impl, activate_helper, helper, deallocate, jobserver", "libbuild2/scheduler.txx: async"]}
{"id": "C43", "title": "Scheduler: a deadlock is always noticed", "statement": "Whenever no thread is active and none waits for an external event, either some thread is about to run or the deadlock monitor has been woken up.", "quantifier": "all histories of scheduler events without a failure to create a thread, before shutdown", "why_tests_cant": "all interleavings and unbounded histories", "anchors": ["libbuild2/scheduler.cxx: deactivate_impl, helper, deadlock_monitor"]}
{"id": "C44", "title": "Run phase: scheduler sub-phases are balanced", "statement": "When the phase is acquired and released only as match and switched only between match and load or match and execute, the scheduler has entered exactly one more sub-phase than it has left while the current phase is execute, and equally many otherwise.", "quantifier": "all interleavings of any number of threads that use the phases in this way", "why_tests_cant": "all interleavings and unbounded histories", "anchors": ["libbuild2/context.cxx: run_phase_mutex::unlock, relock", "libbuild2/target.cxx: (phase usage comment, line 1614)"]}
{"id": "C45", "title": "Lexer: every token makes progress", "statement": "Whatever the input and the lexer mode, getting a token either fails with diagnostics, consumes at least one character, or reports the end of input; the exception is an empty variable name, after which the variable mode is left. So the parser cannot loop on the same token forever. A line continuation in the middle of a word is as if it was not there.", "quantifier": "all inputs, all lexer modes and stacks of modes", "why_tests_cant": "unbounded inputs and mode stacks", "anchors": ["libbuild2/lexer.cxx: next, next_eval, next_quoted, word, skip_spaces"]}
{"id": "C46", "title": "Variables: the override cache is transparent", "statement": "The result of looking up an overridden variable does not depend on which lookups were made before.", "quantifier": "all lookup histories", "why_tests_cant": "histories", "anchors": ["libbuild2/scope.cxx: lookup_override_info", "libbuild2/variable.txx: variable_cache::insert"]}
{"id": "C47", "title": "Functions: $integer_sequence() returns the arithmetic sequence", "statement": "For a positive step, if the step past the last element does not overflow, then $integer_sequence() returns exactly the arithmetic sequence from the beginning (including) to the end (excluding).", "quantifier": "all begins, ends and steps", "why_tests_cant": "2^192 combinations", "anchors": ["libbuild2/functions-integer.cxx: integer_sequence"]}
{"id": "C48", "title": "Scripts: flow control", "statement": "A buildscript that is accepted (in either version of the syntax) is a structured program of if-else, while and for constructs, with break and continue only in loops, and every such program can be written. Executing it does exactly what the program says: the same commands, conditions and assignments in the same order and with the same iteration numbers, with break, continue and exit having the usual meaning. It completes, exits or fails, without assertions or a break that gets out of the script.", "quantifier": "all scripts of any nesting and length, all outcomes of commands and conditions, all numbers of iterations", "why_tests_cant": "the number of nested constructs and iterations is unbounded and lines are skipped by searching for their ends", "anchors": ["libbuild2/build/script/parser.cxx: pre_parse_line, pre_parse_if_else, pre_parse_if_else_v1, pre_parse_loop, pre_parse_loop_v1, pre_parse_block", "libbuild2/script/parser.cxx: exec_lines"]}
{"id": "C49", "title": "Scripts: stream files of commands are unique", "statement": "Commands executed by a script have unique iteration and line indexes, so that files for their standard streams have unique names. The line index of a command does not depend on the branches taken before it.", "quantifier": "all scripts and executions", "why_tests_cant": "depends on the combination of branches taken in all iterations", "anchors": ["libbuild2/script/parser.cxx: exec_lines", "libbuild2/script/run.cxx: std_path"]}
{"id": "C50", "title": "Scripts: command expressions", "statement": "Command expressions with && and || are evaluated from left to right with equal precedence, running only the pipes that are needed to decide. If the expression is false, then diagnostics is printed about exactly one failed pipe, and otherwise about none.", "quantifier": "all expressions and outcomes of pipes", "why_tests_cant": "the number of operators is unbounded", "anchors": ["libbuild2/script/run.cxx: run_expr"]}
{"id": "C51", "title": "C/C++ checksum: nothing but white space and comments is ignored", "statement": "When a translation unit is accepted by the C/C++ lexer, it consists of nothing but white space, comments, line splices and tokens of the language, each as long as possible, where a line that starts with # is a directive. All the tokens outside of directives are returned with their lines, taking line directives into account, and the checksum is of the line and the complete text of every token, including those of directives, and of the files of line directives.", "quantifier": "all sources", "why_tests_cant": "unbounded inputs, nested lexical contexts (raw strings, splices anywhere, comments)", "anchors": ["libbuild2/cc/lexer.cxx: lexer::next, skip_spaces, line_directive, number_literal, char_literal, string_literal, raw_string_literal, peek, get"]}
{"id": "C52", "title": "C/C++ checksum: the same checksum means the same tokens", "statement": "Translation units for which the same bytes are hashed have the same tokens, each with the same text and on the same line (a file of a line directive counts as part of the text of the token before it). If there are no directives, the tokens returned are also the same. So a change in the tokens cannot go unnoticed, except for where a directive ends.", "quantifier": "all pairs of sources of text (without bytes 0 and 0xFF) with line numbers less than 2^32", "why_tests_cant": "pairs of unbounded inputs; what is hashed has no separators", "anchors": ["libbuild2/cc/lexer.cxx: lexer::next, line_directive"]}
{"id": "C53", "title": "C/C++ checksum: white space and comments do not matter", "statement": "Every source without line splices that consists of tokens, white space, comments and directives is accepted, its tokens are returned and there is only one way to read it. If white space and comments between tokens are changed so that the tokens remain on their lines, the checksum remains the same; if a token is changed or moved to another line, the checksum changes.", "quantifier": "all such sources and pairs of sources", "why_tests_cant": "unbounded inputs", "anchors": ["libbuild2/cc/lexer.cxx: lexer::next, skip_spaces"]}
{"id": "C54", "title": "C/C++ modules: what is declared is what is found", "statement": "For every preprocessed translation unit that the lexer accepts, the module or partition, its kind and the imports (with their order, partitions qualified with the module and repeated imports merged, exported if any is) are exactly those of the module and import declarations outside of braces, where a declaration is led by the keyword (optionally after export) that is first on its line and followed on the same line by what can follow it. Parsing fails only if a would-be declaration is malformed, there is more than one module declaration, none after a global module fragment or none before the import of a partition. There is only one way to read the declarations.", "quantifier": "all translation units and compilers", "why_tests_cant": "unbounded inputs; module and import are also ordinary identifiers", "anchors": ["libbuild2/cc/parser.cxx: parser::parse, parse_module, parse_import, parse_module_name, parse_module_part, parse_header_name"]}
{"id": "C55", "title": "Substitutions in an .in file are replaced exactly where the mode says", "statement": "For every .in file, substitution symbol, mode, substitution map and values of variables, the output is the text with every substitution replaced by its value (from the map or else of the variable, null replaced if so configured), newlines of the value being those of the line, line endings being preserved and the last line being terminated. There is an output if and only if every substitution is terminated (strict mode) and has a value. In the strict mode a symbol starts a substitution and a doubled one stands for itself; in the lax mode a pair of symbols, taken from the left, is a substitution if what is between them looks like a variable name and everything else is copied. There is only one output.", "quantifier": "all .in files, symbols, modes and values", "why_tests_cant": "unbounded inputs and values, in which symbols, escapes and line endings can be next to each other in any way", "anchors": ["libbuild2/in/rule.cxx: rule::process, rule::substitute, rule::lookup", "libbuild2/in/rule.hxx: replace_newlines"]}
{"id": "C56", "title": "A preprocessed .in target is as if built from scratch after any history", "statement": "After any sequence of edits of .in files, changes of the values of variables, of the symbol, of the mode and of the .in file used, removals of the output or of the database, updates, failed updates and updates interrupted at any point, an update that succeeds leaves the output that the current .in file and values have. It succeeds whenever there is such an output. An update right after it with the same values does not write anything.", "quantifier": "all histories of edits, updates and interruptions, all .in files and values", "why_tests_cant": "the database holds a prefix of the substitutions of some earlier run that is skipped if it matches, so the outcome depends on the whole history and on where it has been interrupted", "anchors": ["libbuild2/in/rule.cxx: rule::perform_update, rule::process", "libbuild2/depdb.cxx"]}
{"id": "C57", "title": "A graph of targets with ad hoc recipes is as if built from scratch after any history and for any schedule", "statement": "After any sequence of edits of source files, removals of outputs and of databases, changes of recipes, of variables, of tools, of prerequisites and of the graph, and runs that completed, failed or were killed, a run that completes leaves each target asked for, and everything it depends on, with the contents that a build from scratch makes, whatever the order in which targets have been updated. A recipe fails only if it fails in a build from scratch, a run that has not been killed can always be completed if a build from scratch is possible, and a run right after a completed one executes no recipe and changes no file.", "quantifier": "all acyclic graphs, histories, schedules, crash points and recipes (functions of the contents of the prerequisites)", "why_tests_cant": "whether a target is up to date is decided from modification times, states of prerequisites in this run and the database left by some earlier run, so it depends on the whole history of all targets and on the interleaving", "anchors": ["libbuild2/adhoc-rule-buildscript.cxx: adhoc_buildscript_rule::perform_update_file_or_group, execute_update_prerequisites, execute_update_file", "libbuild2/target.ixx: mtime_target::newer", "libbuild2/depdb.cxx"]}
{"id": "C58", "title": "A function call is a call of the best overload", "statement": "A call of a buildfile function calls the overload that is better for its arguments than every other one of that name: exact types are better than types derived from those of parameters, which are better than values made untyped. It is reported as unmatched if and only if no overload takes that many arguments of these types and as ambiguous if and only if several are equally good and none is better. The order in which overloads are registered does not matter. The function is passed the arguments of the call, in order, those for untyped parameters being untyped, and each is of a type the parameter accepts. A family is found to be defined if and only if it has a function.", "quantifier": "all sets of overloads, numbers and types of arguments and hierarchies of value types", "why_tests_cant": "the choice depends on every combination of overloads and types of arguments", "anchors": ["libbuild2/function.cxx: function_map::call, function_map::defined", "libbuild2/function.hxx: function_overload"]}
{"id": "C59", "title": "A target is matched to the rule that is the most specific", "statement": "For an action a target is matched to its ad hoc recipe for this action, or else for the reverse of an action it has a recipe for, or else, when configuring or distributing, to the one for performing the same operation. Without a recipe it is matched to the registered rule that matches it: one for its type is preferred to one for a base type, one of an inner scope (of the project) to one of an outer and of the global scope, one for this operation to one for any, those named according to the rule hint only; for meta-operations other than perform, rules not named according to the hint are tried afterwards. The match is ambiguous if and only if several rules of the same preference match and there is no rule if and only if none matches. The hint is the one given for the operation, or the default one for update and clean, of the target or else of its group. A member of a group is matched to what the group is matched to. None of this depends on the order of registration except that the first of the same name stays, nor on how names compare.", "quantifier": "all registrations, hints, hierarchies of types and scopes, recipes, groups and rules (any outcomes of matching)", "why_tests_cant": "the preferences are combined by nested loops over types, scopes, operations and names with early exits, so the outcome depends on combinations of all registrations", "anchors": ["libbuild2/algorithm.cxx: match_rule_impl, match_adhoc_recipe", "libbuild2/rule-map.hxx: rule_map, operation_rule_map, name_rule_map", "libbuild2/target.ixx: rule_hints::find, rule_hints::insert, target::find_hint", "libbuild2/action.hxx: action"]}
{"id": "C60", "title": "A rule that delegates is not matched itself", "statement": "Matching with a rule to skip has the outcome that matching would have without that rule.", "quantifier": "all registrations, targets and rules", "why_tests_cant": "whether it holds depends on the names of other rules that match in the same place", "anchors": ["libbuild2/algorithm.cxx: match_rule_impl"]}
{"id": "C61", "title": "Dependency cycles are reported and are the only reason to get stuck", "statement": "When matching a graph of targets on any number of threads, a cycle is only reported if there is one, a target that depends on a cycle is never matched successfully, and a target that fails has a reported cycle or a failing rule among what it depends on. Every schedule ends. Threads get to wait for each other forever only if there is a cycle of targets that are being matched (which the scheduler then notices); in a serial build not even then: a cycle is always reported. Without cycles and failures everything needed is matched for every schedule. When matching is over, nothing is still being matched, and the result for a target never changes.", "quantifier": "all finite graphs of targets, schedules, numbers of threads and failures, with and without keep-going", "why_tests_cant": "cycle detection relies on the stack of locks of each thread, which depends on which thread has picked what from the queue", "anchors": ["libbuild2/algorithm.cxx: lock_impl, match_impl, match_prerequisite_range", "libbuild2/algorithm.ixx: dependency_cycle, match_sync, match_async, match_complete", "libbuild2/context.ixx: wait_guard"]}
{"id": "C62", "title": "Every directory is in the innermost scope and project, whatever the order in which they have been entered", "statement": "After any sequence of entering scopes (for out directories, of projects or not, in any order and repeatedly, also making a project of an existing scope) and source directories, every directory is found to be in the innermost scope that contains it, the parent of each scope is the nearest one above it and its project is the innermost one it is in. Looking up a source directory gives all scopes of the innermost directory that has any, and there is always one. The outermost project that a project is amalgamated into, whether a project is a subproject of another and the scope where lookup continues follow from that and from which projects can be amalgamated. None of it depends on the order.", "quantifier": "all sequences of insertions, directories and amalgamation settings", "why_tests_cant": "parents and projects are patched up in scopes entered earlier, so the outcome depends on the whole history", "anchors": ["libbuild2/scope.cxx: scope_map::insert_out, insert_src, find_out, find", "libbuild2/scope.ixx: scope::weak_scope, sub_root, parent_scope, root_scope"]}
{"id": "C63", "title": "Everyone who asks for a target gets the same one", "statement": "When any number of threads find and insert targets and set their extensions, all that is done is as if it were done one at a time. There are never two targets that could be taken for one another: two with the same type, directories and name have extensions, and different ones. The target returned is the one asked for and stays so; everyone asking for the same one with the extension known gets the same one; exactly one of those inserting it is told that it is new; what has been found or inserted will be found; a target is never removed and an extension, once known, never changes. If only one extension is ever specified for a name then there is one target, whether or not others leave it unspecified. An operation is done after at most four locked sections, whatever other threads do.", "quantifier": "all sequences of operations, all interleavings and all choices of the hash table", "why_tests_cant": "a target found with an unspecified extension is changed after dropping the shared lock and taking the exclusive one, and what happens in between depends on the schedule", "anchors": ["libbuild2/target.cxx: target_set::find, target_set::insert_locked, target::ext", "libbuild2/target-key.hxx: operator=="]}
{"id": "C64", "title": "Libraries are linked in the right order", "statement": "Provided no library that exports link options is linked as a whole archive (or its dependencies without itself), the linker's command line has, between object files, for every library and library option that is needed, directly or indirectly, its options and file exactly once (whole archives and options of more than two elements can repeat) and nothing else, and each library comes before everything it uses, directly or indirectly. A utility library is left out only if it is part of another library that is linked. Arguments are never read or written out of range while they are moved. It always finishes and a dependency cycle is diagnosed if and only if there is one. The set of arguments and what is hashed in order to detect changes are the same.", "quantifier": "all finite graphs of static, shared, utility and binless libraries, with any options and library names, and all lists of prerequisites", "why_tests_cant": "the order is the result of repeatedly moving ranges of arguments to the end while a graph is traversed, so it depends on the whole graph", "anchors": ["libbuild2/cc/link-rule.hxx: appended_libraries", "libbuild2/cc/link-rule.cxx: link_rule::append_libraries, link_rule::perform_update", "libbuild2/cc/common.cxx: common::process_libraries_impl", "libbuild2/cc/functions.cxx: lib_libs"]}
{"id": "C65", "title": "Header dependencies are those of a build from scratch", "statement": "Whatever is stored from the last time, whatever other threads update meanwhile and however many headers are generated, outdated or missing, the header dependencies found for a source file are exactly those that would be included, in this order, if all headers were up to date, and all of them are up to date then. They are found if the source is correct and the compiler either reports what it has read even if it fails or cannot fail because of outdated headers. The target is left as it is only if the stored list is the same and none of the headers has changed. What is stored makes all this true for the next time. Extraction always terminates; it fails only if a header doesn't exist or the source is wrong, and the compiler is never said to be inconsistent.", "quantifier": "all preprocessors whose next step is a function of what has been read, all headers, contents, modification times, stored lists, interleavings with other threads and compilers", "why_tests_cant": "the restart logic skips what was processed by count, so its correctness depends on the whole history of runs and on what other threads do between reading a header and updating it", "anchors": ["libbuild2/cc/compile-rule.cxx: compile_rule::extract_headers", "libbuild2/dyndep.cxx: dyndep_rule::inject_file", "libbuild2/algorithm.cxx: update_during_match", "libbuild2/target.ixx: mtime_target::newer"]}
{"id": "C66", "title": "Uninstall undoes install", "statement": "Installing puts every selected file of every target into its directory (as computed from the install.* variables), creates the directories that are missing, changes nothing else and does nothing if repeated. Uninstalling removes exactly these files and then those of the directories of targets that have become empty, whatever else is there, never fails and leaves no such empty directory unless it can't be removed. After installing and uninstalling the same targets, in any order, every other file is as before, and the only new things are parents of the top installation directories. Dry run changes nothing.", "quantifier": "all filesystems, lists of targets with any directories, file names and extra entries, chroot directories, definitions of install.* variables and orders", "why_tests_cant": "directories are shared by targets and with other packages, so what is left depends on all of them, on what is there and on the order", "anchors": ["libbuild2/install/rule.cxx: resolve, file_rule::install_d, file_rule::install_f, file_rule::perform_install, file_rule::uninstall_d, file_rule::perform_uninstall"]}
{"id": "C67", "title": "The first matching installation filter decides", "statement": "Whether a filesystem entry is installed is decided by the first filter that matches it, except that a directory that is included only makes shorter or equally long directory filters after it void, and by default it is included; with negation it is the opposite.", "quantifier": "all sequences of filters and filesystem entries", "why_tests_cant": "the effect of a filter depends on all those before it", "anchors": ["libbuild2/install/utility.cxx: filter_entry"]}
{"id": "C68", "title": "Flow control in buildfiles executes what is written", "statement": "Loading a buildfile executes the body of the first if-else or switch branch that applies and nothing of the others, evaluates no condition after it, repeats the body of for and while for every element and as long as the condition holds, applies continue and break to the innermost loop, and fails exactly if something that is executed fails; without while it ends.", "quantifier": "all buildfiles with any nesting of blocks, directory scopes, declarations and recipes; all values; all numbers of iterations", "why_tests_cant": "branches are skipped and loop bodies are saved as text by counting braces, which must agree with parsing for every nesting", "anchors": ["libbuild2/parser.cxx: parser::parse_clause, parser::parse_clause_block, parser::parse_if_else, parser::parse_switch, parser::parse_for, parser::parse_while, parser::skip_block"]}
{"id": "C69", "title": "Name patterns expand to names of the files they match", "statement": "A name pattern with inclusions and exclusions expands to names that denote exactly the files (or directories) that are included and not excluded after that, each once and in the order in which they are included; files that start with a dot, ignored directories and, if no extension is asked for, files with an extension are left out; invalid patterns and mixtures of file and directory patterns are diagnosed and no assertion fails.", "quantifier": "all patterns, signs and numbers of them; all filesystem contents; all kinds of target types", "why_tests_cant": "dots in names are escaped and extensions are removed and added again, which must be inverse to each other for every name; the shortcut without the search for duplicates must be equivalent", "anchors": ["libbuild2/parser.cxx: parser::expand_name_pattern", "libbuild2/target.txx: target_pattern_fix, target_pattern_var", "libbuild2/target.cxx: dir_pattern, buildfile_target_pattern, target::split_name, target::combine_name"]}
{"id": "C70", "title": "A buildspec is executed as written", "statement": "Meta-operations and operations of a buildspec are executed one after another, each once and in the order written; a name of a meta-operation written as an operation is this meta-operation with the default operation, and what is before and after it is performed; every meta-operation has its own context; buildfiles of all targets of an operation are loaded before anything is matched, the pre-operation is executed before the operation and the post-operation after it; every callback that starts something is followed by the one that ends it; and if something is not supported, then everything before it has been executed and nothing of it or after it.", "quantifier": "all buildspecs; all sets of projects and the meta-operations and operations they support", "why_tests_cant": "continuing after a lifted operation, resetting of the context and positions in the list interact in all combinations of lifted and other operations", "anchors": ["b/b.cxx: main", "libbuild2/buildspec.hxx: opspec, metaopspec", "libbuild2/operation.hxx: operation_info, meta_operation_info"]}
{"id": "C71", "title": "A buildspec means what its grammar says", "statement": "A buildspec is accepted if and only if it is a sequence of names and calls where a call has one or more words as names, is not empty and, if there is an operation inside, is not inside another call. Words are operations, other names are targets, a call without operations inside is an operation on all the targets inside and a call with operations inside is a meta-operation, adjacent targets belong to one operation and adjacent operations to one meta-operation, everything is in the order written, no target is lost or repeated (except once per name of a call), parameters are those after commas and no assertion fails.", "quantifier": "all sequences of names, parentheses, commas and values; all depths", "why_tests_cant": "whether a call is an operation or a meta-operation is only known after what is inside has been parsed, and merging relies on the shape of what recursion returned", "anchors": ["libbuild2/parser.cxx: parser::parse_buildspec, parser::parse_buildspec_clause, opname", "libbuild2/buildspec.hxx: opspec, metaopspec, buildspec"]}
{"id": "C72", "title": "config.test selects what is asked for and nothing that is selected is unreachable", "statement": "With config.test that consists of directories, typed targets, id paths and pairs of these, a target is tested if and only if it is in or under one of the directories, is one of the targets or no targets are given; a test or group of tests of it is executed if and only if it is, contains or is in one of the id paths given for this target or for any target, or none are given; an alias is passed through if and only if one of the directories or targets is in or under its directory, it is under one of the directories or no targets are given. Therefore every alias above a target that is tested is passed through, every group above a test that is executed is executed and everything in a group that is asked for is executed.", "quantifier": "all values of config.test, targets, directories and id paths", "why_tests_cant": "the result is carried through the loop over entries, whose effects depend on what other entries have been seen", "anchors": ["libbuild2/test/common.cxx: sense, common::pass, common::test"]}
{"id": "C73", "title": "Testscripts execute what they say, once, in order, and end", "statement": "However inner scopes of a testscript are spread over threads, nothing is executed that a serial execution would not execute, and nothing more times; a scope is entered before and left after everything in it, setup commands are executed before and teardown commands after everything in the group; of an if-else chain only the first scope whose condition holds is executed; the execution ends, its result is that of the serial execution and, if it passed or we are asked to keep going, everything has been executed.", "quantifier": "all scripts (groups, tests and if-else chains of any size and depth), all outcomes of commands and conditions, all selections of tests, all schedules of threads, all points of the execution", "why_tests_cant": "the number of schedules is exponential in the size of the script and a test sees one of them; scripts are unbounded", "anchors": ["libbuild2/test/script/parser.cxx: execute, exec_scope_body", "libbuild2/test/script/script.hxx: empty", "libbuild2/test/script/runner.cxx: enter, leave"]}
{"id": "C74", "title": "Clean removes exactly what targets of the graph made", "statement": "Whatever the schedule and whatever fails, clean removes nothing but files and extra directories of targets and empty directories of the graph; a directory is only removed when there is nothing in it. If nothing fails, then at the end exactly what should be removed is gone: files of targets (unless told not to clean them) with their extras, and directories of the graph except for those that have the working directory or something that stays in them. So clean after update restores what was there before. It ends, and does not fail if files can be removed.", "quantifier": "all acyclic graphs of targets with files, ad hoc groups, groups, directories and aliases, all states of the filesystem, all schedules, all failures, all points of the execution", "why_tests_cant": "the order in which targets are cleaned depends on threads and on counts of dependents, and directories can only be removed after everything in them: a test sees one order for one graph", "anchors": ["libbuild2/algorithm.cxx: clean_extra, perform_clean_extra, perform_clean_group_extra, reverse_execute_members, inject_fsdir_impl", "libbuild2/rule.cxx: fsdir_rule::perform_clean", "libbuild2/filesystem.cxx: rmdir_r", "libbuild2/filesystem.txx: rmfile, rmdir"]}
{"id": "C75", "title": "Typed values survive conversion to names and back", "statement": "The value of a typed variable, however it has been made (assigned, appended and prepended to), when converted to names (for example, to be printed, saved in config.build or passed to a function) and then back to the same type, is the same value. Comparison of values, NULL included, is an order and only a value itself is equal to it.", "quantifier": "all simple types, vectors and sets of them, vectors of pairs and maps, all values of these types, all histories of operations, all names", "why_tests_cant": "there are infinitely many values and every combination of types has its own conversion functions instantiated from templates", "anchors": ["libbuild2/variable.cxx: value_traits<bool>, value_traits<int64_t>, value_traits<uint64_t>, value_traits<string>, value_traits<path>, value_traits<dir_path>, value_traits<name>, value_traits<name_pair>, value_traits<process_path>, value_traits<project_name>, typify, untypify, compare", "libbuild2/variable.txx: simple_assign, simple_append, simple_prepend, simple_reverse, vector_append, vector_reverse, set_append, pair_vector_append, map_append"]}
{"id": "C76", "title": "A value is what its history says, read from left to right", "statement": "A variable that is assigned and then appended and prepended to has the value it would have if assigned all the names at once, appended names on the right and prepended on the left. Strings are concatenated, integers added up and booleans combined; a vector has an element for every name or pair, in order, a set has the same elements once and in order, and the value of a key of a map is the last one. Appending a value is the same as appending its names.", "quantifier": "all histories of operations (any number and order of assignments, appends and prepends), all names, all element types", "why_tests_cant": "histories are unbounded and the result depends on all of them", "anchors": ["libbuild2/variable.txx: vector_append, vector_prepend, set_append, set_prepend, pair_vector_append, map_append, map_prepend, simple_append, simple_prepend", "libbuild2/variable.ixx: value_traits<vector<T>>::append, value_traits<map<K, V>>::append, value_traits<map<K, V>>::prepend"]}
{"id": "C77", "title": "Executing an operation succeeds exactly if everything can be done, and keep going leaves nothing undone", "statement": "An operation on targets succeeds if and only if all of them and their post hoc prerequisites can be executed, with and without keep going and for every schedule; then all that they need has been executed with the result it should have. A recipe is run at most once, only if needed, if all its prerequisites succeeded and after them. What is reported (changed, unchanged, failed, not executed) is true of each target. With keep going every recipe whose prerequisites can be executed is run in spite of failures elsewhere, and neither what is run nor what is reported depends on the schedule. The operation always finishes and when it does nothing is still being executed.", "quantifier": "all acyclic graphs of targets, all recipe outcomes, all lists of top-level targets and post hoc prerequisites, both keep going modes, all schedules (asynchronous or synchronous execution of every task, all interleavings)", "why_tests_cant": "failures may happen anywhere in an unbounded graph and be seen at different times under different schedules", "anchors": ["libbuild2/operation.cxx: perform_execute", "libbuild2/algorithm.cxx: execute_impl, execute_direct_impl, straight_execute_members, execute_recipe", "libbuild2/algorithm.ixx: execute_async, execute_complete", "libbuild2/target.ixx: target::executed_state_impl"]}
{"id": "C78", "title": "An ad hoc recipe is executed again if what it does could have changed", "statement": "If what is saved in the dependency database of a target with an ad hoc recipe written in Buildscript is the same as saved by the previous update, then the text of the recipe is the same, it would start with the same $>, $< and execute the same commands with the same results, in spite of any other changes of variables, targets and prerequisites. A recipe that uses anything that is not tracked (computed variable names, impure functions) and does not say how to track it is diagnosed.", "quantifier": "all recipes, values of variables, lists of targets and prerequisites before and after, results of commands, numbers of steps", "why_tests_cant": "which variables matter depends on the recipe, including branches not taken and loops; what is hashed must be unambiguous for all values", "anchors": ["libbuild2/adhoc-rule-buildscript.cxx: hash_script_vars, hash_target, adhoc_buildscript_rule::perform_update_file_or_group", "libbuild2/build/script/parser.cxx: parser::pre_parse, lookup_variable, lookup_function, execute_body", "libbuild2/build/script/script.cxx: environment::set_special_variables, lookup", "libbuild2/name.hxx: to_checksum"]}
{"id": "C79", "title": "Which target a prerequisite is resolved to does not depend on when it is searched for", "statement": "A prerequisite of a project is resolved to the target declared as written (in the out tree if its directory is relative), otherwise to the one declared in the src tree, otherwise to the one of an existing source file, otherwise to a new target in the out tree, where allowed, considering only the targets that are declared before the searches. This is so for every order and interleaving of the searches for any other prerequisites. Prerequisites that refer to the same target in different ways are resolved to the same one, and targets in the src tree are only created for existing files. Excluded are prerequisites that refer to other projects and undeclared ones with an absolute directory in the out tree that have a source file.", "quantifier": "all projects, declared targets, files, prerequisites (relative, absolute, with out specified), numbers of threads and interleavings of their steps", "why_tests_cant": "prerequisites are searched for concurrently and each search adds targets that others can find", "anchors": ["libbuild2/search.cxx: search_existing_target, search_existing_file, create_new_target", "libbuild2/algorithm.cxx: search", "libbuild2/target.cxx: target_search, file_search, alias_search"]}
{"id": "C80", "title": "Testing a target", "statement": "A target that is selected and has testscripts is tested with all of them (unless test is false), one that has inputs, test variables or arguments is tested as a simple test, anything else is not tested but only leads to other tests; what the test uses is updated before that. However many testscripts there are and in whatever order and at the same time they are executed, success is reported if and only if every selected testscript was run and passed (if their names differ and they leave nothing in the common working directory), nothing still runs when the result is reported, all are run if asked to keep going, no script sees what a previous run has left, the working directory is removed after success and the directory of a failed script is kept. Nothing is run or changed with dry run, or if the names are mixed or the working directory must not exist but does. Excluded are testscripts of the same target with the same name, and targets in the same directory that only differ in type, which have the same working directory.", "quantifier": "every target and set of prerequisites; every list of testscripts, outcome, schedule (synchronous or not), previous contents of the working directory and set of options", "why_tests_cant": "the scripts share a directory and are executed asynchronously; tests see one order", "anchors": ["libbuild2/test/rule.cxx: rule::apply, rule::perform_script, perform_script_impl", "libbuild2/test/script/runner.cxx: default_runner::enter, leave", "libbuild2/test/script/script.cxx: script::script", "libbuild2/filesystem.cxx: mkdir_buildignore, rmdir_buildignore, rmdir_r"]}
{"id": "C81", "title": "A target on the command line is in the innermost project, its source and output directories correspond and its buildfile is the nearest one", "statement": "Whatever is in the file system, the project of a target is the innermost of the enclosing source and output root directories, below the home directory, or, if none, its directory is a simple project. The source directory of an output root directory is the one it has been configured with and a source root directory may be forwarded. If the source directory is specified, then its root is the innermost one and the output root is where the target has the same place in it. In any case the output and source directories of the target have the same place in their roots. The buildfile is the nearest one from the directory of the target up to the root and no further; for a directory it is implied if there is none in it but there are in its subdirectories. For any number and order of targets, there is one source root and one naming scheme for every output root. The search always ends if the name of buildfile has no directories.", "quantifier": "every file system contents, target, combination of directories specified, naming schemes, name of buildfile, set of projects already loaded, list of targets", "why_tests_cant": "directories may be nested to any depth and any of the files may be present or not at each level", "anchors": ["b/b.cxx: main", "libbuild2/file.cxx: find_src_root, find_out_root, find_buildfile, find_plausible_buildfile, create_root, bootstrap_fwd, bootstrap_out"]}
{"id": "C82", "title": "A compilation database has an entry for exactly the outputs of the projects, with the current commands", "statement": "After a session the file has: the line last executed for every output that was new or has changed; the same line as before for every output that has not changed or is elsewhere; and no line for an output in the directories being updated that was not matched in this or, if nested or while loading, previous sessions of the process. After any history of builds the lines are those of the commands last recorded. An update is forced if and only if there is no entry. If called as intended no assertion fails. A file that is not recognized, or if an entry cannot be serialized, is left as is. What is written is read back, and if cut, is either rejected or nothing is lost. What is printed is an array of everything executed. An entry is included if the last filter for the database says so and both the output and the input are of one of the types specified.", "quantifier": "every initial file, every history of sessions (nested, outer, failed, match-only) and of calls in them, every command, every history of builds, every cut of the file, every filter", "why_tests_cant": "the result depends on the statuses of entries carried over sessions and on builds that were interrupted", "anchors": ["libbuild2/cc/compiledb.cxx: filter, compiledb_file::pre, match, execute, post, compiledb_stdout", "libbuild2/cc/compiledb.hxx", "libbuild2/cc/compile-rule.cxx: apply, perform_update"]}
{"id": "C83", "title": "An import is of the project named, found as configured or else the nearest", "statement": "The variable for the target, the most specific first, decides whatever the others are; otherwise config.import.<project>, where null or empty leaves the import to the rules; otherwise the nearest project in the amalgamation chain, not beyond one that is not amalgamated, that is the project or has it as a subproject. Subprojects are exactly the subdirectories that are projects, whatever the order of listing, and two with the same name are an error. A project is amalgamated by the innermost enclosing one. Whatever was imported before, the result of an import is what the named project exports.", "quantifier": "every configuration, chain of projects of any length, directory contents and listing order, target, history of imports in a process", "why_tests_cant": "a result depends on the chain, the configuration and, by way of a cache, all the imports before it", "anchors": ["libbuild2/file.cxx: find_subprojects, bootstrap_src, import_search, import_load", "libbuild2/context.hxx: context::import_cache"]}
{"id": "C84", "title": "Cleanups of a script leave what was there before it", "statement": "A script that only creates files and directories, redirects and moves what it has created leaves, after the cleanups, exactly what was there before it, and its scope ends with the working directory removed. Whatever is registered, cleanups remove nothing that none of them (other than never ones) is for, change nothing, and nothing outside of the sandbox. If they succeed then all they are for is gone, an always cleanup was of something of the kind it says, and nothing in a directory cleaned up was unexpected. An explicit cleanup overrides what was registered for the path and only that. Cleanups of, removal and moving of what is outside of the sandbox, or of the working directory, is refused.", "quantifier": "every file system, sequence of commands of any length, set of cleanups, pattern matching", "why_tests_cant": "which paths are registered depends on every command before, in particular on moves of directories", "anchors": ["libbuild2/script/script.cxx: environment::clean", "libbuild2/script/run.cxx: clean, run_pipe", "libbuild2/test/script/runner.cxx: default_runner::enter, leave", "doc/testscript.cli: Cleanup, mv"]}
{"id": "C85", "title": "A distribution has all the sources and nothing else", "statement": "In whatever order prerequisites are seen, if matching for a distribution succeeds then it is exactly the targets reached from the project by prerequisites within it that are matched, and every file they need is known; a prerequisite that is neither a source file nor a target is an error; and matching ends. The distribution then has exactly the files in src, unless their dist is false, and those in out with dist set, each at its place relative to the root or as remapped, and nothing from before or from outside of the project; two files with one place are an error; after a failure there is no incomplete distribution. A bootstrap distribution has exactly the files in src, including those in linked directories, other than version control and tool ones.", "quantifier": "every graph of targets, order of matching, values of dist, set of groups, contents of the source directory", "why_tests_cant": "what is found depends on the order of matching and every target of the project", "anchors": ["libbuild2/dist/rule.cxx: rule::apply, match_postponed", "libbuild2/dist/operation.cxx: add_subdir, dist_project, install", "doc/manual.cli: Distributing"]}
{"id": "C86", "title": "A header that is to be generated is the one in the nearest include directory", "statement": "A header that does not exist is resolved by its most qualified prefix: to the include directory that leads, by the fewest directories, from the directory of a target to this prefix, the first one of these; in particular, for a target in a subdirectory p of the first include directory d, the header p/x is d/p/x. Without such a prefix it is the first include directory, the nearest first, in which it is a declared target. Whatever it is resolved to is in one of the include directories of the options, which are read in order, and only those in the project are used. An existing file in src is replaced by the corresponding declared target in out if the two directories are given one after the other. What the target is does not depend on targets that other threads have created dynamically.", "quantifier": "every sequence of include directories and targets they are for, every header, set of targets, option list", "why_tests_cant": "each include directory may override entries of those before; other threads insert targets at any time", "anchors": ["libbuild2/dyndep.cxx: append_prefix, srcout_builder::next, enter_file_impl", "libbuild2/cc/compile-rule.cxx: append_prefixes, build_prefix_map"]}
{"id": "C87", "title": "Backlinks of forwarded configurations are current or absent", "statement": "After an update of a forwarded configuration has succeeded, for each file of the target that is to be linked in the source directory, what is at the link is of the requested kind (symbolic link, hard link, copy) and reads as the file does; after one that has failed there is no link, unless it is a copy to be overwritten; cleaning removes links and keeps such copies. Nothing else in the source directory is changed, and in the dry run nothing is but directories are created. Which files are linked, and how, is as the backlink values of the target and its members say; other values are errors.", "quantifier": "every file system, list of links and modes, whether symbolic links are supported, success or failure of the recipe and of each step", "why_tests_cant": "links share inodes with targets and copies replace contents in place, so one link can affect another; failures can be at any step", "anchors": ["libbuild2/algorithm.cxx: update_backlink, try_rmbacklink, clean_backlink, backlink_test, backlink_collect, backlink_update_post, backlink_clean_pre, execute_impl"]}
{"id": "C88", "title": "A pattern rule matches when every name matches its own pattern", "statement": "A rule with regular expression patterns for targets and prerequisites matches a target if and only if there is a group member or a normal prerequisite of the type for each pattern (the first one is taken) and the name of each, with the extension if asked for, matches the pattern for it, with back references over all of them. Expressions are delimited by their first character; all or none of them ignore case. Members and prerequisites given with substitutions are added, in order, with the groups that were matched; an empty result is an error, and a directory that is already a prerequisite is not duplicated.", "quantifier": "every list of patterns and substitutions, every regular expression (other than features listed as not modelled), every target with its members and prerequisites and every name", "why_tests_cant": "patterns are joined into a single expression and names into a single string, so that matching one by one is the same only if no part can match across names", "anchors": ["libbuild2/adhoc-rule-regex-pattern.cxx: adhoc_rule_regex_pattern, match, substitute, apply_group_members, apply_prerequisites", "libbuild2/target.ixx: target_key::effective_name"]}
{"id": "C89", "title": "Output of a script command is accepted exactly when its lines match", "statement": "A regex here-document or here-string redirect accepts the output of a command if and only if the lines of the output, without trailing carriage returns, are in the language of the expression, where text lines match themselves, regex lines match as the regular expression with their own and global flags, and operators (group, alternatives, any line, repetitions) are over whole lines. There is a blank line at the end for the final newline unless suppressed; an empty output is a blank line for a document. Errors are reported only if a regular expression is not valid or the output is too large. The d flag swaps dots and escaped dots only. Text is expected as it is, each line with a newline, with directory separators converted on Windows if asked for.", "quantifier": "every expression over lines, every output and every document, flags and modifiers, any regular expression engine for characters", "why_tests_cant": "lines are interned as characters of an expression and compared by identity, which is right only if the pool has every line once, for any order of lines", "anchors": ["libbuild2/script/run.cxx: transform, check_output", "libbuild2/script/regex.cxx: line_char, transform, char_regex", "libbuild2/script/parser.cxx: parse_regex, parse_here_document"]}
{"id": "C90", "title": "Modules are initialized once in a scope, in order, and are the same for all projects", "statement": "In any build, with projects bootstrapped, loaded and their buildfiles sourced in any order and with modules that load others: once the init function of a module has returned in a scope it is not called there again, and it is called at most once if no module loads itself; it is told to be first exactly in the first call for the project; each project searches for a module once and all projects that use a module which is not bundled have found it in the same directory; when a project is loaded all of its booted modules are initialized, in the order of modes and then of booting, those not for after it before root.build; using a module that is not optional means that it is loaded and configured, and what is answered is what its variables say", "quantifier": "every set of modules with any behaviour of init functions, every search result, every sequence of projects and directives, every point of execution including failures", "why_tests_cant": "modules load other modules in init in any pattern, and the state is spread over a table of libraries, one of imports per project, one of modules per project and variables per scope", "anchors": ["libbuild2/module.cxx: find_module, boot_module, boot_post_module, init_module, load_module", "libbuild2/file.cxx: load_root, bootstrap_post", "libbuild2/parser.cxx: parse_using"]}
{"id": "C91", "title": "The text of a here-document is its lines without the indentation of its end marker", "statement": "A here-document ends at the first line that is its end marker after any number of spaces and tabs. If every line before it is blank or starts with exactly these, then the text is the lines without them, each expanded and followed by a newline (the last one unless suppressed), and the script goes on after the end marker. Nothing is expanded in a literal one. Indenting the document as a whole changes nothing. Otherwise the failure is the right one of: no end marker, a line not indented, an expansion that fails. Several documents of a command are read in the order they are mentioned. Different lines make different texts, but for a document with no lines.", "quantifier": "every sequence of lines of characters and expansions, every end marker, indentation, modifiers and values of expansions, every list of documents", "why_tests_cant": "lines are read as tokens in a first pass that does not know the indentation, which is removed from saved tokens later (where a token can disappear) and the tokens are replayed; whether the second pass sees the same document depends on how text and expansions meet at the start of each line", "anchors": ["libbuild2/script/parser.cxx: parse_here_documents, parse_here_document", "libbuild2/script/lexer.cxx: next_line, mode", "libbuild2/parser.cxx: next, peek"]}
{"id": "C92", "title": "The path of a target is set once and seen whole by all threads", "statement": "Any number of threads set and query the path of a target at the same time. All calls that find it find the same path, never one that is half written, and it is one that some thread has set. A call that sets it returns only if the path is the one it was given. Once found it is found by every later query. The check that fails on different paths fails only if threads do set different paths. While one thread sets it the others wait, and a bounded number of its steps lets them go on. If times are set only after the path (path_mtime) then a thread that has seen the time finds the path.", "quantifier": "every number of threads, every sequence of calls of each and every interleaving of their steps", "why_tests_cant": "the window between claiming, writing and publishing the path is a few instructions long and is not hit by tests", "anchors": ["libbuild2/target.ixx: path_target::path, path_mtime, load_mtime, mtime_target::mtime", "libbuild2/target.hxx: path_target::path_state_"]}
