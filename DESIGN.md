# Formal model of build2/build2 in Rocq (Coq 8.16.1)

Sources are cited as `file:lines` relative to `/repo`. The model is in
`rocq/theories`. For every component there are up to four kinds of files:

* `XModel.v`  - executable Gallina model of the C++ code, with citations
* `XSpec.v`   - a small specification that does not use the model's helpers
* `XProofs.v` - lemmas
* `XProps.v`  - property theorems only, each `Proof. exact lemma. Qed.`
  followed by `Print Assumptions`, plus `Example`s showing that a concrete
  non-trivial case meets the hypotheses

(small components keep the model and the specification in one file).

## Plan per property

| id | modelled | how proved |
|----|----------|-----------|
| C01 | depdb state machine over file bytes: open, read_, change, write, expect, close | refinement to an abstract line list by induction over the operation list |
| C02 | the same plus a crash image: any byte prefix of the pending output over the truncated file | invariant: file before the write position parses as complete lines, nothing after it |
| C03 | expect() loop | corollary of the C01 refinement |
| C04 | skip() | counterexample (parity of newline runs) and the exact condition under which it agrees |
| C05 | close_to_reopen(), reopen ctor | corollary of the refinement |
| C06 | ro_ flag | simulation between read-only and writable sessions |
| C07, C08 | make_parser::next (both overloads) over bytes | round trip by induction on the word, then on the list of words |
| C09 | target_state, operator\|=, member execution merge | semilattice laws, permutation invariance |
| C10 | action packing | finite domain lifted by arithmetic; `!=` refuted |
| C11-C13 | file_cache::entry over two files (plain, compressed) with an abstract compressor | invariant over operations; crash points as prefixes of the syscall list; C13 refuted |
| C14, C15 | task_queue circular buffer with mark | refinement to a list (deque) |
| C16, C17 | scheduler counters as a transition system over events | invariant by induction over the event list |
| C18 | wait/suspend/resume with slots | transition system, invariant |
| C19 | push_phase/pop_phase over the list of queues | refinement |
| C20-C23 | run_phase_mutex: counters, phase, holders and waiters per thread | transition system with atomic critical sections (the code holds one mutex), invariant |
| C24-C26 | per-target task count with CAS loop | transition system over any number of threads, invariant |
| C27 | to_stream quoting, the lexer (all modes except foreign), parse_names for literal names, string conversion | round trip by induction on strings and lists of names |
| C28 | name::compare | lexicographic order |
| C29 | split_name / combine_name with index arithmetic | round trip |
| C30-C32 | json_value compare, append, prepend | nested induction; exact arithmetic mod 2^64; refutations where the code differs from its documentation |
| C33 | the recursive descent evaluator over tokens with pre-parse mode | equivalence with the syntax tree semantics for every printed tree |
| C34, C35, C46 | scope chain, lookup_original, lookup_override_info, override cache | specification by first match / fold; cache by an invariant that relates entries to earlier lookups; not transparent in general: refuted |
| C36 | pattern ordering and match_pattern | the comparison is not a strict weak order: refuted; positive part proved |
| C37, C47 | integer conversion, to_string, integer_sequence | numerals specified inductively; digit tables checked for all bytes; loop as an inductive relation |
| C38 | save_config_variable, save_variable, save_module, find_variable, save_config (ConfModel.v) | last applicable rule by induction over the rules; uniqueness of variables by an invariant of the module map (each variable is in its longest enclosing module); outcomes for one variable by case analysis against a separately written table; order by stable sorting |
| C39 | execute_prerequisites decision | characterisation |
| C40 | shard_size (ShardModel.v, without overflow) | correctness of the primality loop and infinitude of primes, with the number theory of the standard library |
| C41 | file cache entry destruction | invariant over operations |
| C42, C43 | scheduler events of C16 with wakeups | invariant over events |
| C44 | sub-phases in run_phase_mutex | invariant over disciplined schedules; refuted without the discipline |
| C45 | the lexer of C27 | case analysis over modes, progress of the inner loops |
| C48, C49 | pre_parse_line and the functions it calls, exec_lines (FlowModel.v), std_path (CmdModel.v) | structured programs as a separate syntax with a big-step semantics; pre-parsing and execution are shown sound and complete by induction over steps and derivations; indexes by invariants of derivations |
| C50 | run_expr (CmdModel.v) | recursive specification over left-nested expressions, induction |
| C51, C52, C53 | the C/C++ lexer and checksum (CcModel.v) | a grammar of sources (tokens, comments, line splices, directives) independent of the lexer; soundness by a representation invariant of the scanner, injectivity of what is hashed by where a token can be cut, completeness by induction over the grammar |
| C54 | the parser of module declarations and imports (UnitModel.v) | a grammar of declarations; parsing is equivalent to reading by it and then interpreting the list of declarations; the tokens are any that the lexer of C51 returns |
| C55 | the substitution of the in rule (InModel.v) | a grammar of a line for either mode, the values of names and the lines of a file; processing a file is equivalent to reading by it; refuted: doubling escapes any text, any pair with a name is a substitution in the lax mode |
| C56 | the update of the in rule with its database (InModel.v, over DepdbModel.v) | an invariant over any history of edits, removals, updates with any values and interrupted updates: what the database has been written for; the refinement of the database is that of C01-C04; hashes are a parameter that tells the values used apart |
| C57 | the update of targets with ad hoc recipes in any order, over the database of DepdbModel.v (GraphModel.v) | an invariant over the steps of a run (what a target that is done and one that is not are known to be) and over histories; the contents of a build from scratch are defined inductively over the graph; C57_interrupted_refuted by a witness for recipes killed while writing |
| C58 | overload resolution of function calls and the lookup of families (FuncModel.v) | the overloads of the best rank so far as an invariant of the loop; ranks related to an inductive definition of how an argument matches a parameter |
| C59 | registration of rules, rule hints, recipes and the search for a rule (RuleModel.v) | the nested loops flattened into a list of places that is sorted by preference; the first place with a match; induction over groups |
| C60 | the same with a rule to skip (RuleModel.v) | the same; false in one case, shown by a witness |
| C61 | threads matching targets with their stacks of locks, the queue being any, as a transition system (CycModel.v) | invariants over all schedules (each lock has the lock below as a dependent), pigeonhole for deadlocks, a measure for termination |
| C62 | the map of scopes with parents and roots (ScopeModel.v) | an invariant over all sequences of insertions, in terms of innermost and nearest directories |
| C63 | the set of targets with threads finding, inserting and setting extensions (TsetModel.v) | every locked section is a step; refinement of a sequential specification, from which the rest follows |
| C64 | the arguments, the list of ranges and the traversal of the graph of libraries (LibModel.v) | the arguments are a list of blocks, one for each thing linked; for each library in progress what follows it is kept; induction on the depth of the traversal |
| C65 | the database of headers, runs of the preprocessor with and without support for generated headers, updates of headers by this and other threads, restarts (HdrModel.v) | everything that has been processed is up to date and is a prefix of what a build from scratch includes, so it is read again the same; a header that need not cause a restart was read after its last update; the measure is the number of headers left and the mode |
| C66 | the filesystem, creating and removing directories, copying of files, resolution of install.* variables (InstModel.v) | the effect of each step on every path; uninstalling leaves every directory of a target removed, nonempty or locked, which later targets preserve or establish again; induction on the depth of what is left |
| C67 | the sequence of filters (InstModel.v) | the limit is one more than the longest directory included so far |
| C68 | parsing of if-else, switch, for, while, continue, break, directory scopes and skipping of blocks, line by line (CtlModel.v) | printing a program and parsing it is related to its big-step semantics (CtlSpec.v) in both directions: induction on the limit of calls and on derivations |
| C69 | expansion of name patterns: amendment by target types, search results, inclusion and exclusion, reversal of the amendment (GlobModel.v) | what is included and not excluded after that, in which order, and what each resulting name denotes (GlobSpec.v); invariant of the accumulation by induction on the patterns, names through C29 |
| C70 | the loop over meta-operations and operations of a buildspec: lifting, contexts, bootstrap checks, pre- and post-operations, callbacks (RunModel.v) | the plan of a buildspec (which jobs it stands for) and events of each job (RunSpec.v); invariants by induction on targets, operations and iterations |
| C71 | parsing of buildspecs from names and tokens: names, calls, parameters, merging of nested buildspecs (BspecModel.v) | a grammar with a printer and the meaning of what is printed (BspecSpec.v); soundness and completeness of the parser by induction on fuel, joining of adjacent operations without a name as a fold |
| C72 | selection of targets, aliases and tests with config.test (FiltModel.v) | what an entry asks for as prefixes of paths (FiltSpec.v); loops with a sticky result by induction on how entries are written |
| C73 | execution of scopes of testscripts by any number of threads (TscrModel.v) | a serial execution and an order of events (TscrSpec.v); what is left to do is kept by every step up to reordering, a measure for termination, induction on executions |
| C74 | clean of files, groups and directories, in any order that counts of dependents allow (CleanModel.v) | what stays is an inductive predicate on paths (CleanSpec.v); invariants of counts and of the effects of executed operations, induction on executions |
| C75 | conversion of names to values of every type and back (TypedModel.v) | the values of each type are an inductive predicate (TypedSpec.v); an invariant of operations, then conversion is inverted type by type |
| C76 | the same | histories of assignments, appends and prepends are compared with one assignment of all names; extensionality of sorted lists |
| C77 | perform_execute, execute_async, execute_complete and the members loops with keep going and post hoc prerequisites as a small-step relation over any acyclic graph and any schedule (KeepModel.v) | what can be executed and with which result is an inductive predicate (KeepSpec.v); invariants, induction on rank, a decreasing measure |
| C78 | what is saved in the dependency database for ad hoc recipes, collecting variables when pre-parsing, looking them up when executing (TrackModel.v, with the flow control of FlowModel.v) | equal lines imply the same execution (TrackSpec.v says for which recipes, the refuted theorems why only for these); what is hashed is injective on plain values, collected variables cover expressions, execution only depends on them |
| C79 | search of prerequisites by any number of threads, step by step (existing target in out, in src, existing file, new target), over the set of targets (SearchModel.v) | the target a prerequisite should be resolved to as an inductive relation over the declared targets and files only (SearchSpec.v); invariant: what others insert is what their prerequisites should be resolved to and never comes before |
| C80 | the decision of the test rule about a target, and performing its testscripts as a small-step machine with synchronous and asynchronous execution over a shared working directory (TruleModel.v) | kinds of tests and the scripts to be run, declaratively (TruleSpec.v); invariants about what is started and why each entry of the working directory is there |
| C81 | locating the roots, the bases and the buildfile of a target on the command line, over a file system given by predicates (ProjModel.v) | enclosing directories, the innermost one (ProjSpec.v); induction over the directory |
| C82 | a compilation database as a machine of calls with the file as text (CdbModel.v) | entries after a session and a history of sessions and of builds (CdbSpec.v); an invariant for each entry, induction over calls |
| C83 | importation: subprojects, amalgamation, search and loading with the cache (ImpModel.v) | what a directory has, which root is the nearest, the project in a directory (ImpSpec.v); induction over listings, chains and histories of imports with an invariant for the cache |
| C84 | cleanups of scripts: registration by redirects, builtins and explicitly, moving, removal at the end of a scope (UndoModel.v) | trees, what a cleanup covers, scripts that only create and move (UndoSpec.v); induction over commands with an invariant that cleanups are of exactly what is new, a directory before what is in it |
| C85 | distribution: matching with postponed prerequisites in any order, collecting, placing, copying; the bootstrap mode (DistModel.v) | targets reached and declared, what is included, files in a directory (DistSpec.v); an invariant over steps of matching with a well-founded measure, mutual induction for completeness, induction over files and levels |
| C86 | the prefix map, options, pairs of include directories and the resolution of a header to a target (PfxModel.v) | which prefix an include directory leads to and at what distance, the nearest and first one (PfxSpec.v); entries of each prefix after each insertion, induction over include directories |
| C87 | backlinks: which there are, updating, removal on failure and cleaning, on a file system with inodes and symbolic links (BackModel.v) | what is at a link, what the values mean (BackSpec.v); an invariant of the file system under updating of each link, induction over links |
| C88 | pattern rules: joining of patterns and of names, regular expressions, substitutions (RxModel.v) | each name against its own pattern (RxSpec.v); reading of a joined expression is simulated by reading of each, names are separated by a character that is not in them |
| C89 | checking of the output of script commands: reading of here-strings and here-documents, expressions over lines, the pool of lines (OutModel.v) | languages of lines and how expressions are written (OutSpec.v); reading of what is written is by induction over expressions, equality of numbers in the pool is that of lines |
| C90 | loading of modules: search for libraries, booting, init() in scopes (modules are programs that ask for others), loading of projects; a log of calls (ModModel.v) | what is true of each call given the calls before it (ModSpec.v); an invariant of libraries, modules of projects and variables, by induction over nested calls; a rank of modules for those that don't ask for themselves |
| C91 | here-documents: tokens of lines, the first stage with the fix up of indentation, replaying with expansion (HereModel.v) | documents as lines without tokens: end line, lines without indentation, values, text (HereSpec.v); the two stages are followed line by line, all outcomes characterized |
| C92 | paths and times of targets: the steps of any number of threads that set and query them, an arbitrary schedule, a log of what calls return (PathModel.v) | what calls find, now and later (PathSpec.v); an invariant of the state of the path, the thread that writes it and the log, by induction over the schedule |

Properties are appended as the model grows; `MANIFEST.json` is the current
list of theorems.

## Trusted base

* The kernel of Coq 8.16.1, including `vm_compute` where a proof uses it.
* `Print Assumptions` says "Closed under the global context" for every theorem
  in `MANIFEST.json`: no axioms are used, neither own nor of the standard
  library. (Loading the standard library's `Lia` also loads the module
  `Coq.ssr.ssrunder`, which declares seven parameters of a module type:
  `Under_rel`, `Under_rel_from_rel`, `Under_relE`, `over_rel`, `over_rel_done`,
  `under_rel_done`, `Over_rel`. They are loaded but no theorem depends on them.)
* Only the standard library is used: lists, arithmetic, `Permutation`, `Sorted`,
  `Znumtheory`, `Factorial` and the tactics `lia` and `nia`.
* The reading of the C++ code: the model is a transcription, the code is not
  run. Each definition cites what it models and says what it leaves out.
* Behaviour of what is not part of the repository: the C++ library (mutexes,
  condition variables, atomics are sequentially consistent in the model;
  `stoull()`, `to_string()`), libbutl (paths, streams, `path_match()`,
  `prefix_map`, character scanner) and LZ4. It is either written into the model,
  as said in the comments, or is a parameter of the theorems.

## What is and what is not modelled

| files of the model | code | left out |
|----|----|----|
| Depdb* | libbuild2/depdb.{hxx,ixx,cxx}: all operations, buffered output and crash images | I/O errors, diagnostics, mtime check of close() on FreeBSD |
| Make* | libbuild2/make-parser.{hxx,cxx} and its callers' loop | Windows drive letters, construction of paths |
| Exec* | libbuild2/target-state.hxx, action.hxx, algorithm.cxx (execute_members, execute_prerequisites) | the rules themselves (oracles) |
| Cache* | libbuild2/file-cache.{hxx,ixx,cxx} | permissions, traces, LZ4 (a parameter) |
| Queue* | libbuild2/scheduler.{hxx,ixx,txx,cxx}: task queues, marks, sub-phases | shutdown flag, statistics, monitor |
| Sched* | libbuild2/scheduler.cxx: thread counters, activate, deactivate, helper, jobserver accounting | tasks, statistics, monitor, the jobserver's pipe |
| Wait* | libbuild2/scheduler.cxx: wait, suspend, resume | thread counters (Sched*) |
| Phase* | libbuild2/context.{hxx,cxx}: run_phase_mutex | contention statistics |
| Tgt* | libbuild2/algorithm.cxx: lock_impl, unlock_impl, match_impl_impl, execute_impl, execute_direct_impl | rules, dependency cycles detection via lock stack, several actions at a time |
| Lex* | libbuild2/lexer.{hxx,cxx} | foreign mode, locations |
| Name*, Names* | libbuild2/name.{hxx,cxx}, parser.cxx (parse_names for literals), variable.cxx (string conversion) | expansions, patterns, crosses: the model gives up |
| Split* | libbuild2/target.cxx: split_name, combine_name | |
| Json* | libbuild2/json.{hxx,cxx}: compare, append, prepend | parsing, serialization |
| Eval* | libbuild2/parser.cxx: evaluation contexts | what is inside operands |
| Var*, Ovr* | libbuild2/scope.cxx, target.cxx, variable.{cxx,txx}: lookup, overrides, cache | rule-specific variables, aliases, typification |
| Vpat* | libbuild2/variable.{hxx,cxx}: variable patterns | |
| Int* | libbuild2/variable.cxx, functions-integer.cxx | |
| Conf* | libbuild2/config/operation.cxx, module.{hxx,cxx}: saving configuration | text of the file, save_environment, loading |
| Shard* | libbuild2/scheduler.cxx: shard_size | overflow |
| Flow* | libbuild2/build/script/parser.cxx: flow control when pre-parsing; libbuild2/script/parser.cxx: exec_lines | parsing of lines, depdb preamble, diag; testscript's own pre-parser |
| Cmd* | libbuild2/script/run.cxx: run_expr, std_path | run_pipe (oracle) |
| Cc* | libbuild2/cc/lexer.{hxx,cxx} | columns, buffer scanning (done character by character), the hash function (what is hashed is the result); files of tokens |
| Unit* | libbuild2/cc/parser.{hxx,cxx} | diagnostics; the tokens are all read in advance, so what the checksum is after an extraneous closing brace is not modelled |
| In* | libbuild2/in/rule.{hxx,cxx}: process, substitute, lookup, replace_newlines, perform_update | derived rules and their flags; how the settings and variables are looked up and converted; I/O errors, permissions, Windows; modification times are those of a clock that advances between any two changes, and .in files are not replaced by older ones or changed during an update; strtoull() of the recorded line number |
| Graph* | libbuild2/adhoc-rule-buildscript.cxx: perform_update_file_or_group, execute_update_prerequisites, execute_update_file (removing the output if the recipe fails); target.ixx: mtime_target::newer; depdb::close for times | groups and ad hoc members, symlinks, dry-run, the depdb preamble, dynamic dependencies, unmatched prerequisites and those updated during match; recipes are functions of the contents of their prerequisites and of what is hashed; a run is later than everything before it (times in a run can be equal), sources are not edited during a run and generated files are not edited at all; the time of an updated target is that of its file; deciding for one target is a single step: the modification times of its prerequisites do not change after they are done |
| Func* | libbuild2/function.cxx: function_map::call (overload resolution and reversal to untyped), function_map::defined | what functions do, diagnostics, registration (function_family); value types are compared by name and bases rather than by address |
| Rule* | libbuild2/algorithm.cxx: match_rule_impl, match_adhoc_recipe; libbuild2/rule-map.hxx; libbuild2/target.ixx: rule_hints, target::find_hint; libbuild2/action.hxx: action | what rules match (an oracle without side effects), match_extra, the project environment, diagnostics; the order of names in the prefix map is any permutation |
| Cyc* | libbuild2/algorithm.cxx: lock_impl, match_impl, match_prerequisite_range; libbuild2/algorithm.ixx: dependency_cycle, match_sync, match_async, match_complete; libbuild2/context.ixx: wait_guard | groups, match options, phase switching (see Phase*), matching of targets other than prerequisites, queue sizes (a task can be queued or not at any time) |
| Scope* | libbuild2/scope.cxx: scope_map; libbuild2/scope.ixx: root_scope, weak_scope, sub_root, parent_scope | the prefix map (libbutl; a sorted list of keys), names of directories (numbers), normalization, src path conflicts, root_extra; strong and bundle scopes |
| Tset* | libbuild2/target.cxx: target_set::find, insert_locked, target::ext; libbuild2/target-key.hxx: operator== | the hash table (any equal key), types, directories and names (a number), implied and prerequisite declarations (a flag), what is read of a target without the lock |
| Lib* | libbuild2/cc/link-rule.hxx: appended_libraries; libbuild2/cc/link-rule.cxx: append_libraries, perform_update (the loop over prerequisites); libbuild2/cc/common.cxx: process_libraries_impl; libbuild2/cc/functions.cxx: lib_libs | linking to a static library, looking up *.export.libs and resolving names to targets, timestamps, whole archive options, the cache of resolved libraries |
| Hdr* | libbuild2/cc/compile-rule.cxx: extract_headers from 3780; libbuild2/dyndep.cxx: inject_file; libbuild2/algorithm.cxx: update_during_match | MSVC, modules and header units, mapping of paths (prefixes, src to out), parsing of make dependencies, the preprocessed output; the clock never goes back and a file is not older than its update |
| Inst* | libbuild2/install/rule.cxx: resolve, install_d/f/l, uninstall_d/f/l, perform_install, perform_uninstall; libbuild2/install/utility.cxx: filter_entry | modes, owners and sudo, installation manifest, symlinks are just files, what targets to install, matching of wildcards (libbutl); a simple name never matches a directory; config.install.relocatable |
| Ctl* | libbuild2/parser.cxx: parse_clause, parse_clause_block, parse_if_else, parse_switch, parse_for, parse_while, skip_line, skip_block | evaluation of values, other directives, what a declaration does (parameters); if-else and switch of recipes; attributes; lexing of skipped lines |
| Glob* | libbuild2/parser.cxx: expand_name_pattern; libbuild2/target.txx: target_pattern_fix, target_pattern_var; libbuild2/target.cxx: dir_pattern, buildfile_target_pattern, buildscript_target_pattern | searching and matching paths (parameters with what is expected of them stated); start directory, splicing; dangling symlinks |
| Run* | b/b.cxx: main () (the loop over the buildspec) | roots, bases and buildfiles of targets, pre-processing of the buildspec by meta-operations, checks of parameters, dumping, --load-only, --match-only; what projects support is a parameter |
| Bspec* | libbuild2/parser.cxx: parse_buildspec, parse_buildspec_clause | how names and values are lexed and parsed, value chunks, expansion of names, locations |
| Filt* | libbuild2/test/common.cxx: sense, pass, test | search_existing () is a parameter, timeouts |
| Tscr* | libbuild2/test/script/parser.cxx: execute, exec_scope_body; test/script/script.hxx: empty; runner.cxx: enter, leave (that they succeed or fail) | commands (see C48), variables, timeouts, test runners, cleanups |
| Clean* | libbuild2/algorithm.cxx: clean_extra, perform_clean_extra, perform_clean_group_extra, reverse_execute_members; rule.cxx: fsdir_rule::perform_clean; filesystem.txx: rmfile, rmdir; filesystem.cxx: rmdir_r | target states, diagnostics, dry run, symbolic links, matching |
| Typed* | libbuild2/variable.{hxx,ixx,txx,cxx}: value_traits of bool, int64, uint64, string, path, dir_path, name, project_name, name_pair, process_path(_ex); vectors, sets, vectors of pairs and maps of them; typify, untypify, compare | abs_dir_path, target_triplet, cmdline, json, diagnostics; paths of libbutl are parameters |
| Keep* | libbuild2/operation.cxx: perform_execute; libbuild2/algorithm.{cxx,ixx}: execute_impl, execute_async, execute_complete, straight_execute_members; target.ixx: executed_state_impl | the last mode (Count, Clean), threads (Sched, Wait), match, backlinks, callbacks, dry run, update during load, progress |
| Track* | libbuild2/adhoc-rule-buildscript.cxx: hash_script_vars, hash_target, perform_update_file_or_group (up to executing); build/script/parser.cxx: pre_parse, parse_program (depdb), lookup_variable, lookup_function, exec_depdb_preamble, execute_body; build/script/script.cxx: set_special_variables, lookup, append | the syntax of expressions, groups, dynamic dependencies, the diag builtin and deducing the name, checksums of programs and environments |
| Search* | libbuild2/search.cxx: search_existing_target, search_existing_file, create_new_target; algorithm.cxx: search; target.cxx: target_search, file_search, alias_search | dir_search, imports, fixed extensions, search_new (used by rules), steps within target_set (Tset) |
| Trule* | libbuild2/test/rule.cxx: rule::apply, perform_script, perform_script_impl; test/script/runner.cxx: enter, leave; filesystem.cxx: mkdir_buildignore, rmdir_buildignore, rmdir_r | perform_test, backlinks, syntax version, errors of the file system, timeouts |
| Proj* | b/b.cxx: main 1090-1360, 1581-1615; libbuild2/file.cxx: exists, find_src_root, find_out_root, find_buildfile, find_plausible_buildfile, create_root, bootstrap_fwd, bootstrap_out | sourcing of the bootstrap files, discovery of subprojects, remapping of src_root in subprojects |
| Cdb* | libbuild2/cc/compiledb.cxx: filter, compiledb_file, compiledb_stdout; its use in libbuild2/cc/compile-rule.cxx: apply, perform_update | serialization of an entry, input/output errors |
| Imp* | libbuild2/file.cxx: find_subprojects, bootstrap_src (amalgamation, subprojects), import_search, import_load; libbuild2/context.hxx: import_cache | metadata, exemplar contexts, importation of buildfiles, bootstrap and export files |
| Undo* | libbuild2/script/script.cxx: environment::clean; libbuild2/script/run.cxx: clean, registration by commands, redirects and builtins; libbuild2/test/script/runner.cxx: enter, leave | symbolic links, the matching of patterns (a parameter), registration of special files, the .buildignore file of the root directory |
| Dist* | libbuild2/dist/rule.cxx: rule::apply, match_postponed; libbuild2/dist/operation.cxx: add_subdir, dist_project, install | post hoc prerequisites, other rules (what they enter is a parameter), callbacks, archives, checksums, permissions |
| Pfx* | libbuild2/dyndep.cxx: append_prefix, srcout_builder::next, enter_file_impl; libbuild2/cc/compile-rule.cxx: append_prefixes, build_prefix_map | prefix maps of libbutl (as documented), the mapping of extensions to types (a parameter), order of libraries |
| Back* | libbuild2/algorithm.cxx: update_backlink, try_rmbacklink, clean_backlink, backlink_test, backlink_collect, backlink_update_post, backlink_clean_pre, execute_impl | directories as members, timestamps, diagnostics; functions of libbutl as documented |
| Rx* | libbuild2/adhoc-rule-regex-pattern.cxx; target_key::effective_name, find_adhoc_member | explicit groups (group.members), extensions split from substituted names; of ECMAScript: assertions, lazy and bounded quantifiers, named classes; which of the possible matches is found |
| Out* | libbuild2/script/run.cxx: transform, check_output; libbuild2/script/regex.cxx: line_char, transform; libbuild2/script/parser.cxx: parse_regex, add_here_str_regex, parse_here_document (after expansion) | std::regex over characters (a parameter), the diff utility (a parameter); of operators over lines: bounded quantifiers, references and assertions; diagnostics, input/output errors |
| Mod* | libbuild2/module.cxx: find_module, boot_module, boot_post_module, init_module, load_module; libbuild2/file.cxx: load_root (modules), bootstrap_post; libbuild2/parser.cxx: parse_using (as programs) | how a library is found, built and loaded (import_module: a parameter, one answer for a project and module), module instances, hints, locations, locks, hooks; loading of other projects by a module is before or after it rather than in the course of it |
| Here* | libbuild2/script/parser.cxx: parse_here_documents, parse_here_document; libbuild2/script/lexer.cxx: modes here_line_single, here_line_double; libbuild2/parser.cxx: next, peek, replay (of these tokens) | escape sequences (as already undone), expansions that span lines, typed concatenation, sharing of a document by redirects, regex lines (see Out*), text after the last newline of the script; the names an expansion yields are a parameter |
| Path* | libbuild2/target.ixx: path_target::path (both), path_mtime, load_mtime, mtime_target::mtime (set), load_mtime | the memory orders of atomic operations (sequentially consistent here), times of groups, phases, the type of the file in load_mtime; the time of a file is a parameter |

The rest of the code (rules, compilers, import, install, dist, test scripts,
etc.) is not modelled.

## Findings

What follows is false of the code as modelled, with the theorem that shows it
(usually by an example). Where there is none, this was noticed when reading.

Dependency database:

* skip() judges the valid database "1\na\n\n\0" invalid though read() accepts
  it: after an empty last line it looks at the wrong newline.
* write() or mark as the first operation on a valid database overwrites the
  version line.
* After a successful skip(), a mismatch in expect() (or close_to_reopen() and
  reopening) writes after the end marker, so the new lines are lost.

Make parser:

* `strchr (escapable, c)` also matches NUL.

Actions:

* `operator!= (action_id, action)` returns equality.

File cache:

* A crash (or failure) in the middle of decompression leaves a partial
  uncompressed file, which the next run trusts; it also removes the good
  compressed one.
* compress() divides by zero when tracing an empty file.

Scheduler:

* A stale restored mark after a synchronous execution hides the owner's tasks
  from other threads.
* Two deactivations in a row with one ready thread leave spare capacity unused
  while tasks are queued (C42_spare_capacity_is_used_refuted).

Phase mutex:

* unlock() does not pop or push the sub-phase on the way from execute to load
  and back (C44_subphases_balanced_refuted). The callers avoid this.

Targets:

* Which target a name without an extension refers to depends on which of the
  targets with an extension has been entered first, and with several of them it
  is whichever the hash table gives (C63_meaning_refuted).
* Entering a target of a type with a fixed extension with another extension
  gives the fixed one, but finding it with that other extension doesn't.
* An asynchronous match that fails to switch the phase leaves the target busy
  (C26_everyone_resumed_refuted).
* A failed re-match after apply changes the state to failed, so that those who
  depended on it before hit an assertion (C24_no_assertion_refuted).

Names and lexer:

* An empty name with a project (foo%) is printed as '' when quoted.
* An untyped name with a directory and a value, and also '%' in a directory or a
  string, even quoted, are read back differently; so is "\r\n".
* `foo\<newline><newline>` swallows the second newline, unlike the same with a
  space before the backslash (C45_line_continuation_refuted).
* The name foo..bar.. (trailing dot and another escaped dot) is combined so that it
  splits differently (C29_trailing_dot_refuted).

JSON values:

* Objects with absent members compare contrary to the documentation.
* Appending numbers ignores that the right hand side is a signed hexadecimal
  number; overflows wrap or are undefined.
* Prepending several new members to an object reverses their order.
* "-" and "+" alone are taken for decimal numbers.

Evaluation contexts:

* After short-circuiting, the result of `||` and `&&` is the left operand as is,
  not converted to bool.

Variables:

* A target- or group-specific NULL value is ignored (C34_null_of_target_refuted).
* Target type/pattern-specific variables with the same pattern but a different
  extension matching flag share the entry.
* A prepend/append override with its stem in the global scope dereferences a null
  pointer (C35_defined_refuted); the location for targets does not fit the depth
  (C35_place_of_target_refuted); scope-specific affixes may be lost depending on
  the order on the command line (C35_scope_order_refuted).
* The override cache is not transparent (C46_cache_refuted,
  C46_cache_patterns_refuted).
* Order of variable patterns is not a strict weak order, so `a.**` may win over
  `a.*` (C36_star_refuted); existing unqualified variables are matched by `*`
  (C36_retro_unqualified_refuted).

Integers:

* $integer_sequence() may go on forever because of an overflow
  (C47_sequence_refuted) and divides by zero if the step is zero
  (C47_zero_step_refuted). The base passed to $string() is truncated.

Configuration:

* If a module is registered after a variable it includes, the variable may be
  saved twice (C38_saved_once_in_any_order_refuted).
* Dropping an unused variable that is also overridden is warned about twice
  (C38_warned_once_refuted).
* Configuring a subproject with a global override of
  config.config.environment fails if the outer project is not being configured
  (C38_base_refuted).
* A variable that is registered in the outer project as not to be saved still
  counts as used by it, so that the value may be lost.

Scripts:

* Line indexes depend on the branches taken, since null/empty conditions are
  counted when skipped but not when evaluated, and the first elif is not counted
  if its if is taken. As a result, commands of different lines can have the same
  iteration and line indexes and so the same stream files (C49_unique_refuted).

C/C++ lexer:

* The end of a directive is not hashed, so that moving tokens in or out of the
  directive (with a line splice or a multi-line comment) does not change the
  checksum (C52_directive_refuted, C52_directive_comment_refuted).
* The file of a line directive is hashed without a separator: `#line 2 "foo"`
  hashes the same as `#linefoo`.
* Line 0 of a line directive wraps around.
* The comment in next() says that the initial path is hashed in the constructor
  but it is not.
* The column is 1 after a line splice, so that `import` there is taken for the
  first on the line.
* With a line directive in effect, the line of '/' and '.' that are followed by a
  line splice is that after the splice.

C/C++ modules:

* `import m:p;` is taken for the import of m though the comment says that it is
  invalid: the partition is skipped as an attribute.
* The closing angle bracket of an imported header may be on the next line.
* At an extraneous closing brace parsing stops, so that imports after it are not
  seen, and the checksum covers only what precedes it (there is a warning and
  the compiler is expected to fail).

The in rule:

* The manual says that in the strict mode the double substitution symbol is an
  escape sequence. `$$$$` is not two escaped symbols: it is the substitution of a
  variable named `$` and `$$$` is unterminated. Likewise `$a$$b$` is the
  substitution of a variable named `a$b` (in/rule.cxx:507-518): C55_escape_refuted,
  ex_adjacent. With no two symbols next to each other doubling works (C55_escape).
* The manual says that in the lax mode a pair of symbols with what looks like a
  variable name between them is a substitution. Pairs are taken from the left, so
  in `a@b and @v@` nothing is substituted (C55_lax_refuted).
* An empty .in file results in a file with a newline (ex_empty of InProps.v).

Targets with ad hoc recipes:

* If build2 is killed while a recipe is writing its output, then the next run can
  take the incomplete output for up to date. The database is closed before the
  recipe is executed (adhoc-rule-buildscript.cxx:2003) so the incomplete output is
  newer than both the database and the prerequisites. The output is removed if the
  recipe fails (auto_rmfile) but not if the process is killed: C57_interrupted_refuted.

Function calls:

* function_map::call () asserts that there is a type entry for each argument before
  it makes some of them untyped. This does not hold for a function with a variable
  number of arguments or with fewer entries than parameters (both documented as
  supported) if an argument is matched as untyped: C58_total_refuted. Only tests
  have such functions now.

Matching rules:

* A rule to skip (delegation, match_rule_impl ()) is skipped when looking for the
  first rule that matches but not in the ambiguity test that follows
  (algorithm.cxx:877-914). If the rule that delegates and another rule match in the
  same place, then the match is ambiguous if the name of the other one is before
  and is the other one if it is after: C60_delegate_refuted.
* operator!= (action_id, action) returns the result of == (action.hxx:112):
  C59_action_ne_refuted. It is not used now.

Linking:

- `C64_undefined_refuted`: for a library that exports link options and is linked as a whole archive the
  options callback opens an entry (`begin` is known, `end` is `npos`) that the library callback, which does
  not track whole archives, never closes. If a library added before it is then moved, `end` becomes
  `npos - n`, and if the library is later also linked normally, it is taken as closed and the rotation has
  iterators out of range (link-rule.cxx:2544-2566 and 2769-2811, link-rule.hxx:178-204).
- `C64_undefined_without_refuted`: the same for `$cc.lib_libs()` with several libraries and `self` being
  false: the options callback is called for the libraries themselves but the library callback isn't.
- `C64_order_hashed_refuted`: arguments are hashed in the order they are first added, before they are moved,
  so adding or removing a dependency between two libraries that are already linked changes the command line
  but not the hash, and the target isn't linked again because of it.

Compiling:

- `C65_stale_error_refuted`: if an outdated generated header causes an error and the compiler reports no headers
  in this case, then the build fails until the header is updated or removed, while it succeeds from scratch. The
  code is aware of it (compile-rule.cxx:4853-4868) and relies on the compiler.

Installing:

- `C67_negated_refuted`: with the filter from the manual, `! include/@false "*.a"@false`, the library is included
  but its directory is not (it has no name to match and the default is to exclude). If it does not exist, then
  `install libfoo.a /usr/lib` makes a *file* called `lib`. The same happens with `include/foo.h@true include/@false`
  (utility.cxx:42-295, rule.cxx:1022 and 1110).
- `C67_left_refuted`: with the other filter from the manual, `include/x86_64-linux-gnu/@true ... include/@false`,
  the excluded `include` is created implicitly but is never removed.
- `C66_named_refuted`: if the name of a file is that of an existing directory (say, a missing trailing slash in
  `install = share/doc`), then it is installed inside and is not removed when uninstalling (rule.cxx:1123-1127).
- `C66_order_refuted`: if the directory of a target is absolute and is inside one of another target, then
  whether empty directories are left depends on the order of targets.
- `C66_parent_refuted`: with `config.install.chroot` and `..` in a directory, uninstalling what isn't installed
  goes from the root to an empty directory and fails an assertion (rule.cxx:1395).
- `C66_cycle_refuted`: a cycle of `install.*` variables is an endless recursion (there is a TODO).

Flow control:

- `C68_nested_refuted`: in `if false`, `if true`, `print x`, each on its own line, only the line `if true` is
  skipped and `print x` is executed; if the first condition holds, then it is the body of the second (parser.cxx:5507-5520).
- `C68_recipe_refuted`: a `}` on a line of its own in a recipe, such as that of `if (x) {` in C++, ends an enclosing
  block that is skipped (or is the body of a loop) but not one that is executed (parser.cxx:10210-10238).

Name patterns:

- `C69_trailing_dot_refuted`: `cxx{*.cxx}` when there is a file `foo..cxx` fails an assertion in combine_name (), while
  `cxx{*}` gives `cxx{foo..}`, which is the file `foo.` (parser.cxx:8318-8343).
- `C69_values_refuted`: the result of a pattern that is not for targets has its dots escaped as well: `x = *.txt` when
  there is a file `a..b.txt` gives `a....b.txt` (parser.cxx:8343).
- `C69_special_refuted`: `buildfile{*/buildfile}` looks for `*/buildfile.build` since the pattern function compares the
  pattern with the directory to the special name, and `buildfile.build` found by `buildfile{*}` becomes
  `buildfile{buildfile}`, which is the file `buildfile` (target.cxx:1889-1893).
- `C69_specific_refuted`: with `cxx{*-foo}: extension = cc`, `cxx{*}` still looks for `*.cxx` and the resulting
  `cxx{a-foo}` is the file `a-foo.cc` (target.txx:111-114).

Buildspecs:

- `C70_hidden_refuted`: names of meta-operations are looked up in tables of the context, so a meta-operation that is
  defined by one project hides an operation of the same name of another project that is built by the same command
  (b.cxx:1005, 1031, 1377): `b update(a/) gen(b/)` fails with unknown meta-operation gen although each of the two succeeds.
- `C70_assertion_refuted`: with `b gen(b/ a/)` this is discovered on the second target and the assertion at b.cxx:1653 fails.
  `C70_executed` assumes that there are no such names (`Coherent`).

Selection of tests:

- `C72_value_refuted`: the value of an untyped name in config.test is ignored (common.cxx:137, 190), so `config.test=tests/foo`
  selects everything in and under `tests/`, and `config.test=foo@id` every target.
- `C72_union_refuted`: `config.test='tests/ tests/@id'` executes fewer tests than `config.test=tests/`.

Testscripts:

- `C73_skipped_refuted`: whether a group or a script is empty is decided by the first scope of every if-else chain, whatever its
  condition (script.hxx:258-273, 314-318), so a script that only has `if c` with an empty block and `else` with commands passes
  without executing anything.

Clean:

- `C74_member_refuted`: a dependency on the directory is only injected for the directory of a target, not for directories of members
  of its ad hoc group (algorithm.cxx:1910, adhoc-rule-buildscript.cxx:490), so depending on the schedule a directory with such a
  member is left behind.
- clean_extra() (algorithm.cxx:4593-4610) skips dashes but not in the length, so that as many bytes past the end of the suffix are
  appended to the path (not modelled).

Typed values:

- `C75_name_pair_refuted`: a name_pair with an empty first half is converted back to names as its second half only, which
  then becomes the first (variable.cxx, name_pair_reverse).
- `C76_map_prepend_refuted`: of repeated keys in names prepended to a map the first is kept since they are emplaced from left to right
  (variable.txx:1193-1214), while otherwise it is the last, as documented.
- `C76_pairs_prepend_refuted`: prepending to a vector of pairs appends (variable.txx:915).
- `C76_map_append_value_refuted`: value_traits<map>::append() inserts and so does not override existing values, and prepend() does,
  the opposite of what the comment in variable.hxx says and of what is done with names (variable.ixx:957-1002).

Keep going:

- `C77_ex_posthoc`: without keep going, the failure of a top-level target that is executed asynchronously is only discovered after the
  post hoc prerequisites have been executed (operation.cxx:904-912 tests fail before the states are re-examined); the result is still
  a failure, so no theorem is violated.

Tracking changes of ad hoc recipes (each theorem has two runs for which the same lines are saved, whatever the checksum function, but
whose executions differ):

- `C78_type_refuted`: the type of a value is not hashed (hash_script_vars, adhoc-rule-buildscript.cxx:29-58), but `$size()` depends on it.
- `C78_project_refuted`: to_checksum() of name (name.hxx:163-175) appends the project only if present and without a mark, so
  `p% v` and `p/ %v` are hashed the same.
- `C78_adhoc_refuted`: whether a prerequisite is ad hoc is not hashed (998-1015) but ad hoc ones are not in `$<` (script.cxx:95-115).
- `C78_unmatch_refuted`: update=unmatch prerequisites are in `$<` but are not hashed.
- `C78_function_refuted`: the name of a function is passed as empty to lookup_function() if computed (parser.cxx:9576-9744), and so an
  impure one is not diagnosed (build/script/parser.cxx:3801-3814), while a computed variable name is.
- `C78_append_refuted`: `x += ...` uses the value of x outside of the script but only expansions are collected.
- `C78_ex_rejected`: computed names and impure functions in the arguments of the last depdb builtin are diagnosed although all before
  it is allowed to have them, since the flags are reset before the arguments are parsed (1170-1190).

Searching for prerequisites (each theorem has two orders of the same searches with different results):

- `C79_absolute_refuted`: a prerequisite with an absolute directory in the out tree creates a target there if none is declared, which is
  then found instead of the source file by those that are relative.
- `C79_project_refuted`: a prerequisite that refers to another project with a relative directory creates a target in its out tree
  since search_existing_file() only looks in the project of the prerequisite, unless the project has already searched for its file.

Testing:

- `C80_same_name_refuted`: two testscripts of a target with the same name (from different directories) have the same working directory
  (`test-<target>/<name>`), so whether the test succeeds depends on whether they are executed at the same time.
- `C80_working_dir_refuted`: targets in the same directory that have the same name and differ in type (`exe{hello}` and `libs{hello}`)
  have the same working directory (`test-hello`).

Projects:

- `C81_ends_refuted`, `C81_directory_diverges`: with `--buildfile sub/x` where there is no such file in the directory of the target, the
  search does not end: `find_buildfile()` goes up from the directory of the file and not from the one searched, so it tries the same
  directory again (with more than one directory in the name it goes down).

Compilation databases:

- `C82_current_refuted`: if the command of an output has changed but it was not executed (something else has failed or only matching), then
  it has already been recorded in the dependency database. The next build compiles the output (the dependency database is newer) but tells
  the compilation database that nothing has changed, so `execute()` skips the entry: it stays with the old command until the next change.
- `C82_asserts_refuted`: in match-only mode, an output without an entry stays `missing` and the second operation that matches it fails an
  assertion.
- `C82_filter_refuted`: the input type filter `S` is that of `m{}` (a typo in compiledb.cxx 235).

Imports:

- `C83_cached_refuted`: the key of the cache of imports is the directory, the target without the project and the version of metadata. With
  `config.import.foo` and `config.import.bar` being the same amalgamation, `import bar%lib{x}` after `import foo%lib{x}` is that of `foo`.
  And with `config.import.foo` being the directory of `bar`, `import foo%lib{x}` is an error unless `bar%lib{x}` was imported before it.
- `C83_listed_refuted`: two directories listed in `subprojects` with the same name are accepted and the second is ignored
  (`sps.emplace()`), while two that are discovered are an error.
- `C83_amalgamated_refuted`: a project within a simple project within a project is amalgamated by the last one, unless the simple project
  has already been loaded, in which case it is not amalgamated at all.

Cleanups of scripts:

- `C84_moved_over_refuted`: `mv` of a directory over an existing empty one drops the cleanups of what is in it, while the documentation
  (testscript.cli, mv) says they become those of sub-paths of the destination. The test then fails in cleanup.
- `C84_moved_refuted`: `mv` to a path that has been registered and removed registers it twice and the second cleanup fails. Had the file
  been created there, it would be registered once.
- `C84_redirect_refuted`: a file created by `>+` is not registered, though files mentioned in redirects are said to be; and a file that was
  there before `>` is removed.
- `C84_wildcard_refuted`: the path of a created file is taken for a pattern if it has `*`, `?` or `[`, so that other files are removed.

Distributions:

- `C85_cycle_refuted`: in the bootstrap mode, a symbolic link to an enclosing directory ends the iteration over the directory it is in
  (`break` instead of going on with the next entry), so that the entries after it are not distributed.
- `C85_diverges_refuted`: the cycle is detected by names of the directories come through, which are not resolved. With `a/x` a link to `d`
  and `d/y` a link to `d` there is no end to `a/x/y/y/...`.
- `C85_postponed_refuted`: postponed prerequisites are retried once, in order (as a comment there says), so that whether matching fails
  depends on the order of prerequisites.
- `C85_same_place_refuted`: two files with the same place are an error unless `config.dist.cmd` is used, when one of them is lost.
- `C85_nested_refuted`: with out being a subdirectory of src all the outputs are taken for sources and distributed.

Generated headers:

- `C86_pairs_refuted`: `srcout_builder::next()` takes any directory below src_base for the counterpart of out_base if the difference is
  empty (`diff_.empty () || ...`, dyndep.cxx 377). With `-I$out_base -I$src_base/include` the existing file `include/config.h` in src is
  taken for `config.h` in out_base if the latter is a target.
- `C86_declared_refuted`: a header that is a declared target in one include directory is still taken for one to be created in another if
  the latter is for its prefix. This is as the comments there describe it.

Backlinks:

- `C87_directories_refuted`: `backlink_update_post()` creates only the directory of the first link (`bls.front ().path.directory ()`). For a
  group with members in different directories, one of which is not in src, the update fails, although each of the links can be made.

Pattern rules:

- `C88_alternatives_refuted`: patterns are joined with `/` as they are, without groups, and so an alternative that is not in a group spans names.
  With `exe{~'/foo|bar/'}: cxx{~'/(.+)/'}` the target `exe{foo}` is not matched whatever the prerequisite is. With `exe{~'/.+|foo/'}: cxx{~'/b/'}`
  any name of the prerequisite is accepted.
- `C88_invalid_refuted`: for the same reason patterns that are not valid, such as `(a` and `b)`, are accepted if they are together.
- `C88_other_prerequisites_refuted`: only the first prerequisite of the type is tried (noted in the code), so that the order of prerequisites matters.

Output of commands:

- `C89_empty_document_refuted`: a here-document without lines is a newline rather than nothing (it may be intended: the `:` modifier is for that), so
  that it is the same as one with a blank line.

Modules:

- `C90_load_refuted`: load_module without the optional argument returns a module that was loaded as optional before and isn't configured (module.cxx
  1055, there is a TODO on it).
- `C90_within_refuted`: a module that is asked for in the course of its own init() is initialized again, since the variable that is checked is set only
  after init().
- `C90_repeat_refuted`: if init() returns false for a module that isn't optional (which its description allows: install, dist) then the first using
  directive is fine and the second one, in the same scope, fails.
- Not modelled, seen in reading: load_root (file.cxx 1779) passes s.loc, which is in the vector of loaded modules, as the location for init(). If init()
  loads another module the vector may be reallocated and the location is left dangling. The comment there is on iterators only.

Here-documents:

- `C91_empty_refuted`: a here-document without lines is a newline, the same as one with a blank line, rather than empty (parser.cxx 2050; the modifier
  `:` makes both empty).
- `C91_spaces_refuted`: a line of spaces only is an error if it has fewer of them than the end marker; a blank line, which need not be indented, is one
  without any characters.

Paths of targets:

- `C92_time_stays_refuted`: load_mtime() loads the time, queries the file and stores the result without looking again. A time that another thread has
  set in between (for example the one that says the file is known to exist) is replaced by that of the file. The path does not have this problem.
- `C92_time_first_refuted`: with the time set before the path, which the comment in target.hxx 2260 suggests for empty paths, a thread can see the time
  and not find the path; path_mtime() has the right order.
