{"id": "C01", "title": "Commands start only after everything they depend on has finished", "statement": "In an update, a command is handed to a worker only when every node of the update graph that it depends on (directly or through files, groups and further commands) has already finished in this same update.", "quantifier": "every acyclic update graph, every number of jobs, every order in which workers finish, every pattern of command successes and failures, keep-going on or off", "why_tests_cant": "the number of interleavings of worker completions is unbounded and a test only observes one of them", "anchors": [{"file": "src/tup/updater.c", "symbols": ["execute_graph", "pop_node", "update_work"]}, {"file": "src/tup/graph.c", "symbols": ["remove_edge", "remove_node_internal"]}]}
{"id": "C02", "title": "Each command runs at most once, and all of them on success", "statement": "One update hands each command of the update graph to a worker at most once; if the update reports success, each one was handed over exactly once and none failed.", "quantifier": "every acyclic update graph, job count, completion order and failure pattern", "why_tests_cant": "must hold for every schedule", "anchors": [{"file": "src/tup/updater.c", "symbols": ["execute_graph", "pop_node"]}]}
{"id": "C03", "title": "Parallelism never exceeds the requested number of jobs", "statement": "At no moment of an update are more commands running than the number of jobs requested with -j / updater.num_jobs.", "quantifier": "every update graph, every schedule, every job count >= 1", "why_tests_cant": "the bound has to hold at every instant of every schedule", "anchors": [{"file": "src/tup/updater.c", "symbols": ["execute_graph"]}]}
{"id": "C04", "title": "Failure stops the update, or only what depends on it with keep-going", "statement": "If a command fails, the update reports failure, nothing that depends on the failed command is ever started, without keep-going no further command is started once the failure has been collected, and with keep-going every command that does not depend on a failed one is still run.", "quantifier": "every update graph, schedule, job count and failure pattern, with keep-going on or off", "why_tests_cant": "unbounded number of graphs and schedules; the interesting ones interleave failures and completions", "anchors": [{"file": "src/tup/updater.c", "symbols": ["execute_graph", "pop_node"]}]}
{"id": "C05", "title": "The update graph is exactly what is affected", "statement": "Starting from the flagged nodes, the graph that an update works on contains exactly the nodes reachable from them along dependency links, each of them expanded once, and the construction terminates.", "quantifier": "every finite dependency graph and every set of flagged nodes", "why_tests_cant": "quantifies over all graphs", "anchors": [{"file": "src/tup/graph.c", "symbols": ["build_graph", "create_node", "create_edge", "make_edge"]}, {"file": "src/tup/db.c", "symbols": ["tup_db_select_node_by_link"]}]}
{"id": "C06", "title": "Circular dependencies are always found and never invented", "statement": "Building the update graph reports a circular dependency if and only if the part of the dependency graph reachable from the flagged nodes contains a cycle.", "quantifier": "every finite dependency graph and every set of flagged nodes", "why_tests_cant": "quantifies over all graphs; a DFS with node states can miss or invent cycles only on particular shapes", "anchors": [{"file": "src/tup/graph.c", "symbols": ["build_graph", "make_edge"]}]}
{"id": "C07", "title": "Partial updates run the targets and everything upstream of them", "statement": "When targets are named on the command line, the update keeps the targets, everything upstream of what it keeps, all outputs of the commands it keeps (groups and exclusions are not outputs) and the modified source files, and nothing else. Every command that is left out stays flagged for a later update, and the temporary files such a command uses are not deleted.", "quantifier": "every update graph and set of targets", "why_tests_cant": "quantifies over all graphs", "anchors": [{"file": "src/tup/graph.c", "symbols": ["prune_graph", "prune_node", "mark_nodes"]}]}
{"id": "C08", "title": "A change is never lost: failed, interrupted and crashed updates are resumed", "statement": "If an update is cut short at any point (a command fails, tup is killed between two database commits), the next successful update leaves every output equal to what its command would produce from the current inputs.", "quantifier": "every dependency graph, every deterministic command behaviour, every sequence of edits, updates and crash points", "why_tests_cant": "crash points and histories are unbounded", "anchors": [{"file": "src/tup/updater.c", "symbols": ["update", "update_work", "process_update_nodes"]}, {"file": "src/tup/db.c", "symbols": ["tup_db_unflag_modify", "tup_db_set_dependent_flags", "tup_db_modify_cmds_by_output"]}, {"file": "src/tup/create_name_file.c", "symbols": ["tup_file_mod_mtime"]}]}
{"id": "C09", "title": "Incremental builds agree with full builds", "statement": "After a successful update every generated file has the contents its command would write when run from scratch on the current sources.", "quantifier": "every project, every history of edits and successful or failed updates, commands deterministic in the files they read", "why_tests_cant": "the histories are unbounded", "anchors": [{"file": "src/tup/updater.c", "symbols": ["execute_graph", "update_work", "update"]}, {"file": "src/tup/graph.c", "symbols": ["build_graph"]}]}
{"id": "C10", "title": "Commands whose inputs did not change are skipped, and only those", "statement": "A command that was reached only through other commands whose outputs turned out to be unchanged is skipped; a command whose own text or one of whose inputs changed is run.", "quantifier": "every update graph, schedule and pattern of changed/unchanged outputs", "why_tests_cant": "depends on every combination of upstream outcomes and completion orders", "anchors": [{"file": "src/tup/updater.c", "symbols": ["update_work", "process_output", "check_outputs"]}, {"file": "src/tup/graph.c", "symbols": ["remove_edge"]}]}
{"id": "C11", "title": "Undeclared outputs and missing outputs are always detected", "statement": "When a command finishes, the update accepts it only if the set of files it wrote equals the set of outputs declared for it (excluding declared exclusions); otherwise an error is reported that names an offending file.", "quantifier": "every pair of declared and actual output sets", "why_tests_cant": "quantifies over all pairs of sets; the comparison is a merge of two ordered walks whose errors only show on particular interleavings of ids", "anchors": [{"file": "src/tup/db.c", "symbols": ["tup_db_check_actual_outputs", "compare_tent_trees", "extra_output", "missing_output"]}]}
{"id": "C12", "title": "Undeclared reads of generated files are always detected", "statement": "A command that reads a generated file which is neither among its declared inputs, nor reached through a declared group, nor upstream of one of its declared inputs is rejected; any other set of reads is accepted.", "quantifier": "every dependency graph, declared input set and read set", "why_tests_cant": "quantifies over graphs and sets", "anchors": [{"file": "src/tup/db.c", "symbols": ["tup_db_check_actual_inputs", "check_generated_inputs"]}, {"file": "src/tup/graph.c", "symbols": ["nodes_are_connected"]}]}
{"id": "C13", "title": "Recorded dependencies are exactly the files a command read", "statement": "After a command has run successfully the stored dependencies of the command are exactly the files it read, other than its own outputs, together with its declared inputs.", "quantifier": "every previous dependency set, every read set, every declared set", "why_tests_cant": "set-level equation over arbitrary previous database contents", "anchors": [{"file": "src/tup/db.c", "symbols": ["tup_db_check_actual_inputs", "new_normal_link", "del_normal_link", "compare_tent_trees"]}]}
{"id": "C14", "title": "Set comparison by merging ordered trees", "statement": "The comparison of two id sets used for outputs, inputs and links calls back exactly once for each id in only one of the sets, on the right side, and for nothing else.", "quantifier": "every pair of ordered id sets", "why_tests_cant": "quantifies over all pairs of sets", "anchors": [{"file": "src/tup/db.c", "symbols": ["compare_tent_trees"]}, {"file": "src/tup/tent_tree.c", "symbols": ["tent_tree_cmp"]}]}
{"id": "C15", "title": "File accesses of a command are reduced to their net effect", "statement": "After processing the access events of a command (read, write, rename, unlink in any order), a file is treated as written iff it exists at the end because of this command, and a file read before the command created it is treated as an input.", "quantifier": "every finite sequence of access events", "why_tests_cant": "quantifies over all sequences of events", "anchors": [{"file": "src/tup/file.c", "symbols": ["handle_open_file", "handle_rename", "handle_unlink", "check_unlink_list", "write_files"]}]}
{"id": "C16", "title": "Every output belongs to one command", "statement": "The database never records two commands (or a command and a group in conflicting roles) as producers of the same file: declaring an output that another live command owns is rejected.", "quantifier": "every sequence of rule declarations, in any order, from any consistent database", "why_tests_cant": "histories are unbounded", "anchors": [{"file": "src/tup/db.c", "symbols": ["tup_db_create_unique_link", "tup_db_write_outputs", "tup_db_get_incoming_link"]}, {"file": "src/tup/parser.c", "symbols": ["do_rule_outputs", "validate_output"]}]}
{"id": "C17", "title": "Ghost entries are removed exactly when nothing refers to them", "statement": "After ghost reclamation, no entry that is a ghost without children, links or variants referring to it and that was queued for checking remains, nothing else has been removed, and reclamation terminates even though removing an entry can free its parent.", "quantifier": "every node database (forest of entries with links) and every set of queued entries", "why_tests_cant": "quantifies over all databases", "anchors": [{"file": "src/tup/db.c", "symbols": ["reclaim_ghosts", "ghost_reclaimable"]}]}
{"id": "C18", "title": "A changed or deleted file flags everything that used it", "statement": "When a file is modified or removed, every command that has the file as a recorded dependency is scheduled for the next update, and every Tupfile directory that depends on it is scheduled for re-parsing.", "quantifier": "every database and every file", "why_tests_cant": "quantifies over all databases", "anchors": [{"file": "src/tup/create_name_file.c", "symbols": ["tup_file_mod_mtime", "tup_file_del", "tup_del_id_type"]}, {"file": "src/tup/db.c", "symbols": ["tup_db_set_dependent_flags", "tup_db_modify_cmds_by_output"]}]}
{"id": "C19", "title": "tup.config values are read back as written", "statement": "For every configuration, writing CONFIG_<name>=<value> lines (and '# CONFIG_<name> is not set') and parsing the file gives back exactly the assignments; anything that is not such a line is rejected.", "quantifier": "every list of names and values without newline", "why_tests_cant": "string-level property over all names and values", "anchors": [{"file": "src/tup/db.c", "symbols": ["get_file_var_tree"]}]}
{"id": "C20", "title": "Configuration lookup finds the value that was stored", "statement": "A program linked with tup's vardict reads, for every @-variable, exactly the value that tup stored, and nothing for a name that was not stored.", "quantifier": "every set of variables and every lookup key", "why_tests_cant": "binary search over all variable sets; only particular orderings break it", "anchors": [{"file": "src/tup/db.c", "symbols": ["save_vardict_file"]}, {"file": "src/tup/vardict.c", "symbols": ["tup_config_var"]}]}
{"id": "C21", "title": "Changing tup.config affects exactly the changed variables", "statement": "When tup.config is re-read, exactly the variables that were added, removed or given a different value are treated as changed.", "quantifier": "every pair of old and new configurations", "why_tests_cant": "set-level property over all pairs", "anchors": [{"file": "src/tup/db.c", "symbols": ["tup_db_read_vars", "remove_var", "add_var", "compare_vars"]}, {"file": "src/tup/vardb.c", "symbols": ["vardb_compare"]}]}
{"id": "C22", "title": "Conditionals in Tupfiles have block semantics", "statement": "A Tupfile line is processed iff every enclosing ifeq/ifneq/ifdef/ifndef branch is the selected one, for any nesting up to the supported depth; deeper nesting, a stray else or endif and an unterminated block are reported as errors.", "quantifier": "every block-structured sequence of conditionals and lines, all nesting depths", "why_tests_cant": "unbounded nestings and truth combinations", "anchors": [{"file": "src/tup/if_stmt.c", "symbols": ["if_add", "if_else", "if_endif", "if_true", "if_check"]}, {"file": "src/tup/parser.c", "symbols": ["parse_tupfile"]}]}
{"id": "C23", "title": "Paths are normalised without changing what they denote", "statement": "The components computed for a path contain no '.', no empty component, and '..' only as a leading run; walking them from the same directory reaches the same place as walking the original path, and the result does not depend on redundant separators.", "quantifier": "every path string", "why_tests_cant": "quantifies over all strings", "anchors": [{"file": "src/tup/pel_group.c", "symbols": ["split_path_elements", "get_path_elements", "pel_ignored"]}]}
{"id": "C24", "title": "Files outside the project are never taken for files inside it", "statement": "An absolute path is treated as part of the project iff the project's top directory is a component-wise prefix of it.", "quantifier": "every absolute path and every project directory", "why_tests_cant": "depends on particular names sharing prefixes", "anchors": [{"file": "src/tup/pel_group.c", "symbols": ["get_path_elements"]}]}
{"id": "C25", "title": "Relative paths between directories lead to the right place", "statement": "The relative path tup computes from one directory to another, when walked from the first, ends in the second.", "quantifier": "every directory tree and every pair of directories in it", "why_tests_cant": "quantifies over all trees", "anchors": [{"file": "src/tup/entry.c", "symbols": ["get_relative_dir", "get_relative_dir_sep"]}]}
{"id": "C26", "title": "%'f and %\"f produce shell words that read back as the file names", "statement": "For every file name, the text that a quoted %-flag inserts into a command, read by a POSIX shell as the single- or double-quoted string it is inserted in, yields the file name.", "quantifier": "every file name", "why_tests_cant": "quantifies over all strings of bytes", "anchors": [{"file": "src/tup/estring.c", "symbols": ["estring_append_escape"]}, {"file": "src/tup/parser.c", "symbols": ["tup_printf"]}]}
{"id": "C27", "title": "String buffers never overflow", "statement": "Appending to the growable string used for all parser output never writes outside the allocation, keeps the text NUL-terminated and equals concatenation.", "quantifier": "every sequence of appends of any lengths", "why_tests_cant": "only particular lengths near the doubling boundary can break it", "anchors": [{"file": "src/tup/estring.c", "symbols": ["estring_init", "estring_append"]}]}
{"id": "C28", "title": "%-flags expand as documented", "statement": "In a command, %f %b %B %e %o %O %i %d %g %% and the numbered forms expand to the documented strings, separated by single spaces, and every other % sequence is an error; text without % is unchanged.", "quantifier": "every command text and every input/output list", "why_tests_cant": "string-level property over all inputs", "anchors": [{"file": "src/tup/parser.c", "symbols": ["tup_printf"]}]}
{"id": "C29", "title": "Variable expansion", "statement": "$(x), @(x) and &(x) are replaced by the variable's value, undefined ones by nothing, escaped ones by the unescaped text, a missing parenthesis is an error, and text without $, @, &, backslash is unchanged; expansion of a concatenation at a safe point is the concatenation of expansions.", "quantifier": "every input string and variable environment", "why_tests_cant": "string-level property over all inputs", "anchors": [{"file": "src/tup/parser.c", "symbols": ["eval"]}]}
{"id": "C30", "title": "Splitting path lists respects quoting", "statement": "For every list of names, writing the names with quotes/backslashes and spaces between them and splitting the result gives the names back.", "quantifier": "every list of names", "why_tests_cant": "string-level property over all inputs", "anchors": [{"file": "src/tup/parser.c", "symbols": ["next_path", "get_path_list"]}]}
{"id": "C31", "title": "Only one process works on the database, also with the monitor", "statement": "With any number of tup processes and the file monitor running, never do two of them hold the database at once, no process releases its place before the monitor has the database back, the monitor never misses a process that waits for it, and the protocol does not deadlock; killing any process at any moment preserves this.", "quantifier": "every number of processes, every interleaving, every crash point", "why_tests_cant": "the source says 'I suppose a formal proof would be nice'", "anchors": [{"file": "src/tup/lock.c", "symbols": ["tup_lock_init", "tup_lock_exit"]}, {"file": "src/tup/monitor/inotify.c", "symbols": ["monitor_loop"]}]}
{"id": "C32", "title": "The monitor's event coalescing keeps the net effect", "statement": "Dropping and merging queued file events before they are applied leaves the same set of existing files recorded, and the same files marked as changed, as applying all of them in order.", "quantifier": "every sequence of create/modify/delete/move events", "why_tests_cant": "quantifies over all event sequences; needs a monitor and precise timing", "anchors": [{"file": "src/tup/monitor/inotify.c", "symbols": ["queue_event", "ephemeral_event", "check_from_events", "handle_event"]}]}
{"id": "C33", "title": "Hidden files are recognised consistently", "statement": "A path is hidden from dependency tracking iff one of its components is one of the ignored names; the parser, the scanner and the file server agree on it.", "quantifier": "every path", "why_tests_cant": "depends on particular names", "anchors": [{"file": "src/tup/pel_group.c", "symbols": ["pel_ignored"]}, {"file": "src/tup/server/fuse_fs.c", "symbols": ["is_hidden", "ignore_file"]}]}
{"id": "C34", "title": "Option precedence", "statement": "An option's value is the one from the command line, else from .tup/options, else from the user's file, else from /etc/tup/options, else the default, for every option independently.", "quantifier": "every combination of sources for every option", "why_tests_cant": "all combinations", "anchors": [{"file": "src/tup/option.c", "symbols": ["tup_option_get_string", "tup_option_init"]}]}
{"id": "C35", "title": "Environment passed to commands", "statement": "A command's environment consists of exactly the exported variables that are set, with the values recorded in the database; changing, setting or unsetting one of them schedules exactly the commands that depend on it.", "quantifier": "every environment and set of exported names", "why_tests_cant": "all environments", "anchors": [{"file": "src/tup/db.c", "symbols": ["tup_db_get_environ", "env_cb", "tup_db_check_env"]}]}
{"id": "C36", "title": "Files generated through the job directory end up under their own names", "statement": "Inside a job, creating, renaming and deleting files and directories behaves like on a plain file system: at the end exactly the files that exist in the job's view are moved to their real names.", "quantifier": "every sequence of file operations of a job", "why_tests_cant": "all sequences", "anchors": [{"file": "src/tup/server/fuse_fs.c", "symbols": ["add_mapping", "tup_fs_rename", "tup_fs_unlink", "tup_fs_mkdir", "tup_fs_rmdir"]}]}
{"id": "C37", "title": "Access records are decoded as they were sent", "statement": "The file-access records a job sends over its dependency file are read back as the same sequence of (type, path, path) events.", "quantifier": "every sequence of records", "why_tests_cant": "byte-level round trip over all inputs", "anchors": [{"file": "src/tup/server/depfile.c", "symbols": ["process_depfile"]}, {"file": "src/ldpreload/ldpreload.c", "symbols": ["handle_file_locked"]}]}
{"id": "C38", "title": "Duplicate inputs are removed keeping order", "statement": "In a rule's input list each file appears once, at its first position, and nothing else is dropped.", "quantifier": "every input list", "why_tests_cant": "all lists", "anchors": [{"file": "src/tup/parser.c", "symbols": ["make_name_list_unique"]}]}
{"id": "C39", "title": "@-variable substitution in files (varsed)", "statement": "tup varsed replaces each @NAME@ by the variable's value, or by nothing if it is not set, and leaves all other text (including lone @ signs) unchanged.", "quantifier": "every input text and variable set", "why_tests_cant": "all strings", "anchors": [{"file": "src/tup/varsed.c", "symbols": ["var_replace"]}]}
{"id": "C40", "title": "tup's section of .gitignore can be rewritten without touching the user's text", "statement": "Rewriting tup's section of a .gitignore file leaves the lines outside the section unchanged, and rewriting twice gives the same file as rewriting once.", "quantifier": "every .gitignore content", "why_tests_cant": "depends on particular texts that overlap the marker", "anchors": [{"file": "src/tup/updater.c", "symbols": ["gitignore"]}, {"file": "src/tup/parser.c", "symbols": ["remove_tup_gitignore"]}]}
{"id": "C41", "title": "Wildcard parts are captured correctly", "statement": "For an input found with a pattern with one '*', %g expands to the part of the file name that the '*' matched.", "quantifier": "every pattern with one star and every matching name", "why_tests_cant": "all strings", "anchors": [{"file": "src/tup/parser.c", "symbols": ["glob_parse", "tup_printf"]}]}
{"id": "C42", "title": "^-flags and display strings are separated from the command", "statement": "For every rule command of the form ^flags text^ cmd the flags, the display text and the command are the three parts; a command not starting with ^ is left unchanged; an unterminated ^ is an error.", "quantifier": "every command string", "why_tests_cant": "all strings", "anchors": [{"file": "src/tup/parser.c", "symbols": ["split_command_string"]}]}
{"id": "C43", "title": "Rule lines are split into inputs, command and outputs", "statement": "A rule line 'I |> C |> O {b}' is split into I, C, O and b for all texts that do not themselves contain the separators; a line without two separators is an error.", "quantifier": "every rule text", "why_tests_cant": "all strings", "anchors": [{"file": "src/tup/parser.c", "symbols": ["split_input_pattern"]}]}
{"id": "C44", "title": "Comparing an output with its previous version is exact", "statement": "With ^o, an output is reported unchanged iff the old and the new file have the same type and the same bytes (or the same link target).", "quantifier": "every pair of file contents and every chunking of reads", "why_tests_cant": "all contents", "anchors": [{"file": "src/tup/updater.c", "symbols": ["compare_files", "compare_paths", "check_outputs"]}]}
{"id": "C45", "title": "The dictionary that commands read agrees with tup.config", "statement": "After every update that gets past reading tup.config, the variable dictionary that commands (varsed, programs using tup's client library) read holds exactly the values of tup.config.", "quantifier": "every sequence of configuration edits, successful, failed and killed updates", "why_tests_cant": "The dictionary is only rewritten when a difference to the database is seen; whether it can get out of step depends on the whole history, including crash points.", "anchors": [{"file": "src/tup/db.c", "symbols": ["tup_db_read_vars", "save_vardict_file"]}, {"file": "src/tup/updater.c", "symbols": ["process_config_nodes"]}]}
{"id": "C46", "title": "Full paths of entries are right or reported as too long", "statement": "The full path tup writes for a file or directory, walked from the top of the project, ends in that file or directory; a path that does not fit its buffer is reported as too long and nothing is written outside the buffer.", "quantifier": "every directory tree, every entry, every buffer size", "why_tests_cant": "quantifies over all trees and depths", "anchors": [{"file": "src/tup/entry.c", "symbols": ["snprint_tup_entry"]}]}
{"id": "C47", "title": "A Tupfile is read statement by statement", "statement": "A Tupfile is obeyed as the sequence of its statements: blank lines and comments do not count, indentation, trailing white space, carriage returns and a byte order mark do not matter, and a statement may go on in the next line after a backslash. The first statement that fails ends the reading, and the message names its line. No text makes tup read outside the file.", "quantifier": "every text of a Tupfile, every layout of the same statements", "why_tests_cant": "quantifies over all texts", "anchors": [{"file": "src/tup/parser.c", "symbols": ["parse_tupfile", "get_newline"]}, {"file": "src/tup/fslurp.c", "symbols": ["fslurp_null", "do_slurp"]}]}
{"id": "C48", "title": "Assignments take effect in order", "statement": "Each assignment of a Tupfile gives its variable the value that its text has at that point (= and := replace, += appends after a space) and changes nothing else; later assignments do not change values already computed. Variables of tup.config cannot be assigned, &-variables hold references to files, import takes the environment or the default, and ifeq compares the values of its two texts.", "quantifier": "every sequence of assignments, every layout, every value", "why_tests_cant": "a value depends on the whole sequence of assignments before it", "anchors": [{"file": "src/tup/parser.c", "symbols": ["set_variable", "eval_eq", "var_ifdef", "import"]}, {"file": "src/tup/luaparser.c", "symbols": ["tup_string_to_lua", "luadb_set", "luadb_append", "luadb_copy"]}, {"file": "src/tup/vardb.c", "symbols": ["vardb_append"]}]}
{"id": "C49", "title": "!-macros: a rule that uses a macro does what the rule with the macro's text written out does", "statement": "A line '!name = [inputs] |> command |> outputs' defines a macro, replacing an earlier one of this name; a later rule that names the macro in place of its command runs the macro's command, waits for the macro's order-only inputs besides its own, has the macro's outputs if it names none itself, and the macro's extra outputs besides its own; foreach in the macro or in the rule makes one job for each input file, and a macro for a file's extension is preferred to the macro without an extension; '!a = !b' makes a the macro that b is at this time.", "quantifier": "all definition lines, all rules, all macro tables, all lists of input files, all results of expansion", "why_tests_cant": "there are unboundedly many macros, extensions and inputs, and the macro table is the product of a whole history of definitions; tests cover only a few combinations", "anchors": [{"file": "src/tup/parser.c", "symbols": ["parse_bang_definition", "parse_bang_rule", "parse_rule", "execute_rule", "do_rule", "bin_list"]}]}
{"id": "C50", "title": "include and include_rules obey the named files in their own directories", "statement": "include obeys the lines of the named file as if the current directory were that of this file, and afterwards the current directory is as before; include_rules obeys the Tuprules.tup of every directory from the top of the project to the current one, in this order, and records each of them as read whether it exists or not, so that creating one later re-parses the Tupfile; include_rules in a Tuprules.tup, or in a file that one includes, is an error; only files whose name ends in .lua are run as Lua.", "quantifier": "all current directories of any depth, all trees of files that include one another, all file contents, all states of the parser", "why_tests_cant": "include depth, directory depth and the interleaving of includes are unbounded; that the directory is restored must hold after any nesting", "anchors": [{"file": "src/tup/parser.c", "symbols": ["parser_include_rules", "parser_include_file", "parser_entry_open"]}, {"file": "src/tup/create_name_file.c", "symbols": ["find_dir_tupid_dt_pg"]}, {"file": "src/tup/file.c", "symbols": ["handle_file_dtent"]}]}
{"id": "C51", "title": "A parsed rule leaves exactly its outputs, groups and inputs in the database, and its command runs again exactly if they changed", "statement": "After a rule was parsed, the outputs, output exclusions, output group and declared inputs of its command are those of the rule, whatever they were before; outputs are members of the command's group and old ones have left it; what the command read is kept except for files that are no longer declared; the command is flagged to run again exactly if its outputs or group changed, an input it has read is no longer declared, an input group went away, an environment variable is new, or its text or flags changed; a rule whose output or group is also an input is rejected; parsing the same rule again changes nothing.", "quantifier": "all rules, all earlier states of the command in the database, all sets of files, groups and variables", "why_tests_cant": "the result depends on the difference of two arbitrary sets of outputs, groups and inputs; the combinations are unbounded and tests try a handful", "anchors": [{"file": "src/tup/db.c", "symbols": ["tup_db_write_outputs", "tup_db_write_inputs", "add_output", "rm_output", "add_sticky", "rm_sticky", "compare_tent_trees"]}, {"file": "src/tup/parser.c", "symbols": ["do_rule"]}]}
{"id": "C52", "title": "tup refactor accepts exactly the Tupfiles that describe the same commands, and then changes nothing", "statement": "tup refactor succeeds on a directory exactly if each rule is the rule of an existing command of this directory (same text, flags, outputs, exclusions, group and inputs) and each command of the directory has a rule; the database is as before.", "quantifier": "all Tupfiles and all databases", "why_tests_cant": "both the database and the new Tupfile are arbitrary, and one missed difference would make a refactoring silently change the build", "anchors": [{"file": "src/tup/parser.c", "symbols": ["do_rule", "parse"]}, {"file": "src/tup/db.c", "symbols": ["tup_db_write_outputs", "tup_db_write_inputs"]}]}
{"id": "C53", "title": "Parsing a Tupfile leaves each rule with its own command, keeps the others, and runs exactly the changed ones", "statement": "After a Tupfile was parsed, every rule has its own command with the rule's text, flags, display text, outputs and inputs: the old command with the same text, else the maker of the first listed output that has one, else a new one. All other old commands of the directory are scheduled for deletion. Commands elsewhere keep everything except outputs that this Tupfile now declares. A Tupfile is accepted exactly if its rules differ in text and outputs, none is circular, and no output belongs to a command of another directory that keeps it. A rule's command is flagged to run exactly if it is new or renamed or differs from its old description; an unchanged rule is not run. The set of commands that run does not depend on the order of the rules.", "quantifier": "all lists of rules and all databases", "why_tests_cant": "rules interact through the outputs they take from each other; the combinations of old databases and new Tupfiles are unbounded", "anchors": [{"file": "src/tup/parser.c", "symbols": ["do_rule", "find_existing_command", "validate_output", "parse"]}, {"file": "src/tup/db.c", "symbols": ["tup_db_create_unique_link", "tup_db_get_incoming_link", "get_output_group"]}]}
{"id": "C54", "title": "^-flags of a command are split off as written", "statement": "A command string that starts with ^ is flags up to the next space or ^, then an optional display text up to the closing ^, then the command; any other string is the command itself; leading spaces of each part are dropped; the string is rejected exactly if the closing ^ is missing.", "quantifier": "all command strings", "why_tests_cant": "strings are unbounded and the parts may contain anything else", "anchors": [{"file": "src/tup/parser.c", "symbols": ["split_command_string"]}]}
{"id": "C55", "title": "After a scan the database says what is on the disk, and every change is noticed", "statement": "A scan of the tree always ends without an error. Afterwards every file on the disk is in the database with its time, every directory is in it, and no file or directory of the user that is gone is still in it. Commands that read a file which changed or is gone will be run. A generated file that changed or is gone will be made again. The Tupfile of a directory with a new file will be parsed again. Directories that are still there keep their entries, commands and links between them are kept, and if nothing changed the scan changes nothing.", "quantifier": "all databases tup can make, all directory trees and every order in which the disk lists them", "why_tests_cant": "trees and databases are unbounded, and the old entry at a path may be of any kind", "anchors": [{"file": "src/tup/path.c", "symbols": ["watch_path_internal", "tup_scan", "watch_path"]}, {"file": "src/tup/create_name_file.c", "symbols": ["tup_file_mod_mtime", "create_name_file", "make_dirs_normal", "tup_file_missing", "tup_del_id_type"]}, {"file": "src/tup/db.c", "symbols": ["tup_db_create_node_part_display", "tup_db_delete_dir", "reclaim_ghosts"]}]}
{"id": "C56", "title": "tup only deletes files that it made, that no rule makes any more and that nobody edited", "statement": "When Tupfiles are parsed again, a file is deleted only if it is in the database as a generated file, no rule has it as an output now, and the user did not edit it. Every such file of the parsed Tupfiles is deleted and leaves the database, also if it is in another directory, and also if the directory of its Tupfile is gone. An output that was edited and has no rule any more is kept as a normal file. Outputs of rules, files and directories of the user, and outputs of Tupfiles that are not parsed stay. A command goes if and only if its Tupfile was parsed and does not have it. Commands that read a file that is deleted or becomes a normal file will be run.", "quantifier": "all databases, all sets of directories that are parsed in any order, and all outputs of their rules", "why_tests_cant": "a wrong deletion loses the work of the user, and what is deleted depends on the history of all Tupfiles", "anchors": [{"file": "src/tup/updater.c", "symbols": ["process_create_nodes", "delete_files", "create_work"]}, {"file": "src/tup/parser.c", "symbols": ["parse", "split_roots", "do_rule"]}, {"file": "src/tup/delete_name_file.c", "symbols": ["delete_file", "delete_name_file"]}, {"file": "src/tup/db.c", "symbols": ["tup_db_srcid_to_tree", "tup_db_in_modify_list", "tup_db_create_node_part_display"]}]}
{"id": "C57", "title": "No edit is missed and no process waits for ever when a file monitor shares the locks, also across its start, restart and stop", "statement": "However many tup processes run in a project, and whether or not a file monitor runs with them: at most one of them uses the database at any moment, and the monitor does not use it while another process does. As long as a process has not finished, some process can go on; if no new processes start, all of them finish. Between two processes that use the database the monitor gets it once. An edit that was made before tup started is known to its update: either the monitor has handled it, or tup looks for edits itself.", "quantifier": "any number of processes, all interleavings of their system calls on the three locks, all contents of the inotify queue, a monitor in the foreground or the background that is started, restarted and stopped at any time", "why_tests_cant": "a deadlock or a missed edit needs a certain order of events in several processes; the comment in lock.c says that the author ran a test a million times and that a formal proof would be nice", "anchors": [{"file": "src/tup/lock.c", "symbols": ["tup_lock_init", "tup_lock_exit", "tup_lock_closeall"]}, {"file": "src/tup/flock/fcntl.c", "symbols": ["tup_flock", "tup_unflock", "tup_wait_flock"]}, {"file": "src/tup/monitor/inotify.c", "symbols": ["monitor", "monitor_loop", "flush_queue"]}]}
{"id": "C58", "title": "Every pattern in a Tupfile sees all the files that other Tupfiles generate, whatever the order of parsing", "statement": "When the Tupfiles of several directories are parsed, a pattern that looks into another directory sees all the files that the Tupfile of that directory generates there, wherever the two are in the order. Each Tupfile is parsed once. The generated files after an update depend only on the Tupfiles and the files, not on the history of edits and updates before it or on the order. If Tupfiles need each other in a circle, that is reported, and only then.", "quantifier": "all projects (any number of directories, any rules as functions of the names found), all histories of edits and updates, all orders in which the directories are popped from the graph", "why_tests_cant": "the order of parsing follows from the dependencies found while parsing, and from links left by earlier updates; tests use a few directories in the order in which they were created", "anchors": [{"file": "src/tup/parser.c", "symbols": ["parse", "parse_dependent_tupfiles", "build_name_list_cb", "split_roots"]}, {"file": "src/tup/updater.c", "symbols": ["process_create_nodes", "create_work", "execute_graph", "pop_node"]}, {"file": "src/tup/db.c", "symbols": ["tup_db_write_dir_inputs", "tup_db_select_node_dir_glob"]}]}
{"id": "C59", "title": "Temporary files are there for the commands that read them, made only on demand and deleted afterwards", "statement": "Outputs of commands with the flag ^t are temporary. In each update, exactly the commands take part that depend on a change or make a missing temporary file for something that takes part. While a command runs, the temporary files it declares as inputs are there. After an update without errors, all the temporary files that took part are deleted. Whenever an update stops, those that are there are recorded, so that the next one deletes them. Nothing else is deleted.", "quantifier": "all databases, all flags and records left by earlier updates, all numbers of jobs, all schedules, all outcomes of the commands", "why_tests_cant": "which commands join depends on the whole graph and on what earlier, possibly interrupted, updates left; when a file is deleted depends on the schedule", "anchors": [{"file": "src/tup/graph.c", "symbols": ["build_graph_non_transient_cb", "build_graph_transient_cb", "attach_transient_nodes", "build_graph"]}, {"file": "src/tup/updater.c", "symbols": ["update_work", "unlink_node", "mark_transient_outputs", "process_update_nodes", "modify_outputs"]}, {"file": "src/tup/db.c", "symbols": ["tup_db_in_transient_list", "tup_db_unflag_transient"]}]}
{"id": "C60", "title": "Every command gets its own exit status", "statement": "For every request to run a command, exactly one process is started, with exactly the directory, command, environment and options that were asked for, and the thread that asked gets the exit status of that process and of no other, after it ended, in whatever order processes end. No request waits for ever once its process has ended, and when all are answered the helper processes end.", "quantifier": "all requests, all numbers of threads, all schedules of the threads, the forking process and the children, all portions in which sockets are read and written, all capacities of the sockets, all exit statuses", "why_tests_cant": "which status goes where depends on how threads of two processes and the children interleave; a wrong pairing or a lost wake-up needs a particular interleaving", "anchors": [{"file": "src/tup/server/master_fork.c", "symbols": ["master_fork_exec", "master_fork_loop", "child_waiter", "child_wait_notifier", "wait_for_my_sid", "server_post_exit"]}, {"file": "src/tup/server/fuse_server.c", "symbols": ["exec_internal"]}, {"file": "src/tup/updater.c", "symbols": ["process_output"]}]}
{"id": "C61", "title": "Groups named in commands", "statement": "In a command, every %<group> stands for the paths, from the directory the command runs in, of exactly the generated files in the groups of that name among the command's inputs, with one blank between them; every %<group>.res stands for a path to a file of the command's own that lists the same paths, one on a line. Nothing else in the command changes, the groups recorded as used are exactly those named, and a command that names a group that is not among its inputs, or leaves a %< open, is not run.", "quantifier": "all command texts, all groups and files, all trees of directories, any number of earlier expansions in the same run", "why_tests_cant": "the text is divided by a scan and paths are computed per directory; a wrong boundary, a shared resource file or a wrong number of .. shows only for particular texts, directories and sequences of commands", "anchors": [{"file": "src/tup/updater.c", "symbols": ["expand_group", "expand_group_inline", "expand_res_file", "expand_command"]}, {"file": "src/tup/entry.c", "symbols": ["get_relative_dir"]}]}
{"id": "C62", "title": "Generated build scripts", "statement": "When tup generate succeeds, running the script from the top of the project makes the directories of all generated files and then runs every command of the graph exactly once, in the directory the command belongs to, after every command it depends on, with the same text an update would run.", "quantifier": "all dependency graphs, directory trees, command texts and orders in which the graph is walked", "why_tests_cant": "the script is correct only if its order, its cd lines and its quoting are right together; one project exercises one order and one set of names", "anchors": [{"file": "src/tup/updater.c", "symbols": ["generate", "generate_work", "generate_script_mkdir", "execute_graph"]}, {"file": "src/tup/entry.c", "symbols": ["print_tup_entry", "write_tup_entry", "get_relative_dir"]}]}
{"id": "C63", "title": "compile_commands.json", "statement": "tup compiledb writes, for every enabled variant, a file that a JSON reader accepts and that is the list of the variant's ^j commands, one object for each of their file inputs, whose directory is where the command runs, whose command is the command's text and whose file leads from that directory to the input.", "quantifier": "all directory trees, command texts, sets of commands and inputs, and lists of variants", "why_tests_cant": "whether the file is JSON depends on every character of every name and command and on the position of every comma, for any number of entries and variants", "anchors": [{"file": "src/tup/db.c", "symbols": ["tup_db_create_compile_db", "print_compile_db", "print_json"]}, {"file": "src/tup/tup/main.c", "symbols": ["compiledb"]}, {"file": "src/tup/entry.c", "symbols": ["is_compiledb_tent", "get_relative_dir"]}]}
{"id": "C64", "title": "Variant directories mirror the source tree", "statement": "When tup update goes through the directories that changed, every changed directory of the source tree has, in every variant, a directory at the same path that refers to it, is on the disk and is parsed; every directory of a variant whose source directory was removed or renamed is removed from the disk and the database with all that is in it; and nothing else, in the source tree or in the variants, is changed or deleted.", "quantifier": "all directory trees, lists of variants, sets of changed directories in any order, histories of what the variants' directories contain", "why_tests_cant": "which directory of a variant is reused, made or removed depends on the whole tree, on the order in which the changed directories come up and on names that come and go", "anchors": [{"file": "src/tup/updater.c", "symbols": ["process_create_nodes", "get_rel_tent", "mark_variant_dir_for_deletion", "rm_variant_dir_cb", "cleanup_dir"]}, {"file": "src/tup/db.c", "symbols": ["tup_db_create_node_srcid", "tup_db_delete_node", "delete_variant_dir", "is_virtual_tent"]}, {"file": "src/tup/entry.c", "symbols": ["tup_entry_variant"]}]}
{"id": "C65", "title": "A variant builds what a build in the source tree builds", "statement": "For the same history of edits and updates, an update of a variant succeeds exactly when the update of a build in the source tree does, and then it has the same commands with the same outputs and the same inputs: a name in a Tupfile means the file the variant generated if there is one, and otherwise the file of the source tree, each name once.", "quantifier": "all histories of written and removed source files and of updates that parse any Tupfiles with any rules, wildcards and foreach", "why_tests_cant": "what a wildcard matches depends on all that earlier rules, earlier updates and the user put into two directories", "anchors": [{"file": "src/tup/parser.c", "symbols": ["nl_add_path", "build_name_list_cb", "get_name_list", "make_name_list_unique", "execute_rule", "do_rule_outputs", "validate_output", "do_rule"]}, {"file": "src/tup/db.c", "symbols": ["tup_db_select_node_dir_glob"]}, {"file": "src/tup/variant.c", "symbols": ["variant_get_srctent"]}]}
{"id": "C66", "title": "The build is where the tup.config files say", "statement": "After every successful update the generated files are exactly what the Tupfiles make in each directory that has a tup.config, or, if only the top or no directory has one, in the source tree: adding the first variant removes the build in the source tree, removing the last variant brings it back, and nothing is left of a variant that was removed. An update that has nothing in its way succeeds.", "quantifier": "all projects and all histories of tup.config files added, changed and removed, directories and outputs removed, Tupfiles edited, other files written, scans, failed updates and updates", "why_tests_cant": "which branch handles a tup.config depends on the variants of earlier updates, on what scans and failed updates noticed in between, and on the order of the config list", "anchors": [{"file": "src/tup/updater.c", "symbols": ["updater", "process_config_nodes", "check_empty_variant", "delete_variant_dirs", "recurse_delete_variant", "delete_in_tree", "get_rel_tent", "process_create_nodes"]}, {"file": "src/tup/variant.c", "symbols": ["variant_load", "variant_add"]}, {"file": "src/tup/db.c", "symbols": ["tup_db_reparse_all", "tup_db_duplicate_directory_structure", "tup_db_unflag_config"]}, {"file": "src/tup/create_name_file.c", "symbols": ["tup_file_mod_mtime", "tup_file_missing", "tup_del_id_force"]}]}
{"id": "C67", "title": "Tupfiles in Lua mean what the same Tupfiles in tup's own language mean", "statement": "tup.rule and tup.foreach_rule, in each of their argument forms, make exactly the commands that a rule line with the same inputs, extra inputs, command, outputs, extra outputs and bin makes, and every other combination of arguments is an error; += makes a list of what was there followed by what is added; tup.file, tup.base and tup.ext give the parts of a path; a Tupfile sees and changes nothing of the variables and lists of another one, wherever in the middle of the other it is parsed.", "quantifier": "all Lua Tupfiles made of assignments, +=, lists, rules, imports and Tupfiles parsed in between, all states of the parser and all values", "why_tests_cant": "tables are shared and changed by reference, one Lua state serves all Tupfiles, and they are parsed inside one another in an order that depends on the rules", "anchors": [{"file": "src/luabuiltin/builtin.lua", "symbols": ["tup.rule", "tup.foreach_rule", "tup.frule", "tup_append_assignment", "tup_environ", "tup.file", "tup.base", "tup.ext"]}, {"file": "src/tup/luaparser.c", "symbols": ["tuplua_function_definerule", "tuplua_table_to_path_list", "tuplua_function_append_table", "tuplua_function_import", "push_tupfile", "pop_tupfile", "luadb_copy"]}, {"file": "src/lua/lparser.c", "symbols": ["append_assignment"]}]}
{"id": "C68", "title": "tup todo shows what an update will execute", "statement": "tup todo, once all Tupfiles are parsed, shows each command that is affected by a change, and with targets needed for one of them, exactly once and after those it depends on; the number it announces is the number it shows. Every command that the update would start was shown, so that after 'Everything is up-to-date' the update starts no command; and every command that is shown is one that the update runs. tup todo does not change what the update does.", "quantifier": "all stored graphs, all sets of changed nodes, all targets, all executions of the listing and of the update", "why_tests_cant": "the listing and the update build their graphs by different code, and the number is counted while the graph is built and pruned, not while it is shown", "anchors": [{"file": "src/tup/updater.c", "symbols": ["todo", "check_update_todo", "todo_work", "process_update_nodes"]}, {"file": "src/tup/graph.c", "symbols": ["build_graph_cb", "make_edge", "prune_graph", "prune_node"]}]}
{"id": "C69", "title": "Which directories tup takes over", "statement": "After the Tupfiles are parsed, a normal directory becomes one of tup's own exactly if it was parsed or holds a directory that was taken over, no file of the user and no directory that stays the user's is in it, and something in it is made from another directory. The loop that does so always ends without an error. Directories with a file of the user at any depth, and the top directory, are never taken over; no other node, link or flag changes, except that nothing reads such a directory any more and that tup's .gitignore file in it is deleted, or becomes the user's if it has lines of the user. The phase deletes no file that tup did not make.", "quantifier": "all databases of trees that are built in place, all sets of parsed directories, all rules, all .gitignore contents", "why_tests_cant": "the directories wait for each other: one can only be taken over after those in it, and the loop goes up from them while it changes the types that it looks at", "anchors": [{"file": "src/tup/updater.c", "symbols": ["process_create_nodes"]}, {"file": "src/tup/db.c", "symbols": ["tup_db_is_generated_dir", "is_generated_dir1", "is_generated_dir2", "tup_db_normal_dir_to_generated", "delete_normal_links"]}, {"file": "src/tup/parser.c", "symbols": ["remove_tup_gitignore", "parse"]}]}
{"id": "C70", "title": "Circular dependencies among groups are refused when they are made", "statement": "After any history of updates, the rules of the next one are committed exactly if no rule reads the group that it writes to and the rules in the project, old and new, do not lead from a group back to itself. So the database never has circular groups, although only the groups that got new links are looked at. The check ends without an internal error; the error names every group that is on a cycle; and after it the database is as it was. The links between groups always say what the rules say.", "quantifier": "all histories of updates, all orders of parsed rules and deleted commands, all graphs of groups", "why_tests_cant": "the check starts only from the groups that new links lead to, and the rest of the cycle may come from rules that were parsed in any earlier update; the table of links is kept by differences, in three ways", "anchors": [{"file": "src/tup/graph.c", "symbols": ["add_group_circ_check", "group_circ_check", "build_group_cb", "build_graph", "trim_graph"]}, {"file": "src/tup/db.c", "symbols": ["tup_db_write_inputs", "add_sticky", "rm_sticky", "group_link_insert", "group_link_remove", "delete_group_links", "tup_db_select_node_by_group_link"]}, {"file": "src/tup/parser.c", "symbols": ["do_rule"]}, {"file": "src/tup/updater.c", "symbols": ["process_create_nodes"]}]}
{"id": "C71", "title": "Records from a pool never overlap", "statement": "For every sequence of allocations and frees, by any threads and for any types, with malloc returning fresh aligned memory: the records in use are pairwise disjoint, aligned, inside memory that malloc gave, and overlap neither free records nor the links between blocks. An allocation fails only if malloc does, a freed record is used again without malloc, a pool calls malloc fewer than 20 times, and at the end each block is freed once.", "quantifier": "all histories of allocations and frees in all pools, all sizes and alignments of records, all answers of malloc", "why_tests_cant": "overlap depends on the whole history of the free lists, on which thread frees what, and on arithmetic that only goes wrong for large records or after gigabytes", "anchors": [{"file": "src/tup/mempool.c", "symbols": ["mempool_alloc", "mempool_free", "mempool_clear"]}, {"file": "src/tup/mempool.h", "symbols": ["MEMPOOL_INITIALIZER"]}]}
{"id": "C72", "title": "The monitor knows which directory each watch is for", "statement": "For every history of directories that are added, moved and deleted and of watches that the kernel drops: an event is taken for the directory that its watch was last added for, dropped watches are skipped and then forgotten, and no other entry of the table changes. If no directory gets two watches and the kernel drops none that is in the table, the table is exact in both directions, so the watch of a directory that goes is always found and removed.", "quantifier": "all histories of watches, directories and dropped watches, all numbers of directories and all orders of ids", "why_tests_cant": "the table is two search trees over the same nodes; whether they agree depends on the order of all insertions and on keys that are changed in place", "anchors": [{"file": "src/tup/dircache.c", "symbols": ["dircache_add", "dircache_del", "dircache_lookup_wd", "dircache_lookup_dt"]}, {"file": "src/tup/tupid_tree.c", "symbols": ["tupid_tree_search", "tupid_tree_insert"]}, {"file": "src/tup/monitor/inotify.c", "symbols": ["wp_callback", "monitor_rmdir_cb", "queue_event", "handle_event"]}]}
{"id": "C73", "title": "The rules that a run script prints are obeyed in order, or the first bad line is named", "statement": "For every script and every output: if the script exits with 0, the output is accepted exactly if it is made of whole lines that are blank, comments or rules that can be obeyed one after the other, and the effect is that of these rules in their order. Otherwise the error is about the first line at fault, with its number, and only the rules before it have had an effect. If the script fails, nothing it printed has any effect. Lines that stand alone mean the same as in a Tupfile.", "quantifier": "all outputs, all exit statuses, all lengths and numbers of lines, every effect that rules may have", "why_tests_cant": "the output of a script is arbitrary text; tests use a few well-formed outputs", "anchors": [{"file": "src/tup/parser.c", "symbols": ["exec_run_script"]}, {"file": "src/tup/server/fuse_server.c", "symbols": ["server_run_script"]}, {"file": "src/tup/fslurp.c", "symbols": ["fslurp_null"]}]}
{"id": "C74", "title": "The progress bar says how much of the work is done", "statement": "For every set of commands and every order in which they run or turn out to be superfluous: if the times of all commands are known, the percentage is that of the recorded time worked off, without the skipped commands; else it is that of the number of commands. It lies between 0 and 100, never goes back, and is 100 at the end, and the filled part of the bar lies inside the bar. Measured times are right to the nearest millisecond, and a pause can be taken out of one exactly.", "quantifier": "all numbers of commands, all recorded times, all orders of running and skipping, all widths, all moments", "why_tests_cant": "overflow of the counters and the rounding of differences only show for certain sums of times; tests run few and short commands", "anchors": [{"file": "src/tup/progress.c", "symbols": ["start_progress", "skip_result", "show_result", "percent_complete", "show_progress"]}, {"file": "src/tup/timespan.c", "symbols": ["timespan_milliseconds", "timespan_add_delta"]}, {"file": "src/tup/graph.c", "symbols": ["create_graph", "build_graph_cb"]}]}
