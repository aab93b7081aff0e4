# Formal model of tup in Rocq: design

The subject is gittup/tup as found in /repo. It was read as text and neither
built nor run. Everything is proved about the Gallina model in
`rocq/theories`, and the tie to the C code is the per-definition citation
(file and lines) in the model files.

## Layout

For each area `X` there are up to four files:

* `XModel.v`: the model. Every definition cites the C lines it models and says
  where it simplifies. No proofs.
* `XSpec.v`: a small specification that does not use the model's helpers.
* `XProofs.v`: lemmas.
* `XProps.v`: only the property theorems, each closed by `exact lemma`, with
  `Print Assumptions` beneath it and an `Example` showing that its hypotheses
  are met by a concrete case.

`Base.v` holds the common byte and list vocabulary.

## Conventions

* A C string is a `list ascii` without the terminating NUL (`bytes`). Where the
  property is about buffers, the NUL and the capacity are explicit.
* `int`, `size_t` and tupids are unbounded (`nat`, `N` or `Z`) unless the
  property is about their range.
* Loops are structural recursion, folds, or recursion on explicit fuel whose
  exhaustion is a distinct value that the theorem excludes.
* Undefined behaviour is a distinct outcome (`UB`), never a default value.
* External calls (system calls, the commands being built, malloc) are
  section variables, oracles or nondeterministic steps.
* A property the faithful model violates gets a theorem `..._refuted` with a
  witness. A property proved only in part gets the suffix `_partial`.

## Plan per property

| id | modelled | proof |
|----|----------|-------|
| C01-C04 | `execute_graph`/`pop_node`/worker completion as a transition system with an arbitrary scheduler (`ExecModel.v`) | invariant over all reachable states |
| C05, C06 | `build_graph` with the node states and the plist stack (`GraphModel.v`) | DFS invariant; soundness and completeness against a relational spec of reachability and cycles |
| C07 | `prune_graph`, `mark_nodes`, `prune_node` | fixpoint invariant against upstream-reachability |
| C08, C09 | database flags, links and file contents, commands as oracles that are deterministic in what they read; steps edit/update/crash (`BuildModel.v`) | invariant "every stale command is flagged or downstream of a flagged one" over all histories |
| C10 | skip flag handling in `update_work`/`process_output` | invariant over schedules |
| C11-C14 | `compare_tent_trees` and its callers over ordered id lists (`TentModel.v`) | merge correctness, then set equations |
| C15 | `file_info` event lists (`FileInfoModel.v`) | refinement to a file-state machine |
| C16 | link tables, `validate_output`, `tup_db_create_unique_link`, `tup_db_write_outputs` (`RuleModel.v`) | invariant over operations |
| C17 | `reclaim_ghosts` worklist (`DbModel.v`) | termination measure and fixpoint characterisation |
| C18 | `tup_file_mod_mtime`, `tup_del_id_type`, `set_dependent_flags` (`DbModel.v`) | direct |
| C19 | `get_file_var_tree` on bytes (`ConfigModel.v`) | print/parse round trip |
| C20 | `save_vardict_file` bytes and `tup_config_var` binary search (`VardictModel.v`) | round trip, refuted in general (signed char), proved under a guard |
| C21 | `vardb_compare` merge | set-level equations |
| C22 | `if_stmt.c` bytes `ifness`/`level` and the line dispatch (`IfModel.v`) | refinement to a stack of booleans |
| C23, C24 | `split_path_elements`, `get_path_elements` (`PathModel.v`) | path-walk semantics; C24 refuted |
| C25 | `get_relative_dir_sep` on parent-pointer forests (`EntryModel.v`) | walk semantics |
| C26, C27 | `estring.c` (`EStringModel.v`) | shell reader spec; capacity invariant |
| C28, C29, C30, C38, C41, C42, C43 | parser text functions (`Parser*Model.v`) | round trips and characterisations |
| C31 | lock protocol as a transition system with n clients, the monitor, the inotify queue and crashes (`LockModel.v`) | invariant, deadlock freedom |
| C32 | monitor queue (`MonModel.v`) | refuted (see findings), partial |
| C33 | `pel_ignored`, `is_hidden`, `ignore_file` | refuted, partial |
| C34 | `option.c` lookup | direct |
| C35 | environment block encode/decode, `env_cb` | round trip, set equation |
| C36 | FUSE mapping/tmpdir lists (`FuseModel.v`) | refinement to a file tree, refuted for directory renames |
| C37 | `access_event` records (`DepModel.v`) | round trip |
| C39 | `var_replace` (`VarsedModel.v`) | spec of leftmost substitution |
| C40 | marker automaton of `gitignore()` | refuted, partial |
| C44 | `compare_files` chunked reads (`OutputModel.v`) | exactness for all chunkings |
| C46 | `snprint_tup_entry` with the size of its buffer | walk semantics; refuted for overlong paths |
| C47 | `parse_tupfile`, `get_newline`, `fslurp` | every text is a printed list of items; reading the printed items gives the statements; refuted for a backslash at the end |
| C48 | `set_variable`, `luadb_*`, `vardb_append`, `eval_eq`, `import` | refinement to a store of texts by induction on the assignments |
| C49 | parse_bang_definition, parse_bang_rule, parse_rule, execute_rule's foreach loop; do_rule and expansion are parameters | a relation that says which rules a rule line stands for; both directions |
| C50 | parser_include_file, parser_include_rules, find_dir_tupid_dt_pg; other directives, eval and file access are parameters | success of a directive is characterised by what the included files do; depth of includes by fuel, shown not to matter |
| C51 | tup_db_write_outputs, tup_db_write_inputs, their callbacks and link tables, the last checks of do_rule | the tree comparison is a list of differences (C11); each callback's effect on sets is proved and lifted by induction over the differences |
| C52 | the same with the refactoring flag, and the choice of the command in do_rule | acceptance in both directions |
| C53 | find_existing_command, validate_output, tup_db_create_unique_link and do_rule on a database of all commands; the rules of a directory in a row | an invariant over the rules done so far, on top of C51 for each command; acceptance in both directions; order independence is refuted |
| C54 | split_command_string | an inductive grammar and equivalence with it |
| C55 | watch_path_internal over a tree of files and directories, with the creation, change and deletion of entries it does, and the end of the transaction | induction over the tree with a frame: what a part of the scan may change outside of its path, and what it has to notice inside; several corner cases are refuted |
| C56 | the lists of files and commands to delete that process_create_nodes, parse and do_rule fill, and delete_files | an invariant of the parser says what is in the lists at each point, for any directories and outputs; another one follows the deletion; the exception for removed directories is refuted |
| C57 | the three locks as a transition system: any number of processes in tup_lock_init and tup_lock_exit, a monitor with its inotify queue, fork, restart and exit | an invariant ties the owners of the locks to the places in the programs, another one ties the monitor's state to the queue; progress by cases, termination by a measure; the effect of a killed process, of a full queue and of a monitor that exits early are refuted |
| C58 | parse and parse_dependent_tupfiles as a nested recursion over directories with the flags parsing and already_used, create_work in any order, the recorded links, histories of edits and updates | invariant of the nested calls (a directory off the stack will not change any more); the result is characterised by a fixed point that does not mention the order, which is unique without circles; unnoticed circles, their recorded links and changed generated files are refuted |
| C59 | graph.c's attach_transient_nodes on top of the graph of C05, update_work's files, transient_list and skip flags as the worker of C01's scheduler | invariant of the attach passes, which gives the exact nodes, edges and skip flags; invariant of the executor over there/row/ran; a second invariant that a change is passed on when there is no ^o; six refutations by computed runs |
| C60 | master_fork.c's two processes as a transition system: threads with the lock and status_root, the socket in both directions unit by unit, the forking loop, the children, child_waiter and child_wait_notifier, the exit message | invariants about what is in the socket, which entries of status_root are open and where the status of each child is; honest history; a measure and progress for timely runs; two refutations by explicit runs and an invariant of lost calls |
| C61 | updater.c's expand_group, expand_res_file and expand_command on texts, with the counter and the resource files of a run; paths as in C25 | induction over the pieces of a text, which can be divided in one way only; invariant of the resource file names; three refutations by computation |
| C62 | the script as a text, written by generate and by generate_work as a worker of the C01 scheduler; a small shell that reads lines (comments, export, cd, mkdir -p, parenthesised commands) | the order of the script's commands is the order of Finish events of the execution, C01 and C02 give order and completeness; each line is read back by the shell; refutations by computed scripts |
| C63 | the text of the files as print_json, print_compile_db and tup_db_create_compile_db write it; a JSON reader as specification | the reader undoes the escaping, one entry, then the list by induction; success of the writer from the directory tree; refutations by computed files |
| C64 | the rows of the node table with parent, name, type and srcid, the names on the disk, plist and removing_list; get_rel_tent, tup_db_create_node_srcid, process_create_nodes up to build_graph, delete_variant_dir | one step of get_rel_tent changes only what has its name there; induction along the path; an invariant of the loop over the changed directories; a frame for what the removal touches; refutations by computed states |
| C65 | two tables of files (the build's directories and the source tree), gen_delete_root; nl_add_path, tup_db_select_node_dir_glob, make_name_list_unique, execute_rule, do_rule_outputs with validate_output; histories of edits and updates | a simulation relation between the build in the source tree and the variant, kept by every rule, Tupfile, update and edit; outputs are independent of the order of commands; refutations by computed histories |
| C66 | the disk (directories, tup.config files, generated and other files) and the database (tup.config nodes, config_list, variant_list, create_list, generated files, directories); scan, variant_load, process_config_nodes, tup_db_duplicate_directory_structure, process_create_nodes, process_update_nodes | an invariant over all histories, a loop invariant for the config list and one for the create phase; a second walk through the phases shows that they do not fail; refutations by computed histories |
| C67 | Lua values with tables by address, variables per Tupfile, _G; get_abc, tup.frule, tup.definerule, +=, import, names; statements with Tupfiles parsed in between | a run inside another one is the run alone with shifted addresses (simulation); rules by the meaning of C49; refutations by computed scripts |
| C68 | the graph of check_update_todo (build, prune, count), its execution with todo_work; the update's graph of C59 | num_nodes = number of expanded commands, an invariant of building and pruning; what is shown is the Finish events of the execution; joins (C59) lie within affected (C05) |
| C69 | the loop over normal_dir_root with the two SQL checks, and process_create_nodes around it | an inductive set of directories, by induction over the tree; loop invariant: what is taken so far, what waits, and that everything done and not taken is not ready; the fuel is enough since ids grow downwards; the phase by the lemmas of C56 |
| C70 | the table group_link as rules and deletions change it, and the graph that is built and trimmed at the end of parsing | invariant of the table over all histories; loop invariant of the construction of the graph (each finished node has all its edges, each edge is a row), with a measure for its end; the lemma of C03 for trimming; a cycle of the new table has a row that is not in the old one |
| C71 | mempool.c with machine integers, one pool for each thread and type, malloc as an oracle | invariant: items in use, free items and what is left of blocks are parts of memory that do not overlap; each operation moves or splits parts |
| C72 | dircache.c with its two trees, and the four places of inotify.c that change it | in-order lists of the trees: insertion and removal add and drop one node, search is exact if the keys increase; both trees have the same nodes; the table of the specification is followed step by step |
| C73 | the loop of exec_run_script over the output, with parse_rule as a parameter | induction on the text: a list of lines is split off, each line is classified; compared with C47 for whole files |
| C74 | the counters of progress.c as 32-bit ints, the sum of graph.c, timespan.c | the counters are sums over the history; inequalities of quotients |

## What is modelled, per area

* `PathModel` (C23, C24, C33): `split_path_elements`, `get_path_elements`,
  `pel_ignored`. The working directory is a parameter.
* `IfModel` (C22): `if_stmt.c` and the directive dispatch of `parse_tupfile`.
* `EStringModel` (C26, C27): all of `estring.c` with capacities and the
  undefined behaviour on overflow; `ShellSpec` is a reader for POSIX quotes.
* `ExecModel` (C01-C04, C06): `execute_graph`, `pop_node`, the worker threads
  and the collection of results, as a transition system. The scheduler and the
  outcome of commands are arbitrary.
* `GraphModel` (C05-C07): `build_graph`, `prune_graph`, `trim_graph`, the group
  check. `attach_transient_nodes` is in `TransModel` (C59).
* `TentModel` (C11-C14): `tent_tree`, `compare_trees`, `tup_db_check_actual_outputs`,
  `tup_db_check_actual_inputs`, `tup_db_write_inputs` on id sets.
* `FileModel` (C15): `file.c`'s read, write, unlink and rename lists.
* `BuildModel` (C08-C10): the scan, the flags and links in the database, the
  update with skip flags, acceptance of a command, what failures and crashes
  leave, and edits. Parsing is a relation (`reparse`): any change of rules
  that keeps outputs unique and flags what changed. Assumptions: file times come
  from a clock that advances with every write (a file whose time is set back to
  the recorded one is not noticed by tup either); whether a command has ^o
  is fixed for its id; transient files (^t) and unused environment variables are
  not modelled; a flagged command without ^o is not replaced by one with ^o for
  the same output (`rp_owner`).

* `ConfigModel` (C19-C21, C39, C45): `fslurp`, `get_file_var_tree`, `vardb_set`,
  `vardb_compare` with `remove_var`/`add_var`/`compare_vars`, `save_vardict_file`,
  `tup_config_var` on the bytes of the file, `var_replace`, and the order of
  dictionary write and commit. `char` is signed, `isspace`/`isalnum` are those of
  the C locale.
* `ParseModel` (C28-C30, C38, C41-C43): `split_input_pattern`,
  `split_command_string`, `next_path`, `get_path_list`, `parse_input_pattern`,
  `glob_parse`, the name list entries with `set_nle_base`,
  `make_name_list_unique`, `tup_printf`, `eval` with `expand_node_strings`.
  Variable and node lookups are parameters; buckets, bins, globbing against the
  database and rule output creation are not modelled.
* `OutputModel` (C44): `compare_files`, `compare_links`, `compare_paths`,
  `move_outputs`, `restore_outputs`, `check_outputs`. How much each read returns
  is a parameter; directories and file system errors are not modelled.
* `EntryModel` (C25, C46): the parent pointers and names of entries,
  `get_relative_dir_sep`, `snprint_tup_entry`.
- `DbModel` (C17, C18): the node table, the two link tables and the flag lists as lists; `node_has_ghosts`, `ghost_reclaimable` with its queries, `flag_group_users`, `tup_db_delete_links`, `tup_db_delete_node`, `delete_name_file`, the two-queue loop of `reclaim_ghosts`; `tup_file_mod_mtime` and `tup_del_id_type` for files, generated files and ghosts. Not modelled: SQL errors, the table `group_link`, variants, removal of whole directories, entries that change between file and directory. The order of queues is by id, as in the trees of the code.
`RuleModel` (C16, C09): how a rule's outputs and command are entered: `tup_db_create_node_part` for outputs, `validate_output`, `create_output`, `find_existing_command`, `do_rule_outputs`, the command lookup/rename of `do_rule`, `tup_db_write_outputs`, and the start of a directory's parse (delete trees). Remembered producers (`tent->incoming`) are part of the state. Not modelled: variants, refactoring mode, exclusions, transient flags, the SQL error for a link that is inserted twice, input links (an arbitrary step adds them).
`LockModel` (C31): `tup_lock_init`/`tup_lock_exit` with the fcntl locks, the open/close events on the object lock file with kernel merging, and the monitor's handling of them, for any number of processes, with arrivals, monitor start and stop, and kills (clean-up at once, or file by file in the order of opening). Not modelled: two monitors at once during a restart, inotify queue overflow, the fork of the background monitor (the parent keeps the shared lock), failing fcntl calls, the lock of the pid file.
Monitor event queue (MonModel.v): inotify.c queue_event, eventcmp, ephemeral_event, check_from_events, add_from_event, flush_queue and handle_event for events on user files; tup_file_mod, tup_file_mod_mtime, tup_file_del and watch_path restricted to recorded mtimes and the changed marks. The order of kernel events is that of the operations, each rename having its own cookie; several writes may give one event each. Directories, overflow, skipped names (C33), generated files and tup.config are not modelled. Freed events are modelled by address: reading an event that is no longer queued is undefined behaviour (None).
- `DepModel.v`: the access records of a job as the preloaded library writes them (ldpreload.c `handle_file_locked`, `ignore_file`; ccache.c), the server's `process_depfile` (depfile.c 386-463) up to its calls of `handle_file` (what those do is C13-C15), and the processes of a job appending to one file under the file lock, with kills. Records are little-endian; a failing write or lock is not modelled; `read` returns what is there.
* `OptModel` (C34): the INI reader of src/inih (`fgets` in 200-byte lines, `find_chars_or_comment`, headings, settings, byte order mark), `parse_callback`, the table of 18 options with their checks and defaults, `parse_cmdline_options`, `parse_option_file`, `tup_option_init`, `tup_option_get_string`, `_get_flag`, `_get_int` with `atoi`, and the limits on the number of jobs. Not modelled: how the default values are found (`cpu_number`, terminal width, tty), the change of `display.width` with the window, `tup_option_process_ini` (tup.ini), NUL bytes in a file as far as `file_says` goes (`C34_values_allowed` and `C34_known` cover any bytes).
* `GitModel` (C40): the copying loop of `gitignore` and `remove_tup_gitignore` with its matcher for the marker, `write_gitignore_line`, `tup_db_write_gitignore` over the names the select gives, the header lines. Not modelled: I/O errors, which directories get a section, the change of the node's type.
* `EnvModel` (C35): `getenv`, `envdb_set`, `env_cb`, `tup_db_check_env`, `tup_db_findenv`, `tup_db_get_environ` with its sizes, the conversion of the block in the master fork process. Variables are identified by name, and the order of the trees is not modelled. `C35_scheduled` joins it to the graph of C05. Not modelled: the transaction around a run, the sticky links of commands (which variables a command has is a parameter, C12/C13), allocation errors.
* Job file system (`FuseModel.v`): all handlers of server/fuse_fs.c (FUSE 3) that
  change or read names, mappings and directories of jobs, the start and end of a
  job and the moving of its files (file.c:814-833). The kernel's own checks
  (existing parents, EEXIST, ENOTEMPTY, rename loops) are modelled as a layer on
  top. Simplified: an open file is addressed by its name; permissions are two
  parameters; no hard links, attributes, chmod, utimens or statfs; the kernel's
  cache and failing system calls of the server are left out; writing into real
  files that are hidden or excluded is not modelled. Jobs run one request at a
  time (the server holds the job's lock), interleaved in any order.
* `TextModel` (C47, C48): the loop of parse_tupfile on the bytes of the file
  (leading blanks, joined lines, trimming, comments, line numbers, the read past
  the end), set_variable, the Lua tables that hold $-variables, &-variables,
  import, ifeq and ifdef. Rules, macros, include, run, preload, export and
  .gitignore are an arbitrary function on the state. Evaluation is `eval` of
  ParseModel. Not modelled: Tupfile.lua, allocation failures, the notes about
  used configuration variables (C19).
* `MacroModel` (C49): definitions and uses of !-macros, and the foreach loop. What is done with one job (`do_rule`), the expansion of path lists, bins and the check of output names are parameters.
* `IncludeModel` (C50): include and include_rules with the walk through the database. The conditions, eval of the name, all other directives, the Lua interpreter, and opening and noting files are parameters; there are no variants and no symbolic links.
* `LinkModel` (C51, C52): what the end of do_rule writes: outputs, exclusions, groups, declared inputs and environment of one command. SQL tables are lists of rows with their uniqueness; other commands appear only through the membership of files in groups. Taking outputs over from another command before (tup_db_create_unique_link) is the hypothesis `taken_over`.
* `RulesModel` (C52, C53, C54): split_command_string; the choice of the command of a rule, taking outputs from other commands, and the rules of one directory in a row, on a database of all commands. The paths and variables of a rule are already expanded; whether an output's node is new is an input; other directories appear as those still to be parsed and those with commands no rule kept. sqlite3_total_changes is modelled by the calls of tup_db_set_display, the only unexpected writes a successful refactoring can do in the model.
* `ScanModel` (C55): watch_path_internal, tup_file_mod_mtime, create_name_file, make_dirs_normal, tup_file_missing, tup_del_id_type, tup_db_delete_dir, tup_db_create_node for directories, and tup_scan with reclaim_ghosts. The disk is a tree with times; entries that come or go during the scan, lstat and SQL errors, variants, full dependencies (files outside of the tree) and the callbacks of the monitor are left out. The order of missing entries is any permutation.
* `CleanModel` (C56): process_create_nodes for removed directories, parse and do_rule as far as gen_delete_root, save_root and cmd_delete_root go, the entry of an output in tup_db_create_node, create_work, delete_files and the end of the transaction. What a Tupfile declares is given (C47 to C53 are about that), and so is the order of the directories. Variants, .gitignore files, the links of new commands, and normal directories that become generated ones (updater.c:1551-1593) are left out, and so are errors of unlink.
* `TriModel` (C57), a second, finer model of the locks (each system call is a step) that adds to `LockModel` what it leaves out, the fork of a monitor into the background, the restart after an overflow, file events, and the end of the work: tup_lock_init, tup_lock_exit, tup_lock_closeall, the locks of flock/fcntl.c, and of monitor/inotify.c the start in the foreground and the background, monitor_loop as far as locks and the order of events go, the restart after an overflow, and the exit. The kernel's part is in it too: fcntl locks belong to processes, inotify merges equal neighbours and drops events when its queue is full, and the files of a killed process are closed in order. Each system call is one step; the work under the lock is a number of file events. Errors of system calls, two monitors at a time and the content of file events are left out.
* `OrderModel` (C58): parse_dependent_tupfiles, the frame of parse (flags, files to be deleted, links written), create_work, the order of execute_graph as any order that respects the recorded links, tup_db_write_dir_inputs, and which generated files a pattern can see (build_name_list_cb, gen_delete_root, save_root). A rule is a list of directories and any function from the names found there to outputs; it never fails. Variants, generated directories, explicit names and two Tupfiles that make the same file are left out.
* `TransModel` (C59): build_graph with the transient list, the held ^t commands and attach_transient_nodes; update_work with the skip flags, the files that are there, mark_transient_outputs, unlink_node and the rows of transient_list. A command changes only its outputs (C15), makes them all if it succeeds and any part of them if it fails. Why unlinkat may fail other than for a missing file, variants and the removal of directories are left out. The scheduler is that of ExecModel.
* `ForkModel` (C60): master_fork_exec, master_fork_loop, child_waiter, child_wait_notifier and server_post_exit as steps of threads and processes, with sockets of any capacity read and written unit by unit (the header is one unit), and the wait status. Left out: errors of system calls, what the child does between fork and exec, the splitting of the environment block, mounts, and the cut of ids to 32 bits (`struct server.id` is an int): ids are taken to be below 2^31.
* `ExpandModel` (C61): expand_group, expand_res_file, expand_command. Left out: errors of allocation and of writing, and the width of the counter of resource files (an int).
* `GenModel` (C62): generate_script_mkdir, the header, the --builddir and mkdir lines of generate, generate_work, print_tup_entry and write_tup_entry for directories, and the dispatch of updater.c:3025-3032. Left out: scanning, parsing and pruning (C05, C07, C53, C55), get_rel_tent (the directories of --builddir are a parameter), Windows batch files, errors of writing to the script. The shell of `GenSpec` knows only the lines that occur, assumes CDPATH is unset and describes runs in which every command succeeds.
* `JsonModel` (C63): print_json with its buffer size, print_compile_db with its static first_time, tup_db_create_compile_db, the loop of compiledb over the variants, is_compiledb_tent. The tree of commands and get_sticky_inputs are parameters, as are the variant of a command and variant_tent_to_srctent. Left out: the errors of the output stream, and the scan, parse and partial update that main.c does first. The reader of `JsonSpec` knows strings (without \\u), arrays and objects.
* `VariantModel` (C64): get_rel_tent, tup_db_create_node_srcid for directories, tup_db_delete_node, the loop of process_create_nodes before build_graph, mark_variant_dir_for_deletion, delete_variant_dir with rm_variant_dir_cb, cleanup_dir, tup_entry_variant, is_virtual_tent. Ids are given as sqlite does, so an id may be used again. Left out: flags, links and the reclaiming of ghosts (C17), the cached variant of an entry, generated files of ghosts (C56), directories that depend on a removed one (they are only parsed), a variant directory that vanished from the disk before its removal.
* `NamesModel` (C65): nl_add_path with explicit names and wildcards, tup_db_select_node_dir_glob, build_name_list_cb, make_name_list_unique, foreach, do_rule_outputs and validate_output, !tup_preserve, gen_delete_root at the start of a Tupfile and at the end of an update. sqlite's glob, and whether a node that goes becomes a ghost, are arbitrary functions. The rows of a directory come in the order of the index on names. Left out: groups, bins, exclusions, order-only inputs, full dependencies, ghost directories, generated directories, the save list (C56), the text of commands, duplicate commands (C16), the order in which Tupfiles are parsed (C58).
* `ModeModel` (C66): what a scan notices about tup.config files, directories and outputs, variant_load, all branches of process_config_nodes but the one for a disabled variant, check_empty_variant, delete_variant_dirs, recurse_delete_variant, delete_in_tree, tup_db_reparse_all, tup_db_duplicate_directory_structure, get_rel_tent, the create phase and the update phase with commands that fail. A failed update rolls the database back to the last commit and leaves the disk as it is. The set of directories with a Tupfile is fixed, and a Tupfile only generates files in its own directory. Left out: the variables in tup.config (C08, C38), source directories that come and go (C64), generated directories, externally changed outputs, explicit variants in command lines.
* `LuaModel` (C67): the functions of builtin.lua but tup.include, tup.glob, tup.run, tup.getcwd, tup.getdirectory, tup.nodevariable and the wrappers of io; tup.definerule down to execute_rule (C49), whose parts are section variables as there; += as compiled by tup's Lua; the environment of a Tupfile (tupvars and _G), import. Lua itself is reduced to straight-line scripts over strings, natural numbers, booleans and tables with strings as other keys. The order in which lua_next visits named fields, the text of plain tables, and nil within a list are `Unknown`.
* `TodoModel` (C68): the third phase of tup todo, on the graph of C05/C07 and the execution of C01/C02. The first two phases (tup.config and Tupfiles to be parsed), the scan before them, and how a command is printed are not modelled. The update it is compared with is that of C59.
* `ConvModel` (C69): the loop that changes normal directories to generated ones (updater.c:1551-1593), the checks and changes of db.c that it calls, remove_tup_gitignore as far as the database goes (whether a .gitignore file has lines of the user is given), and process_create_nodes with it. Only trees without variants. `may_read` is the check of the parser for inputs in generated directories (parser.c:2598-2604).
* `CircModel` (C70): tup_db_write_inputs as far as groups go, delete_group_links, add_group_circ_check, group_circ_check with build_graph and build_group_cb, the check for a rule that reads its own group, and the end of process_create_nodes. SQL and malloc do not fail; tup refactor is left out. trim_graph is the one of `GraphModel`.
* `PoolModel` (C71): all of mempool.c. Operations of different threads are taken one after the other, as their pools are separate and the list of blocks is locked; pointers have 8 bytes; the decrement of free_count does not overflow.
* `WatchModel` (C72): dircache.c, the search trees of tupid_tree.c (without rotations; the comparison is exact, which it is for ids below 2^31), and wp_callback, monitor_rmdir_cb and the handling of IN_IGNORED in inotify.c. Removing a node that is not in a tree is an error of the model. The loop that clears the table after an overflow is left out. The histories of the refutations need no rotations in the tree of the directories.
* `ScriptModel` (C73): exec_run_script of parser.c and the result of server_run_script of fuse_server.c. parse_rule is a parameter. The directory list, the environment and how the script is run are left out. An error of fslurp_null or of close is left out.
* `ProgressModel` (C74): the counters of progress.c with the percentage and the length of the bar, the sum of the recorded times in graph.c, and timespan.c. Sums and products of ints wrap around. The estimate of the remaining time (in floating point), the texts inside the bar and the pruning of the graph are left out, and so are timespan_seconds and the overflow of `console_width - 9`.

## Findings

Proved as `_refuted` theorems, with witnesses:

* C03: `-j0` is accepted on the command line and no job slot exists.
* C04: a failure is noticed only when its result is collected.
* C06: `build_graph` does not see every cycle; such a graph is never executed
  to success, the update ends with an error instead.
* C09 (and C08): a command with ^o that fails after creating an output that was
  not there before leaves that output; the next run finds equal contents,
  counts the output as unchanged and skips commands that never saw it.
* C14: ids are subtracted as `int`, so trees with ids 2^31 apart are merged wrongly.
* C15: a file that was read and then removed is not recorded as read; a rename
  of a file that another command wrote keeps the old name.
* C19: tup.config is read without a terminating NUL; a last line without newline
  makes `strchr` run past the buffer. Trailing blanks of an unquoted value are cut.
* C20: names with bytes above 127 are sorted as unsigned and searched as signed.
* C39: varsed drops a leading byte-order mark.
* C45: `save_vardict_file` runs before the commit and only if something
  changed: after an aborted update and a return to the old tup.config the
  dictionary keeps the new values.
* C22: a second `else` is accepted and flips the block again.
* C24: the "inside the tree" check compares prefixes without a component
  boundary, and `..` above the root is dropped.
* C26: `%"f` does not protect backslash, dollar and backquote.
* C27: capacity doubling overflows `int` at 2^30 bytes.
* C28: %B of a bin or external file with a dot only in its directory has a
  negative length; %O of an output without extension is cut at the wrong place;
  %99f is rejected, %4294967297f is %1f.
* C29: `\&(` is not an escape; a variable value of the form `%5t` is resolved as
  a node reference.
* C30: names of PATH_MAX bytes are copied into a buffer of PATH_MAX bytes; `|`
  inside quotes divides the input list. (The loop that trims the inputs before
  `|` tests a byte that was just set to NUL and never runs.)
* C41: %g is wrong if the matched part starts with the wildcard character,
  unset for `**`, and unset (or an error) if the file is also listed by name.
* C44: two reads of different length make an unchanged output count as changed
  (harmless); symbolic links are compared on their first 4096 bytes only.
* C25: the system's root is an entry "/" inside the project's top, so a relative
  path from a subdirectory to a file outside is wrong. No caller was found that
  depends on it for names used in commands.
* C46: `snprint_tup_entry` passes a negative size to snprintf once the parent's
  path does not fit, and writes behind the buffer before its callers see
  that the path is too long.
- C18, refuted for `tup.config`: when a file of that name is removed, `tup_del_id_type` returns early. Commands and Tupfiles that read the file as a file, rather than through its variables, are not flagged (`C18_removed_tup_config_refuted`).
- C17: a plain ghost is only kept by normal links, its contents and its variants; declared inputs (sticky links) do not keep it. A removed command queues what it read and wrote, but not the groups among its declared inputs.
C16: an output that no command makes can be rejected as owned (`C16_free_output_accepted_refuted`). `rm_output` removes the link but leaves `tent->incoming` of the output set. If a rule in an earlier parsed Tupfile read the output (which fills `incoming`) and another rule took the old command over, a later Tupfile that declares the output sees the old command, which is no longer about to be deleted, and the parse fails with "Unable to create output file because it is already owned". A new process accepts the same rule on the same database.
C31: a kill can deadlock the lock protocol (`C31_killed_no_deadlock_refuted`). A tup process is killed while it works and another one waits for the shared lock. The kernel closes the shared lock first, so the second process opens the object lock file before the first one's close event. The monitor, which is away, ignores the open, handles the close and takes the object lock back before the second process gets it. No further event comes: the second process waits for the monitor for ever and holds the shared lock. A kill also lets a process leave while the monitor does not have the database (`C31_killed_handed_back_refuted`).
C32: ephemeral_event drops the arrival half of a rename together with its from_event. `mv a b; rm b` (both existed) before a flush records neither removal (C32_lost_deletion_refuted); `mv a b; mv b c` loses the removal of a (C32_renamed_twice_refuted).
C32: an IN_MOVED_FROM whose mask was cleared by ephemeral_event (the name was created again) never reaches handle_event, so its entry stays in moved_from_list after flush_queue has freed the event; the next IN_MOVED_TO reads it (C32_freed_event_refuted: `rm b; mv a b; touch a`, flush, `touch c; mv c b`).
- C37 `C37_killed_writer_refuted`: a process killed after it wrote the head of a record and before its text leaves a torn record; the lock goes away with the process. The record of the next process is then read as the text of the torn one, and the server accepts the file: a dependency is lost without an error. `C37_negative_length_refuted`: a length of -1 in a damaged file passes the tests (`read` of 0 bytes gives 0), and the server reads the byte before its buffer. The theorems hold for jobs whose processes are not killed within a record.
- C34 (all proved as `_refuted` theorems in `OptProps.v`): `-jx` is taken without a check, although the same value in a file is refused. Arguments after `--`, which are files for the rest of tup, still set options. A line of 200 bytes or more is read in pieces, so the text at the end of a long comment can set an option. A number from 2^31 on is cut to an int: `num_jobs=4294967297` is 1 job. `num_jobs=` with no digits is accepted.
- C40: `C40_last_line_refuted`: a .gitignore that does not end in a newline gets the marker on its last line, so that the user's last pattern is no longer there. `C40_again_refuted`: if that line ends in `#`, the matcher, which has no fallback, does not find the marker again; the next rewriting adds a second section and leaves the old one among the user's lines for good. `C40_lookalike_refuted`: the marker is also found at the end of a user's line, and what is below is lost. `C40_star_refuted`, `C40_backslash_refuted`: only `[` and `]` are escaped. The theorems are for a user's part of whole lines without the marker, and plain names. By reading only: `fclose` of the new file is not checked before it replaces the old one, and `remove_tup_gitignore` takes a read error for the end of the file.
- C35 `C35_ccache_refuted`: an exported `CCACHE_NODIRECT` is in the environment twice, because tup adds its own at the end without looking. `C35_export_assignment_refuted`: `export CC=gcc` looks for a variable named `CC=gcc`, records that it is not set, and passes nothing on, without an error.
* C36: renaming a directory that the job created and that is not empty leaves its
  files under the old name (`C36_rename_directory_refuted`). Renaming it over another
  one leaves two entries, so that rmdir does not remove it. Renaming a real file over
  one of the job fails with ENOENT after the target was removed. A file of the job
  renamed over a real one brings the real one back when it is removed. Opening a
  real file for writing fails and hides the file from the job; truncating it fails
  but counts as a write. The root directory does not list the job's files.
* C33: the file server takes each component that starts with .git, .tup, .hg, .svn
  or .bzr as hidden, so .gitignore is hidden there and nowhere else
  (`C33_server_agrees_refuted`).
* C47: a Tupfile whose last byte is a backslash (even in a comment) makes
  parse_tupfile overwrite the terminating NUL and read past the buffer
  (`C47_end_of_file_refuted`); a first line of one byte reads the byte before the
  buffer (`C47_first_byte_refuted`, harmless). A rule after an empty continued line
  is not recognised, because its indentation stays (`C47_rule_after_break_refuted`).
  Lines end at a NUL byte too; the theorems are about texts without NUL.
* C48: a value that contains += or := is split there
  (`C48_operator_in_value_refuted`); runs of spaces in a value become one
  (`C48_spaces_kept_refuted`); appending to a variable that was set to nothing gives
  a value that begins with a space (`C48_append_to_empty_refuted`); a variable named
  like a directive cannot be assigned with a space before the operator
  (`C48_directive_name_refuted`).
* C49: foreach is found by comparing seven bytes, so `!m = foreachx |> ...` is a foreach macro with input `x` (C49_foreach_word_refuted). Only a space, not a tab, ends the name of a macro in a rule (C49_tab_refuted). `!a = !a` is an error (C49_self_alias_refuted).
* C50: the test for Lua looks at the first `.lua` in the path, so `x.lua.d/y.lua` is read as a plain Tupfile (C50_lua_refuted). A file that includes itself is included again and again until tup runs out of file descriptors; nothing looks for the cycle (C50_cycle_refuted).
* C53 (order): when an output moves from one command to another, tup_db_create_unique_link removes the old link as soon as the taking rule is parsed. If that rule comes first, the rule of the losing command then sees no difference and the command is not run; if it comes second, it is (`C53_order_refuted`).
* C52 (display): a refactoring that changes only a display text (`^ text^`) is accepted by the parser, which updates the row, and then fails with the internal error `The database changed while refactoring` because tup_db_set_display does not count its change as expected (`C52_display_refuted`). A newly imported environment variable is counted twice as expected (db.c:5217 and 6609) and leads to the same error; that one is not modelled.
* C55 (scan fails): tup_db_create_node turns a ghost into a directory without taking it from ghost_root, as the same step for a file does. If the command that looked for it is deleted in the same scan, reclaim_ghosts finds a directory in its list and the scan fails, again and again (`C55_scan_completes_refuted`): `rm -rf sub/A; mkdir zB` where a command of sub/A had looked for ../../zB.
* C55 (groups): a directory called like a group of its directory (`<objs>`) makes tup_db_create_node call itself for ever, since tup_del_id_type leaves groups alone (`C55_scan_ends_refuted`); a file with that name gives an internal error (`C55_group_file_refuted`).
* C55 (names): a file with the same name as a command of its directory (`: |> configure |>`) removes the command from the database (`C55_command_kept_refuted`). A file called `$` or `^` in the top directory removes tup's own directory of that name (`C55_special_file_refuted`).
* C55 (types): a file replaced by a fifo, socket or device is not noticed (`C55_fifo_refuted`). A generated file replaced by a directory is forgotten, but neither is its command run nor the Tupfile parsed again (`C55_generated_directory_refuted`). A removed directory called tup.config becomes a ghost and its files stay (`C55_config_directory_refuted`).
* C55 (generated directories): a file of the user where a command had looked for one, in a directory that tup made, leaves the directory as tup's and no Tupfile is parsed again; with no such ghost the directory becomes the user's (`C55_ghost_in_generated_directory_refuted`).
* C56 (edited file deleted): process_create_nodes puts the outputs of a removed directory into gen_delete_root without split_roots. An output in another directory that the user has edited is therefore deleted if the directory with its Tupfile is removed, although it is kept as a normal file if only the Tupfile or the rule is (`C56_edited_file_refuted`, with the scan before it; `C56_edited_file_kept` is the other case).
* C57 (killed process): if a process is killed while it has the object lock, the kernel drops its shared lock first. Another process can then open the lock file before the monitor has seen the close of the first one; the monitor, which is off, ignores the open, takes the object lock on the close, and does not know that someone waits for it. Nobody goes on until the monitor is stopped (`C57_killed_refuted`).
* C57 (full queue): if the inotify queue is full when a process closes the lock file, the monitor only gets the overflow event. It acts on that event when it has the lock, and takes the lock when it gets the close event, so the process waits for ever in tup_lock_exit, for any size of the queue (`C57_overflow_refuted`).
* C57 (monitor exits early): the parent of a monitor in the background waits until it sees that someone owns the object lock, and looks every 10 ms. If the child has taken the lock and failed in between (for example because there are too many watches), the parent waits for ever and holds the shared lock (`C57_early_exit_refuted`).
* C58 (unnoticed circle): already_used is set before a Tupfile is parsed on behalf of another one, and a directory with that flag is skipped before the check for circles. So a circle that is entered from a third directory is not reported: one of its Tupfiles misses files that the other one generates, and the update succeeds (`C58_unnoticed_refuted`). It is reported when the first directory popped that depends on the circle is on it (`C58_noticed_partial`).
* C58 (stuck): the links of such a circle are recorded. When the user then removes the circle from the Tupfiles, the links are still in the graph of directories to parse, which therefore has no order: every later update fails, as only parsing would replace the links (`C58_stuck_refuted`).
* C58 (changed generated file): when a Tupfile is parsed again, the files it generated are hidden until a rule makes them again, but not those that someone changed in between. So a pattern in an earlier line of the same Tupfile matches such a file, and a rule appears that is not there without the change (`C58_changed_refuted`).
* C59 (torn command): if an interrupted update leaves one output of a ^t command behind while another one is missing and needed, attach_transient_nodes moves all the outputs from the work list, but the one left behind is on the other list already: "tup internal error: Node is being removed from a different list", in this and every later update (`C59_torn_refuted`). This is the only way to fail besides cycles if the outputs are plain files that nobody touched (`C59_graph`).
* C59 (groups): the same internal error for a ^t command with a group among its outputs, when something else in the graph also belongs to the group (`C59_group_refuted`), and for a temporary file that the user made by hand (`C59_touched_refuted`).
* C59 (^o before ^t): a ^t command whose temporary outputs are missing and that takes part only because of a change is skipped if a ^o command before it does not pass the change on. A command that needs the temporary file for another reason then runs without it (`C59_inputs_there_refuted`); if none does, the update still fails, because it cannot delete the missing file (`C59_missing_delete_refuted`). Without ^o the file is there (`C59_inputs_there`).
* C59 (removed leftover): if a temporary file that an interrupted update left is removed by hand (or the crash was between the deletion and the commit), its record makes the next updates assume that it is there: the ^t command does not join, and commands run without their input (`C59_removed_refuted`).
* C59 (stale outputs): a temporary file left behind is put into the graph without what depends on it. If its ^t command runs again because its input changed, only those readers of the file run that changed for another reason; the others keep outputs made from the old contents, and the update succeeds (`C59_stale_refuted`).
* C60 (child ends before it is entered): master_fork_loop enters a child in the tree of children after fork returns. If child_waiter is already in wait because of another child, and the new child ends before it is entered, child_waiter finds no entry, prints "Unable to find pid in child_waiter" and ends. No status is ever sent again: every command that is running or started later waits for ever (`C60_every_call_returns_refuted`). When this does not happen every call returns (`C60_every_call_returns_partial`).
* C60 (pid used again): wait frees the pid before child_waiter removes the entry of the child. If the next fork gets the same pid in between, the entry cannot be made, and the forking process exits with an internal error; the threads of tup wait for ever (`C60_pid_reuse_refuted`).
* C61 (variants): the path to a %<group>.res file is written with as many .. as the variant's directory is deep, but the command runs in the source directory. In a variant build/ a command of sub/ gets ../../.tup/tmp/res-0, which is outside the project (`C61_resource_file_in_variant_refuted`).
* C61 (beginning of the name): only as many bytes of a group's name are compared as the text in the command has, so %<a> also takes the files of an input group called <a>b (`C61_other_group_refuted`).
* C61 (blanks): paths with blanks are not quoted; %<group> then gives the same words for different files (`C61_words_refuted`).
* C62 (--builddir): the directories of generated files are written with print_tup_entry, which is for messages and shows a variant's part in brackets: the script makes a directory called '[build] gen' instead of build/gen (`C62_builddir_refuted`).
* C62 (--builddir, quoting): the directories of the build directory are written without quotes; a blank makes two directories (`C62_blank_refuted`).
* C62 (comments): a command is put in parentheses on one line, so a comment at its end swallows the closing parenthesis and the script is not complete; the update runs the same command without a problem (`C62_comment_refuted`).
* C62 (symlinks): !tup_ln and !tup_preserve commands are interpreted by tup itself, but the script has them as commands for the shell (`C62_symlink_refuted`).
* C63 (variants): first_time in print_compile_db is static and never set again, so with several variants all files but the first with entries begin with a comma and are not JSON (`C63_variants_refuted`).
* C63 (control characters): print_json escapes quotes and backslashes only; a tab in a command makes the file unreadable (`C63_tab_refuted`).
* C63 (file names): the path of the file is written without print_json (`C63_name_refuted`, `C63_name2_refuted`).
* C63 (buffer): print_json allocates 2 * len bytes and no room for the end: a text in which all characters are escaped, or an empty one, writes behind the buffer (`C63_overrun_refuted`).
* C64 (replaced): a directory of a variant that is marked for removal is still taken by get_rel_tent for a renamed source directory with the same path (monitor: rm -r a; mv b a), and then removed: the renamed directory has no directory in the variant and is not parsed for it (`C64_replaced_refuted`).
* C64 (moved): only the last name is compared with the source directory; after mv x/a y/a the variant keeps build/x/a, on the disk and parsed, beside build/y/a (`C64_moved_refuted`).
* C64 (generated directory): delete_variant_dir does not go into generated directories, so removing a source directory fails forever if a command made a directory in the variant's one (`C64_generated_dir_refuted`).
* C65 (order): in a variant a wildcard lists the generated files first and then the source files; in the source tree they are sorted together, so that %f is not the same (`C65_order_refuted`).
* C65 (outputs in other directories): do_rule_outputs searches the source directory for the path with its directory prefix, so that in a variant a rule may generate sub/x although the source tree has sub/x; a wildcard then has x twice (`C65_far_output_refuted`).
* C65 (reserved names): the output path already has the variant's prefix when it is compared with Tupfile, tup.config and so on, so that in a variant these can be generated (`C65_reserved_refuted`).
* C65 (!tup_preserve): after it a wildcard in a variant has the copy and the source (`C65_preserve_twice_refuted`); on a wildcard that also matches a generated file it fails, in a variant only (`C65_preserve_fails_refuted`).
* C66 (nested variants): process_config_nodes does not remove the variant_list row of a variant that is not directly below the top (the "discard variant" branch), so that later updates build in its directory again although it has no tup.config (`C66_nested_removed_refuted`), and when its tup.config comes back only the outputs of the top are built in it while the build in the source tree stays (`C66_nested_again_refuted`).
* C66 (nested variants): delete_variant_dirs looks for the last name of the new variant's directory in each variant, so that adding builds/sub deletes the outputs in a/sub of variant a, and they are not built again (`C66_nested_new_refuted`).
* C66 (a variant directory that comes back): after rm -rf a; tup scan; mkdir a without tup.config, the next update succeeds, builds nothing, and later ones build in a/ as well as in the source tree (`C66_back_empty_refuted`). With its tup.config and a second tup scan before the update, the outputs in its sub-directories are missing (`C66_back_scanned_refuted`).
* C66 (names): an output with the name of a variant directory is deleted in the other variants when that variant is removed, and not built again (`C66_output_name_refuted`).
* C67 (tables are changed): tup.rule takes extra_inputs, extra_outputs and bin out of the caller's table, so that a second rule with the same table has no extra inputs (`C67_table_twice_refuted`). += changes every variable that holds the same table (`C67_alias_refuted`).
* C67 (globals): tup.import sets the variable in _G, which all later Tupfiles of the update see without a dependency on the environment variable (`C67_globals_refuted`), and tup.ext leaves its variable match there: the result of a Tupfile depends on which others were parsed in the same update.
* C67 (names): tup.base and tup.ext know no extensions with bytes other than letters and digits, such as .c++ (`C67_extension_refuted`).
* C67 (macros): the text after the name of a !-macro, as in '!cc -O2', is taken as part of the name (`C67_macro_text_refuted`). A list that was made by += and is put in another list becomes one name with spaces (`C67_nested_refuted`).
* C68 (^t): the outputs of a ^t command are gone after an update; the scan records the command as changed for that, and tup todo shows the command and all that depends on it, after every update, while tup has nothing to do (`C68_transient_refuted`).
* C68 (targets): tup todo with targets records the commands that these do not need as changed and commits that. A command behind a ^o command whose output does not change is then run by the next update, which otherwise would have skipped it (`C68_changes_nothing_refuted`).
* C69 (readers): a Tupfile that reads a directory of the user is not parsed again when that directory is taken over, and the update succeeds; but when it is parsed next, or in a fresh clone, it is refused because its input is in a generated directory (`C69_reader_refuted`).
* C69 (.gitignore): a .gitignore file with lines of the user does not keep its directory from being taken over; it stays in it as a file of the user (`C69_own_file_refuted`).
* C69 (order): a directory that the user made is removed from the disk with the last output in it, if the user's last file in it was removed before or with the rule; if the rule is removed first, the directory stays (`C69_user_dir_refuted`, `C69_other_order`).
* C69 (hidden): what tup does not look at (.git, pipes) does not count, so a directory with such an entry is taken over; when the last output in it goes, rmdir fails and so does the update (`C69_hidden_refuted`).
* C70 (files): a cycle that goes through a file, where one rule reads <g> and writes a file that another reads to write to <g>, is not seen when it is parsed, and is committed; it is only reported when the commands are to run (`C70_files_refuted`).
* C70 (names): the error also names groups that are on no cycle, if they are between two cycles (`C70_named_exact_refuted`).
* C71 (large records): a type that does not fit into the first block of 4096 bytes is not refused; the count of free items is then 0 and becomes -1, and the item goes beyond the block (`C71_large_refuted`). No type of tup is that large.
* C71 (4 GB): next_alloc_size is an unsigned int that is doubled; when a pool has got 4 GB less 4096 bytes it is 0, malloc(0) is called, and items behind it are given out (`C71_4gb_refuted`).
* C72 (dropped watches): queue_event sets the id of a node in the tree to -1, which puts the tree out of order. Other directories are not found then, and a node that is added in the meantime can keep the tree out of order for good (`C72_miss_refuted`). A directory that is moved out of the project can so stay in the table, and events in it are taken for the old one (`C72_stale_refuted`); if its id is used again, a node is removed from a tree that it was never put in, through pointers that were not set (`C72_crash_refuted`).
* C72 (two watches): dircache_add does not look at the result of inserting the id. If a directory is moved away and made anew before the first event is handled, two watches have one id, the second node is not in the tree, and its removal goes wrong in the same way (`C72_twice_refuted`).
* C73 (NUL bytes): the output is handled as a C string, so everything after a NUL at the start of a line is ignored without a message (`C73_nul_refuted`).
* C73 (layout): a rule that goes on in a second line after a backslash, or that is indented, is accepted in a Tupfile but never from a run script (`C73_continued_refuted`, `C73_continued_ex`).
* C74 (long builds): percent_complete multiplies the time in ms by 100 as an int. After 5.97 hours of work, on all processors together, the percentage is negative, and so is the number of bytes that show_progress fills in a buffer on the stack if colors are off (`C74_overflow_refuted`).
* C74 (new commands): if the time of a command is not known, the total is -1. skip_result subtracts from it all the same, so after the first skipped command the figures are not marked as approximate any more, and the remaining time is computed from a negative total (`C74_approximate_refuted`).
* C74 (rounding): timespan_milliseconds adds 500 "to round to the nearest ms", but the difference of the microseconds can be negative, and C rounds towards 0: the result can be too large by up to 1.499 ms (`C74_nearest_refuted`).

## Trusted base

* Coq 8.16.1's kernel.
* The reading of the C code: each model definition cites its lines.
* Axioms: none. `Print Assumptions` stands beneath each theorem in the
  `*Props.v` files and prints "Closed under the global context" for all.
* The library itself declares seven parameters in `Coq.ssr.ssrunder` (`Under_rel`),
  which the checker lists for the loaded libraries; no theorem here depends on them.
