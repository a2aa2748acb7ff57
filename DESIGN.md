# Formal model of rocky/remake — design

The code under study is the C program in `/repo` (remake, a GNU make 4.3 fork
with a debugger).  It is read as text only; nothing here runs it.

## Approach

* One Coq directory, `rocq/theories/`, logical prefix `Verif`.
* For each subsystem there are three kinds of files:
  * `M_<area>.v`  – the model: small executable Gallina functions, one per C
    function, each with a comment naming the C file and lines it transcribes and
    what was simplified;
  * `S_<area>.v`  – the specification: independent, short definitions written from
    the documentation point of view (split on whitespace, finite map, ...);
  * `P_<area>.v`  – proofs.
  * `Properties*.v` – only the property theorems, each closed by `exact`, with
    `Print Assumptions` and a non-vacuity `Example` next to it.
* C strings are `list ascii` without NUL.  Reading past the terminator, writing
  past a buffer and similar undefined behaviour is a separate outcome
  (`None`/`UB`) wherever the property is about it.
* Loops become structural recursion; loops that need a measure use fuel and return
  a distinct "out of fuel" value that the theorem excludes or proves impossible.
* External calls (stat, getcwd, fork, read on the jobserver pipe, hash functions)
  are parameters quantified over in the theorem (Section variables closed at the
  end of the section), never axioms.
* If a property is false of the code, the theorem `..._refuted` gives the witness
  and the property is proved under the weakest natural guard; such cases are listed
  under *Findings*.

## Plan per property

| id | model | proof idea |
|----|-------|-----------|
| C01, C02 | `M_Hash`: open-addressing table as `list slot` with probe loop on fuel | invariant: for each live item no empty slot before it on its probe path, at most one live slot per key; odd stride is a permutation of Z/2^k so the probe visits an empty slot; refinement to a finite map |
| C03 | `M_StrCache`: list of buffers with (start, used, free), handle = (buffer, offset); lookup through C01's finite map | invariant: handle regions are disjoint and inside the used part; induction over operations |
| C04, C05 | `M_Text`: `find_next_token` and each text function as recursion on the text | equality with `words` (split on whitespace) |
| C06 | `M_Text`: `subst_expand` with `strstr` | equality with a leftmost-occurrence relation |
| C07 | `M_Text`: `patsubst_expand_pat`, `:a=b` reference | equality with word-wise map |
| C08 | `M_Text`: `func_filter_filterout` with both strategies | both strategies mark the same words |
| C09 | `M_Text`: `func_sort` (sorting oracle = any permutation sorted by byte order) | Sorted + same set |
| C10 | `M_Text`: `func_notdir_suffix`, `func_basename_dir` | append law |
| C11 | `M_Path`: `abspath` automaton over the output buffer | equality with component stack machine |
| C12, C13 | `M_Expand`: `variable_expand_string` with variable environment, "being expanded" marks, the function table of `M_FuncTab` | induction on text; measure (variables not being expanded, text length) |
| C14 | `M_Var`: `define_variable_in_set` / `undefine_variable_in_set` | invariant over op lists |
| C15 | `M_Var`: scope chains as list of sets | refinement to stack of maps |
| C16, C45 | `M_Env`: `target_environment`, import of the environment | characterisation of each entry; round trip through import |
| C17 | `M_Var`: `create_pattern_var` insertion with cached last-by-length | equals stable sort by length |
| C18, C19 | `M_Quote`: in-place scanners as state machines on (output, rest) | run-length specification of backslashes |
| C20 | `M_Cond`: `conditional_line` and the `ignoring` part of `eval` vs. recursive tree semantics | induction on trees |
| C21 | `M_Chop`: `chop_commands` | join law |
| C22, C23 | `M_Cmd`: `construct_command_argv_internal` fast and slow path, `is_bourne_compatible_shell` | simulation against the three passes of a POSIX shell (continuations, words, quote removal); round trip of the escaping through the recursive call; when nothing is run (`C22_nothing`, `C23_empty`) |
| C24, C25 | `M_Jobs`: transition system for processes sharing a pipe; job slots | invariants over traces |
| C26 | `M_Time`: Z arithmetic with 64 bit range | lia |
| C27-C29, C51 | `M_Build`: `update_goal_chain`, `update_file`, `update_file_1`, `check_dep`, `remake_file`, `notice_finished_file`, `f_mtime` on numbered files; which job ends when, and what it does to the disk, is an oracle | a measure on (files not updated, intermediate files whose time is unknown) bounds the recursion; one invariant per file and one on the events; two builds in a row |
| C30, C31, C50 | `M_Implicit`: `pattern_search` with its two passes and chains, `new_pattern_rule`, `convert_to_pattern` | the candidates are sorted and are those of a declarative reading; every mark of an impossible file is justified; completeness under a rank (terminal rules need none); the times at which files are had and entered (`S_Timely`); list lemmas |
| C32 | `M_Auto`: `set_file_variables` with its static buffers | the loops against a declarative reading of each list; the bytes written against the size reserved; witness for the overflow |
| C33 | `M_Clean`: the marks (`snap_deps`, `implicit.c`), `remove_intermediates`, `die`, on top of the build engine | an invariant of the engine about one file (nobody has looked at it, or its mark is gone), case analysis lifted over the table |
| C34-C37, C46, C47 | `M_Debugger`: breakpoint list, frames, words, line table, command table, stepping | refinement or refutation with witness |
| C38 | `M_Argv`: `buildargv` | round trip |
| C39 | `M_Flags`: switch table, `define_makeflags`, `decode_env_switches`, `decode_switches`, `getopt_long` | round trip through the real expander |
| C40, C49 | `M_Vpath`: `construct_vpath_list`, `build_vpath_lists`, `vpath_search`, `gpath_search`, `library_search` | the search finds the earliest place of a declarative reading of the directives; witnesses for slashes and quoted percents |
| C41, C42 | `M_Text`: `func_addsuffix_addprefix`, `func_join`, `func_findstring` | word-wise map; relation |
| C43 | `M_Expand`: `handle_function`, `lookup_function`, argument cutting | the arguments are the comma-separated parts of the text |
| C44 | the same | the fuelled expander against a natural semantics (`S_Eval`), sound and complete |
| C48 | `M_Def`: `parse_variable_definition`, `do_variable_definition` | the reader accepts exactly the lines of a declarative grammar; effect of every operator |
| C52 | `M_Line`: `readline` with its growing buffer, `readstring` | the chunks of `fgets` against a scanner of characters: invariant over the finished part and the current physical line |
| C53, C55 | `M_Recipe`: the in-place loop of `new_job`, the removal of recipe prefixes, the commands of one line | the memory of the line is what was read down to the write pointer and what was written below; simulation against a scanner, whose fixed points are shown by induction |
| C54 | `M_Recipe`: `fold_newlines` | the loop against a declarative reading |
| C56 | `M_Json`: the three variables a sub-make gets; `M_Env` for the environment | composition of writing and reading the environment |
| C57 | `M_Json`: everything `json_format.c` writes; `S_Json`: lexer and grammar of JSON; `S_Profile`: the value | the lexer is run over the pieces of the text in turn; the grammar is shown to be unambiguous |
| C58 | `M_Seq`: `parse_file_seq`, `split_prereqs`, `string_glob`; `glob`, `~` and the members of archives are parameters; the size of the temporary buffer is in the model | one induction over the words relates the loop to the reading of words (`reads`) and the grouping of words (`grouped`); a second shows the buffer is never overrun; what a name stands for (home directories, wildcards, members) is `stands` in `S_Glob` |
| C59 | `M_Rules`: `record_files`, `enter_file`/`lookup_file` as far as rules see them, `enter_prereqs`; rules come as lists of names (C58) with an already read recipe | the run over all rules is projected to one target (`run`, `warns`) and then put in closed form over the target's mentions |
| C60 | `M_Desc`: the events of `eval` that touch descriptions (lines, ends of rules, rule lines, nested makefiles), `remove_comments`, `record_waiting_files`, `dbg_cmd_info_tasks`; which lines are rules or recipes is part of the events | an inductive reading (`reads`) says which description belongs to which rule; an invariant relates it to the static variables and line numbers; the list of tasks is the unique sorted list |
| C61 | `M_Delete`: `delete_target`, `delete_child_targets`, the part of `fatal_error_signal` that deletes targets and the part of `reap_children` that decides what happens to a child, as events on a world of a disk, remembered times and running recipes; recipes and other programs change files at any point. Not modelled: the message about archive members, a failing `unlink`, remote jobs, `remove_intermediates` (C33). `S_Delete`: what may be left of a target (`clean`), which events change a file, start or fail a recipe. | proved for every sequence of events: a file looked at and not changed since is never deleted; precious and phony targets and archive members never; what is deleted is a target of a recipe that was started and then failed; after a signal from the user nothing is left of the targets of running recipes that differs from what make saw; the same after a failure by a signal or with `.DELETE_ON_ERROR`, and nothing is deleted otherwise; nothing starts while make is dying. Refuted: second command not found; targets of a group that make has not looked at; files written after the signal |
| C62 | `M_RuleLine`: the part of `eval` from "This line describes some target files" to the prerequisites, `get_next_mword`, `parse_var_assignment`; expansion and the file system are parameters. Not modelled: tabs before rules, the second expansion of a target-specific value, messages that differ only in wording, loading of objects. `S_RuleLine`: words and layout of a line, assignments with modifiers. | `C62_rule`: for every line made of words, a colon, a text and an ending, the targets, the kind of line, pattern, prerequisites and recipe are those of the words; `C62_quoted`: names written with quoted blanks and colons come back; `C62_expanded`: the same for a colon inside an expanded word; `C62_no_colon`, `C62_refused`: what is refused; `C62_safe`: nothing is read past its end, for every expansion. Refuted: quoted semicolons, trailing quoted blanks, equals signs, quoted colons in prerequisites, colons from variables, comments behind a semicolon |
| C63 | `M_Goal`: the part of `eval` that chooses the default goal, its variable in `main`, and how `main` turns its value into a goal; reading the lines is C62, definitions are C14, names are C58. `S_Goal`: candidates, the list of suffixes at each point, the first rule with a candidate | induction over the events: an empty value is searched for, a non-empty one stays; freed memory is an outcome of its own |
| C64 | `M_Ar`: `ar_scan` (for `<ar.h>` of GNU/Linux), `ar_name_equal`, `ar_member_touch`, `ar_parse_name`, `ar_member_date`, `ar_glob` on the bytes of a file; the stack is a number of bytes; `fnmatch` and `qsort` are parameters. Not modelled: owner, group and mode (no caller uses them), failing system calls, the time of the archive itself. `S_Ar`: how archives look, as a relation between texts and lists of members | induction over the archive; the table of names is followed byte by byte; outcomes of their own for memory outside of buffers, an exhausted stack and a scan without end |
| C65 | `M_Output`: `output.c` but for the messages of `remake` itself, with the places of `job.c` and `main.c` that use it, as events of any number of makes and their commands; the temporary files with their content, the lock, and the terminal as the list of what was written to it. Not modelled: `output_init (NULL)` (O_APPEND), `close_stdout`, failing `tmpfile`, closed stdout or stderr, makes with different options, commands that leave a process behind which goes on writing, messages of make that belong to no child (they are written at once). `S_Output`: what a child has put out (from the events), what can be seen of it, blocks | induction over the events: what is shown and what waits in the files is what was said; the terminal is a list of blocks, one for each release of the lock, and the part of the one that is being written |
| C66 | `M_Dir`: the cache of `dir.c` as compiled on GNU/Linux, one call at a time; `stat`, `opendir` and the names that are read are the system's, and may differ at each call; device and inode are one number. Not modelled: types of entries (`d_type`), failing `readdir`, members of archives in `file_exists_p`, `print_dir_data_base`, the order in which the hash table gives its entries. `S_Dir`: what each directory was when it was first asked about | invariant over all calls: what has been read is a prefix of the listing and the marks are those of the calls; the open directories are counted by a list |
| C67 | `M_Second`: `expand_deps`, `expand_extra_prereqs` and `snap_file` of one target, with the automatic variables of `M_Auto`; expansion with these and splitting into names (C58) are parameters, so an expansion that itself changes prerequisites is not modelled, nor double-colon targets (only the first entry of a name gets extra prerequisites). | The loop over the list is related to `expands` of `S_Second`: prerequisites that `set_file_variables` makes normal on the way are tracked by `raised`; values of the variables are listings as in C32. That extra prerequisites are hidden follows from the listings being determined by the visible places. |
| C68 | `M_Restart`: `update_goal_chain` with all its modes and passes (what `update_file` does is a parameter that may depend on all calls before), the choice of makefiles to remake, the decision after it, the words for the next `execvp`. Decoding of words is that of C39 (`M_Flags`). `M_RestartEnv`: reading MAKE_RESTARTS and rewriting the environment. Not: closing of files, `chdir`, `-E`/print options; a run of infinitely many passes has no result. | The passes keep an invariant over the history of calls: the status is the one `result` of `S_Restart` gives, each goal that left the chain is `done`. `look` is read off as three existence statements. For the words, `aligned` describes command lines on which words beginning with -f are makefiles, `refile` renames just those (`renamed`), and decoding both lists of words goes in step (`decode_like`). |
| C69 | `M_Rename`: `rehash_file` and `rename_file` on files by address and the table of names (C01), `merge_variable_set_lists` with what it frees, `check_renamed`, the entries `update_file` goes through. A chain of `renamed` or `prev` without an end gives `Endless`. Not: file and line in the messages; that the two lists of prerequisites share their tail afterwards; `command_state`, `no_diag`, `also_make`, `stem`. | For a sound table (each file in it has its name there and is not renamed; further double-colon entries are not in it) the result is described in full (`rehash_known`); then lookups, handles, contents and the frame are read off, and that the table is sound again. The values of merged lists of sets are described by the depth of the first set that has the name. |
| C70 | `M_Define`: `do_define` on the lines `readline` gives (C52), with the buffer and its size; `remove_comments` by `find_map_unquote` (C19), the name by `parse_variable_definition` (C48); expansion of the name is a parameter. What is defined with the text is C48. | The loop goes through levels (`run`), which stay above 0 just for the lines of a grammar of nested blocks (`balanced`); the decomposition is unique, so what is read is what the grammar says, and an endef is missing just if there is no decomposition. |
| C71 | `M_Mtime`: `f_mtime` without archive members, on the files and the table of C69; `name_mtime`, `vpath_search` (C40), `library_search` (C49), the directories of GPATH and which recipes have not been started are parameters. The warning about times in the future is a state of its own. | The search is put together with the theorems of C69; `finish` changes only times and the mark of .INTERMEDIATE, so the table stays sound. `C71_gpath` is for a new name that no other file has, `C71_gpath_merge` for one that another has. There is a result if lists of entries have an end (`C71_result`). Computed instances: `W_Mtime`, linked by `C71_check`. The warning: induction over the files looked at. |
| C72 | `M_Symlink`: `name_mtime` with and without -L, with its two buffers; what `stat`, `lstat` and `readlink` say are parameters that do not change during one call (but `stat` and `lstat` need not agree). Not the code for WINDOWS32. | One step of the loop is one step of a separate relation (`leads`: where a link points), so the times compared are those of the only list of links there is (`hops`). Computed instances: `W_Symlink`, linked by `C72_check`. |

## Trusted base

* Coq 8.16.1's kernel (and `coqchk`).
* Axioms: `Print Assumptions` stands beside every property theorem in the
  `Properties_*.v` files and prints *Closed under the global context* for all of
  them.  No theorem uses an axiom.  (`coqchk -o` also lists seven constants of
  `Coq.ssr.ssrunder`, a library file loaded by the standard library's ssreflect
  support; no theorem depends on them.)
* The reading of the C code: every definition cites its source lines in `/repo` and
  states its simplifications there.
* Parameters of a theorem (oracles for `stat`, `getcwd`, `$(shell)`, hash functions,
  `qsort`, floating point) are universally quantified, with hypotheses stated in the
  theorem.

### What is modelled

| C file | functions |
|--------|-----------|
| `src/hash.c` | `hash_init`, `hash_find_slot`, `hash_find_item`, `hash_insert`, `hash_insert_at`, `hash_delete(_at)`, `hash_rehash` |
| `src/strcache.c` | `new_cache`, `add_string`, `add_hugestring`, `add_hash`, `strcache_add(_len)`, `strcache_iscached` |
| `src/misc.c` | `collapse_continuations`, `next_token`, `find_next_token`, `end_of_token`, `alpha_compare` |
| `src/read.c` | `conditional_line` (with the part of `eval` that skips lines), `find_char_unquote`, `find_map_unquote`, `find_percent(_cached)`, `unescape_char` |
| `src/expand.c` | `variable_expand_string`, `recursively_expand_for_file`, `reference_variable`, `expand_argument`, `variable_append` |
| `src/function.c` | `subst_expand`, `patsubst_expand_pat`, `lookup_function`, `pattern_matches`, `handle_function`, the function table, the text functions of C04-C11, C41, C42, `func_call`, `func_foreach`, `func_if`, `func_or`, `func_and`, `func_value`, `func_origin`, `func_flavor`, `abspath` |
| `src/variable.c` | `define_variable_in_set`, `undefine_variable_in_set`, `lookup_variable(_in_set)`, `push_new_variable_scope`, `pop_variable_scope`, `create_pattern_var`, `lookup_pattern_var`, `target_environment`, `parse_variable_definition`, `do_variable_definition`, `try_variable_definition` |
| `src/read.c` | `do_define` |
| `src/remake.c` | `name_mtime` |
| `src/remake.c`, `src/vpath.c` | `f_mtime` (but for members of archives), `gpath_search` |
| `src/file.c`, `src/variable.c` | `rehash_file`, `rename_file`, `merge_variable_set_lists`, `merge_variable_sets` |
| `src/main.c`, `src/remake.c` | the part of `main` that remakes makefiles and runs make again, `update_goal_chain` in all modes |
| `src/main.c` | `die` (waiting for the children, then `remove_intermediates`), import of the environment, `switches`, `init_switches`, `expand_command_line_file`, `decode_switches`, `decode_env_switches`, `quote_for_env`, `define_makeflags` |
| `src/vpath.c` | `construct_vpath_list`, `build_vpath_lists`, `gpath_search`, `selective_vpath_search`, `vpath_search` |
| `src/remake.c` | `library_search`; `update_goal_chain`, `update_file`, `update_file_1`, `check_dep`, `remake_file`, `notice_finished_file`, `f_mtime` (without `also_make`, renaming by searches, low resolution times, rebuilding of makefiles, lines with `+`; implicit rules are taken as already found) |
| `src/rule.c` | `new_pattern_rule`, `freerule`, `convert_to_pattern`, `convert_suffix_rule`, `snap_implicit_rules` (extra prerequisites) |
| `src/implicit.c` | `pattern_search`, `stemlen_compare`, `try_implicit_rule`, without second expansion; `parse_file_seq` on a prerequisite is a parameter |
| `src/ar.c`, `src/arscan.c` | `ar_name`, `ar_parse_name`, `ar_member_date`, `ar_glob`; `ar_scan`, `ar_name_equal`, `ar_member_touch` |
| `src/output.c` | `_outputs`, `setup_tmpfile`, `output_start`, `pump_from_tmp`, `acquire_semaphore`, `release_semaphore`, `output_dump`, `output_init`, `output_close` |
| `src/dir.c` | `find_directory`, `dir_contents_file_exists_p`, `dir_file_exists_p`, `file_exists_p`, `file_impossible`, `file_impossible_p`, `open_dirstream`, `read_dirstream` |
| `src/getopt.c` | `_getopt_internal` as `decode_env_switches` uses it |
| `src/job.c` | `construct_command_argv_internal` as compiled on Unix, `is_bourne_compatible_shell`, the cut at `*restp` in `start_job_command` |
| `src/job.c` | the collapsing of continuations in `new_job`, the flags and recipe prefixes in `start_job_command` |
| `src/read.c` | `readline`, `readstring`; the numbering of lines in `eval` |
| `src/function.c` | `fold_newlines` |
| `src/read.c`, `src/main.c` | the choice of the default goal in `eval`; the goals in `main` when none is on the command line |
| `src/read.c`, `src/file.c`, `src/function.c` | `parse_file_seq`, `split_prereqs`, `string_glob`, `record_files`, `enter_prereqs`, `remove_comments`, `record_waiting_files`, rule lines in `eval` (1041-1345), `get_next_mword`, `parse_var_assignment` |
| `src/json_format.c` | all of it but opening the file and the choice of the status text |
| `src/main.c`, `src/variable.c` | MAKELEVEL, MAKEPARENT_PID, MAKEPARENT_TARGET in `main`, `define_automatic_variables`, `target_environment` |
| `src/job.c`, `src/posixos.c` | job slots, jobserver tokens, waiting for children, start of waiting jobs (as a transition system) |
| `src/commands.c` | `chop_commands`, `set_file_variables`, `delete_target`, `delete_child_targets`, the deleting part of `fatal_error_signal` |
| `src/file.c` | `remove_intermediates`, the marks set by `snap_deps` and `snap_file` (.PRECIOUS, .INTERMEDIATE, .SECONDARY), `expand_deps`, `expand_extra_prereqs`, `snap_file` (prerequisites), `file_timestamp_cons`, `file_timestamp_sprintf` (fraction), the comparison in `name_mtime -L` |
| `src/buildargv.c` | `buildargv` |
| `libdebugger/` | breakpoint list, `frame`/`up`/`down`, `get_word`, `find_command`, `file2lines` lookup, stepping, the test of `enter_debugger` |

### What is not modelled

Memory exhaustion, signals (but for the quit handling of C24), the clock, file system
races, locale dependent `strcoll`, Windows/VMS/OS2/DOS branches, `guile`, loaded
objects, the collection of the profile's data and its callgrind format, the matching of glob, messages on
stderr, and the real floating point behaviour of `-l`.  Parts of the list of
properties without a claim in `MANIFEST.json` are not modelled yet.

## Findings

Each of the first group has a theorem with a concrete witness (`..._refuted`).

| place | what happens | theorem |
|-------|--------------|---------|
| `hash.c` | tables of fewer than 16 slots never grow; looking for an absent key in a full one never ends | `C02_small_table_loops_refuted` |
| `function.c` `func_sort` | steps over the end of the string when the text ends in a word without following space | `C09_sort_reads_past_end_refuted` |
| `function.c` `func_sort` | `alpha_compare` orders by signed characters | `C09_byte_order_refuted` |
| `function.c` patsubst | quoted `%` in a suffix reference; an empty stem and a space | `C07_suffix_reference_quoted_refuted`, `C07_patsubst_empty_stem_space_refuted` |
| `function.c` `abspath` | empty starting directory | `C11_no_cwd_refuted` |
| `expand.c` | `f=$(call f)` recurses without end; a self reference is reported although `foreach` would make it finite | `C13_call_never_ends_refuted`, `C13_foreach_overreported_refuted` |
| `function.c` `lookup_function` | the length of a name is cut to 8 bits | `C43_long_name_refuted` |
| `variable.c` `target_environment` | `private` is ignored for the environment | `C16_private_leaks_refuted` |
| `variable.c` `target_environment` | with `X=2` on the command line, `foo: override X=1` exports 2 | `C16_outer_value_refuted` |
| `variable.c` `do_variable_definition` | a rejected definition still changes the append mark | `C48_rejected_definition_refuted` |
| `main.c` 1304-1350 | an environment entry without `=` is read past its end | `C45_malformed_entry_refuted` |
| `read.c` `conditional_line` | malformed `else ifeq` leaves the state wrong | `C20_malformed_else_if_refuted` |
| `read.c` | a nested `define` in skipped text ends at the first `endef` | `C20_ignored_nested_define_refuted` |
| `read.c` | `else junk` permits a second `else`; odd conditions accepted | `C20_two_elses_refuted`, `C20_odd_syntax_refuted` |
| `commands.c` `chop_commands` | recipes of 65536 lines lose lines | `C21_many_lines_refuted` |
| `job.c` | tokens of jobs waiting for load are not given back when make dies with a status other than 2 | `C24_lost_tokens_refuted` |
| `job.c` | a recipe whose first command cannot be started runs the following lines without a slot | `C24_failed_start_refuted`, `C25_failed_start_refuted` |
| `job.c` 801-807 | the debugger's quit frees a child still in the chain | `C24_quit_use_after_free_refuted` |
| `job.c` | a second quit while dying leaves jobs behind | `C24_quit_leaves_jobs_refuted` |
| `job.c` | waiting jobs under `-l` all start at once | `C25_load_refuted` |
| `job.c` fast path | `x ''\<newline> y`: the empty argument is lost; a backslash at the end of the line is lost | `C22_empty_argument_refuted`, `C22_last_backslash_refuted` |
| `job.c` | a newline in the text of `$(shell)`: without the shell it is part of a word; through the shell it is dropped, and two commands become one | `C22_newline_refuted`, `C23_newline_refuted` |
| `job.c` slow path | a `SHELL` whose first word has `=` or is the name of a built-in is itself run by `/bin/sh` | `C23_shell_word_refuted` |
| `job.c` slow path | the test for an empty line forgets the backslashes added to `SHELL` | `C23_empty_refuted` |
| `remake.c` 1072-1094, 1489-1496 | a source file in `.INTERMEDIATE` that has no rule and is a prerequisite of another intermediate file is deleted although make did not make it | `C33_source_refuted` |
| `remake.c`, `file.c` | an existing file with the name of a phony intermediate target is deleted | `C33_phony_refuted` |
| `file.c` 225 | an intermediate default goal is deleted as soon as it is made; a precious file is deleted if make dies while remaking makefiles with `-include` | `C33_default_goal_refuted`, `C33_precious_refuted` |
| `read.c` 2660-2680 | a NUL inside a line of a makefile: the next line is taken as its end, without a message, and the line numbers are wrong from there on | `C52_nul_refuted` |
| `read.c` | CRLF is a newline in a makefile but not in the text of `$(eval)` | `C52_cr_refuted` |
| `job.c` 1541 | the second dollar sign of `$$(` is taken for the beginning of a reference, so that continuations inside a substitution of the shell are removed, even in single quotes | `C53_shell_refuted` |
| `job.c` 1563 | the backslashes before a continuation are counted in a buffer that is being moved: after one continuation, three backslashes before a newline are counted as four, and the second target of the rule gets another recipe than the first | `C53_doubled_refuted`, `C53_again_refuted` |
| `function.c` 1385 | the output of `$(shell)` ends at a NUL | `C54_nul_refuted` |
| `job.c` 1065-1076 | the recipe prefix is removed from all commands that are still to be run, each time one is run | `C55_twice_refuted` |
| `variable.c` 868-879 | the name of the target that started a sub-make is copied to an array of 200 characters: every longer name overruns the stack of the sub-make | `C56_overflow_refuted` |
| `main.c` 1428, `json_format.c` 119 | a target that begins with a dash is forgotten by the sub-make, which then reads a null pointer when it writes its profile | `C56_dash_refuted`, `C57_null_refuted` |
| `json_format.c` | the names of makefiles and the directory are not escaped (they can break the file or be read as other members); control characters like ESC are not escaped anywhere | `C57_makefile_refuted`, `C57_directory_refuted`, `C57_control_refuted` |
| `read.c` 3290-3317 | a quoted stop character inside an archive group ends the search for the closing parenthesis, so the group is not taken apart | `C58_quoted_stop_refuted` |
| `read.c` 3214-3230 | newline and carriage return are skipped before a name but do not end one | `C58_newline_refuted` |
| `file.c` 279-309 | a second bar among the prerequisites is a file name | `C58_second_bar_refuted` |
| `read.c` 3426-3429 | `$(wildcard lib.a(*.o))` gives the archive's name once for each member | `C58_wildcard_archive_refuted` |
| `read.c` 3236-3245 | in `l(./a ./b)` the prefix is dropped from all members but the first | `C58_member_dot_refuted` |
| `read.c` 2212-2219 | in a static pattern rule the stem of a target with a space in its name is computed word by word: `libx\ y.o: lib%.o: %.c` has stem `libx y.o` | `C59_static_blank_refuted`, `C59_stem_blank_refuted` |
| `read.c` 2056-2100, `file.c` 323-371 | `a\%b` is the file `a%b` as a target but the file `a\%b` as a prerequisite | `C59_percent_refuted` |
| `read.c` 2120-2257 | a target that one rule names twice gets the prerequisites twice (with a warning) | `C59_twice_refuted` |
| `read.c` 612-637 | two description comments between two rules: the rule above gets the first of them instead of its own | `C60_two_refuted` |
| `read.c` 750 | a description in a part left out by a conditional goes to the next rule | `C60_skipped_refuted` |
| `read.c` 654-656 | any `$(eval)` in a rule line drops the rule's description | `C60_eval_refuted` |
| `read.c` 565, 612-637 | an unused description of an included makefile goes to a rule of the including makefile | `C60_included_refuted` |
| `read.c` 2145, 2200 | a later rule for a target, without a description, removes the description (the target vanishes from `--tasks`) | `C60_later_rule_refuted` |
| `read.c` 1445 | `#:text` without a space is not a description, contrary to the manual | `C60_space_refuted` |
| `job.c` 550-558, `commands.c` 759 | with `.DELETE_ON_ERROR`, if a later command of the recipe is not found (a build that uses `posix_spawn`), the half-made target stays | `C61_not_found_refuted` |
| `commands.c` 733-736, `remake.c` 549-556 | another target of the same recipe whose time make never looked at is deleted on failure although the recipe did not touch it | `C61_unseen_refuted` |
| `commands.c` 659-668 | targets are deleted before make waits for the recipes; what a recipe writes after the signal stays | `C61_late_refuted` |
| `read.c` 1041-1063, 1101, 1322 | `\;` in a rule line is a quoted semicolon only if another, unquoted one follows; otherwise a recipe begins there, or the line is refused | `C62_semicolon_refuted` |
| `read.c` 2757-2931, 1148 | words of targets are put together with single spaces: `a\  b:` is the one target `a b`, a quoted tab becomes a space | `C62_blank_refuted` |
| `read.c` 2851 | `b=c:` makes the targets `b`, `=` and `c`; `b\=c:` keeps the backslash | `C62_equals_refuted` |
| `read.c` 1115, 1240-1276 | `b\:c` is `b:c` as a target and `b\:c` as a prerequisite | `C62_colon_refuted` |
| `read.c` 1204-1210, 1255 | a colon that comes from a variable with blanks behind it: the expansion of the rest of the line is put too far behind, and unexpanded text becomes prerequisites | `C62_shift_refuted` |
| `read.c` 1222-1236 | a comment behind a semicolon is part of the value of a target-specific variable | `C62_comment_refuted` |
| `variable.c` 364-401, `read.c` 1358, `main.c` 2363 | `undefine .DEFAULT_GOAL` frees the variable that `default_goal_var` still points to; the next rule line and the choice of the goal read it | `C63_undefine_refuted` |
| `read.c` 1370 | the target `100\%` is taken for a pattern: it is never the default goal, and the other targets of its rule are not looked at | `C63_percent_refuted` |
| `arscan.c` 639-641 | a size of -60 makes `ar_scan` visit the same member for ever | `C64_hang_refuted` |
| `arscan.c` 613-616 | a negative size of the table of names is given to `alloca` | `C64_negative_refuted` |
| `arscan.c` 519-520, 629-630 | a member called ARFILENAMES is taken for the table of names; if the table starts with a newline, the byte before it is read and perhaps written | `C64_arfilenames_refuted` |
| `arscan.c` 558 | `alloca` for every name in BSD's format: whatever the stack, a good archive exhausts it | `C64_stack_refuted` |
| `arscan.c` 677 | a member whose name has 15 characters answers to every longer name that starts so | `C64_prefix_refuted` |
| `arscan.c` 525, `ar.c` 202 | the table of symbols has the name "": `lib(x/)` exists, and `lib(*)` has the name `lib()` in its list | `C64_symbols_refuted` |
| `arscan.c` 765-766 | touching a member with a time before 1970 writes over the owner and the group | `C64_touch_1970_refuted` |
| `output.c` 367-370 | if the lock cannot be had (fcntl fails, as on some network file systems), blocks of several makes are mixed; the code says so | `C65_unlocked_refuted` |
| `dir.c` 669-688 | after a file was marked impossible in a directory that is not there, that directory exists (`$(wildcard nodir/)`, `file_exists_p ("nodir/")`) and can be read as empty | `C66_directory_refuted` |
| `dir.c` 558-575 | reading on replaces the mark of a file that is there; only that make never marks one it has found keeps answers independent of the order of questions | `C66_order_refuted` |
| `file.c` 392-473 | at second expansion `$^` and `$+` have the plain prerequisites of later rules as well; the manual says only of rules that have already appeared | `C67_later_refuted` |
| `file.c` 418-437 | in the text of a static pattern rule every `%` becomes the stem (also in arguments of functions, and a second one in a word), without second expansion only the first of each word | `C67_percent_refuted` |
| `file.c` 511-516 | a target that has any variable of its own, or whose prerequisites were expanded a second time, does not get the prerequisites of the global `.EXTRA_PREREQS` | `C67_extra_refuted` |
| `main.c` 2233-2245 | with `--file=a -f b` or `-kf a -f b`, after a makefile was remade the next make reads `a` twice and `b` never: only words beginning with `-f` are counted, the list of makefiles has all | `C68_long_refuted` |
| `main.c` 2237-2245 | a word beginning with `-f` that is an argument of another option (`-C -fdir`) is taken for a makefile: with no name left, `concat` gets a null pointer | `C68_crash_refuted` |
| `main.c` 2237-2245 | after `--`, goals from `-f` on are lost when make is run again | `C68_goals_refuted` |
| `main.c` 2247-2264 | with a makefile from the standard input and `--`, the word `-o/tmp/…` becomes a goal of the next make, which fails | `C68_stdin_refuted` |
| `main.c` 2142-2152 | with `-q`, a makefile that is a goal and out of date hides that another one was remade: the old text is used (the comment says nothing is updated with `-q`, but makefiles are) | `C68_question_refuted` |
| `remake.c` 160-198 | `stop` ("stop when a goal fails with -q", "return as soon as one goal was made") ends only the pass: the goals behind are still updated in the next one | `C68_stop_refuted` |
| `file.c` 130-132 | the message says the recipe of the file that stays is ignored in favour of the other; it is the other way round | `C69_message_refuted` |
| `file.c` 70-75 | a handle to a file that was merged with one that has since got a third name makes `rehash_file` abort | `C69_abort_refuted` |
| `file.c` 150-156, `remake.c` 334-353 | a target with several double-colon rules that is merged into a plain prerequisite: only the first of its rules is run | `C69_double_refuted` |
| `file.c` 166-176 | a breakpoint of the debugger, `.SECONDARY`, "don't care" and the status that goes with `updated` are lost with the file that is merged | `C69_breakpoint_refuted` |
| `variable.c` 785-812 | if both lists of sets have the set of one parent at one depth, its variables are freed though in use | `C69_freed_refuted` |
| `read.c` 1552-1560 | a comment behind an inner `endef` is cut off in the value, and `\#` loses its backslash | `C70_comment_refuted` |
| `read.c` 1540-1542 | `override define` (`export define`) inside a definition is not counted: the value ends at its `endef`, the rest is read as makefile | `C70_override_refuted` |
| `read.c` 1546-1547 | `endef# comment` does not end a definition | `C70_hash_refuted` |
| `remake.c` 1400-1402 | a library found under a name not longer than `-lNAME` (`.LIBPATTERNS = %.a`): the byte in front of the name is read, or the length wraps around | `C71_bounds_refuted` |
| `remake.c` 1400-1403 | a library in a directory of GPATH is not renamed: the directory that is compared is `/usr/lib/lib` | `C71_library_gpath_refuted` |
| `remake.c` 1579-1637 | -L looks at links in the last part of a name only, not at links among its directories | `C72_directory_refuted` |
| `remake.c` 1590 | links are not counted: a link that comes to point to itself between `stat` and `lstat` makes make hang | `C72_end_refuted` |
| `main.c` 2290-2307 | with MAKE_RESTARTS twice in the environment the second is set to 0, and the next make reads that one | `C68_twice_refuted` |
| `main.c` 1672-1727, 2247-2264 | the temporary file for a makefile from the standard input is not removed by the next make, which gets it as a plain `-f` | by reading |
| `job.c` 2551, 1085 | a `.ONESHELL` recipe with a newline inside single quotes is cut there, and the rest is run as another command | `C23_one_shell_cut_refuted` |
| `file.c` | times before 1970 get the last stamp; in low resolution that is the stamp of "new" | `C26_before_1970_refuted`, `C26_low_resolution_collides_refuted` |
| `libdebugger` | breakpoints on one target overwrite and delete each other's marks; temporary ones stay listed; `finish` stays armed; `continue` looks at its first modifier only | `C34_*_refuted` |
| `libdebugger` | a failed `up` loses the current frame; frame numbers overflow | `C35_*_refuted` |
| `libdebugger` | `get_word` and two blanks | `C36_two_blanks_refuted` |
| `libdebugger` | line table off by one, uninitialised entry, overrun for an empty table | `C37_*_refuted` |
| `libdebugger` | aliases `?` and `L` can never be reached | `C46_short_aliases_refuted` |
| `buildargv.c` | a backslash is active in single quotes | `C38_shell_quotes_refuted` |
| `main.c` `define_makeflags` | an option argument with `$` is expanded in the environment and again by the sub-make | `C39_dollar_in_argument_refuted` |
| `main.c` `define_makeflags` | with `-e` the sub-make gets no `--eval` string and no command variable | `C39_environment_overrides_refuted` |
| `main.c` | `-I ./~me` is `~me`, and a home directory in the sub-make | `C39_tilde_refuted` |
| `main.c` 1589-1601 | `V:='a$$b'` is expanded again; the name `V+` becomes an append to `V` | `C39_simple_variable_refuted`, `C39_operator_in_name_refuted` |
| `vpath.c` | a directory that still ends in a slash (`/`, `src//`) clobbers the first character of the name: nothing is found in the root directory | `C40_root_directory_refuted` |
| `vpath.c` | a name with two slashes finds the directory in place of the file; one that ends in two reads past the end of its buffer | `C40_double_slash_refuted`, `C40_unterminated_refuted` |
| `vpath.c` | `vpath \%.c src` matches every name that ends in `.c` | `C40_quoted_percent_refuted` |
| `implicit.c` 489-503 | a rule without prerequisites gets the prerequisites that an earlier rule had collected before it failed | `C30_leftover_refuted` |
| `implicit.c` 963-990 | for `d/afoo.x` the rule `a%.x b%.z: %.y` is taken to make `bd/foo.z` as well, not `d/bfoo.z` | `C30_other_target_refuted` |
| `implicit.c` 323-343 | `foo%.c` does not match `foo.c` but matches `d/foo.c` | `C30_empty_stem_refuted` |
| `implicit.c` | a file that could not be made while a rule was in use stays marked as impossible, and a later chain through it is not found | `C30_incomplete_refuted` |
| `rule.c` `new_pattern_rule` | a pattern rule with several targets is never replaced; a new one with more targets replaces one with fewer | `C31_several_targets_refuted` |
| `rule.c` `snap_implicit_rules` | with `.EXTRA_PREREQS` the dummy rules for suffixes no longer keep match-anything rules away | `C30_specific_example` |
| `commands.c` `set_file_variables` | the size for `$?` is computed before an order-only mention is upgraded: `t: \| d` and `t: d`, with a recipe that leaves `d` old, write past the buffer | `C32_overflow_refuted` |
| `commands.c` `set_file_variables` | the upgrade of an order-only mention stays, so a second call counts it for `$+` and `$<` | `C32_twice_refuted` |
| `remake.c` `update_file` | with `-k`, when the second rule of a double-colon target has failed, other targets that depend on it are made all the same: a pruned file answers with the status of its first rule | `C29_double_colon_refuted` |
| `remake.c` `update_file` | with several jobs a target may be started before the second double-colon rule of its prerequisite has run | `C27_double_colon_order_refuted` |
| `remake.c` `check_dep` | an intermediate file that exists, was searched and has no recipe keeps its mark; with several jobs a recipe may then be started while it runs | `C27_twice_refuted` |
| `remake.c` 638-692 | `-q` without `-k` on `f: x f`, `f` in `.INTERMEDIATE`: endless recursion | `C27_question_refuted` |
| `remake.c` | a `.SECONDARY` file made for one target makes another out of date: the next build does something | `C28_secondary_refuted` |

Seen while reading, without a theorem:

* `expand.c`: an unbalanced `$($(a)` drops the rest of the string; `$ ` refers to a
  variable named by a space; `$(X:a=b)` and `$(call X)` ignore the inherited value when
  the target's `X +=` is empty; the path for length 0 returns the start of the buffer.
* `function.c`: `$(origin)` aborts for a variable set in the debugger; `check_numeric`
  accepts blanks; `atoi` overflows.
* `variable.c`: `define_automatic_variables` prints into a buffer of 200 bytes without
  limit; the loop over the characters of an imported name ignores its length;
  `target_environment (NULL)` dereferences the null pointer.
* `read.c`: `read_all_makefiles` tests `p == 0` for `*p == 0`; `::=` in
  `get_next_mword`; (`do_define`: see C70).
* `file.c` `build_target_list` reads before its buffer.
* `remake.c`: a dropped circular dependency while scanning an `also_make` file
  replaces the wrong list; an early return does not pop the debugger's stack;
  `trace_pop_target` frees the node it leaves the stack top at.
* `implicit.c` `get_next_word`: a trailing `$` reads past the end.
* `libdebugger`: `next N` does not clear stepping; `chomp` reads before an empty line.

## How to read seeded/LOG.jsonl

Each line is one wrong edit of the model, and what broke when everything was rebuilt.

- `failed`: the places where the build stopped, as measured.
- `theorems_failed`: those of them that are theorems, as measured. Coq stops at the first error of a file, so later theorems of that file were not tried.
- `not_rebuilt`: the Properties files that depend on a file that failed. Their theorems were not checked again; this does not say that they are false.
- `theorems_expected`: what was written down by hand before the run. It is not a result. It may name a file instead of theorems.
- `evidence`: `theorem` if the proof of a property theorem broke, `lemma_or_example` if only a lemma, an example or another helper did, `survived` if nothing did.

A broken proof script is not a refutation. With `lemma_or_example` the edit was noticed, but the theorem might still be provable of the edited model with another proof. Most lines are of this kind. Until this section was written, `theorems_failed` held the list that is now `theorems_expected`; the lines from before were corrected from their `failed` field and today's dependencies.

- `instance_failed` (only where a file `W_<area>.v` exists): the computed instances of theorems that fail for the edited model. `W_` files know the model and the specification, not the proofs, and the Properties file derives the same statements from the theorems. If an instance fails, a theorem is false of the edited model: this is `evidence: instance`, the strongest kind, unless the derivation itself computes with the model.

C64, C65, C66, C67, C68, the build engine, the JSON profile, implicit rules and lists of file names have `W_` files. C64: before it was written, all edits of `M_Ar` seemed to be noticed, some of them by proof scripts only: archives without the magic line and headers without their mark were covered by no theorem (now C64_damaged), C64_glob took its hypothesis from the model (now `special`, and C64_glob_plain), and C64_touch did not say what is written (now it does). Now 60 of 70 edits are refuted by an instance. The others: six repair a defect, which is a matter of the `_refuted` theorems; three change nothing that C64 claims (blanks before numbers, tables bigger than the stack, NAME_LEN + 1); one (offsets cut to 16 bits) needs a table of more than 32767 bytes, for which there is no instance.

The build engine (C27-C29, C51): `S_BuildCheck` has makefiles as data and tests for all that `S_Build` claims; `Properties_BuildCheck` proves that every makefile that fits passes them (C27_check, C28_check); `W_BuildCheck` computes them for 1180 generated makefiles. 45 of 58 edits are refuted by an instance. Three gaps came to light and were closed: no theorem said that -n leaves nothing out (now C51_foreseen, which also says when -q may report that nothing is to be done), none said that intermediate prerequisites are there when a recipe starts (now C27_present), and C27_complete allowed phony prerequisites of files that were not remade. The 13 others: two concern targets with more than one double-colon rule (not claimed); the time that is kept is a matter of speed; the marks of intermediate files matter to C33 only; the rest change nothing in any of the samples, because another part of the code has the same effect (for instance a prerequisite that is missing is remade first, which is itself a reason).

The JSON profile and the parent of a sub-make (C56, C57): the specification had used the printers of numbers of the model, so that a model that lost the sign of the number of jobs was still "proved". `S_Profile` now has its own numbers, and C57_numbers says that they are read back. The edits that are still live make a `_refuted` theorem false, that is, they mend the program.

Implicit rules (C30, C31, C50): `S_ImplicitCheck` enumerates what `S_Implicit` says of rules, names and definitions; `Properties_ImplicitCheck` proves that the search passes (C30_check, C30_complete_check, C30_timely_check, C31_check, C50_check); `W_Implicit` computes the tests for 1150 generated sets of rules, 400 layered ones, 200 lists of definitions and 150 of suffixes. Two gaps came to light. C30_plan let a prerequisite count as had because the plan itself had entered it in the table, so that a plan without the rules for its intermediate files was still "sound": C30_timely now says when each is had, searched for and entered. C30_complete asked for a rank of terminal rules too, so that chains that end in a terminal rule for anything were left out: it no longer does.

Command lines (C22, C23): `S_CmdCheck`, `W_Cmd`, `Properties_CmdCheck` do the same for the two paths of `construct_command_argv_internal`. This showed that no theorem said when nothing is run at all; `C22_nothing` (then the line has no word) and `C23_empty` (an empty line runs nothing, if SHELL has no special character) close that. Searches by VPATH and for libraries (C40, C49): `S_VpathCheck`, `W_Vpath`, `Properties_VpathCheck`; no gap was found there.

Lists of file names (C58): `S_SeqCheck` computes the list a text must give, from the specification; C58_check, C58_prereqs_check and C58_wildcard_check say that the parser gives it. There was no theorem about wildcards, home directories and patterns for members except for $(wildcard): now C58_meaning, C58_stands, and C58_prereqs for the two halves of a list of prerequisites.

The large samples in `W_` files are computed when the file is compiled (tactic `computes` in `W_Random`); they leave no proof term, because coqchk would compute them again without the virtual machine. A few small ones are checked by the kernel.

The same kind of gap may be open for other properties whose lines say `lemma_or_example`.
