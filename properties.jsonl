{"id": "C01", "title": "Hash tables behave like finite maps", "statement": "For any sequence of inserts, deletes and lookups on make's open-addressing hash table, a lookup returns exactly the item most recently inserted under that key and not deleted since, or nothing if there is none; inserting returns the item it displaced; rehashing and tombstones are never observable.", "quantifier": "every sequence of operations, every key, every pair of hash functions (including constant and adversarial ones), every table size that is a power of two", "why_tests_cant": "Depends on collision/tombstone/rehash histories of unbounded length and on arbitrary hash functions; tests only see a few collision patterns.", "anchors": ["src/hash.c: hash_find_slot, hash_insert, hash_insert_at, hash_delete, hash_delete_at, hash_rehash, hash_init, round_up_2", "src/hash.h"]}
{"id": "C02", "title": "Hash table probing always terminates and the item count is exact", "statement": "In every table initialised with at least 16 slots, after any sequence of operations there is a never-used slot, so every probe (also for an absent key) terminates within the table size; and the reported fill equals the number of live items.", "quantifier": "every sequence of operations, every hash function pair, every initial size hint (with the small-table case treated separately)", "why_tests_cant": "Non-termination needs the exact history that fills the last empty slot; the table that never rehashes is only reachable with particular sizes.", "anchors": ["src/hash.c: hash_find_slot, hash_insert_at, hash_rehash, hash_init"]}
{"id": "C03", "title": "String interning is canonical and stable", "statement": "Interning returns a handle whose text is the text interned; two interned strings shorter than 65535 characters have the same handle exactly when they are equal; no later interning changes the text behind an earlier handle, and no two handles overlap in storage.", "quantifier": "every sequence of strings of every length", "why_tests_cant": "Aliasing and buffer-placement faults depend on the whole history of lengths (buffer remainders, moves between the full and free lists).", "anchors": ["src/strcache.c: add_string, add_hugestring, add_hash, new_cache"]}
{"id": "C04", "title": "Word functions agree with splitting on whitespace", "statement": "$(words T), $(word N,T), $(firstword T), $(lastword T) and $(wordlist S,E,T) return the count, N-th, first, last and S-th..E-th elements of the whitespace separated words of T; out of range indices give the empty result; wordlist returns the text between the words unchanged.", "quantifier": "every text T, every N, S, E", "why_tests_cant": "The scan is index arithmetic over arbitrary runs of blanks/tabs/newlines; equality to a splitting specification ranges over all strings.", "anchors": ["src/function.c: func_words, func_word, func_firstword, func_lastword, func_wordlist", "src/misc.c: find_next_token, next_token, end_of_token"]}
{"id": "C05", "title": "strip normalises whitespace", "statement": "$(strip T) is the words of T joined by single spaces: no leading, trailing or repeated whitespace, the same words in the same order; strip is idempotent.", "quantifier": "every text", "why_tests_cant": "Ranges over all strings and whitespace mixes.", "anchors": ["src/function.c: strip_whitespace, func_strip"]}
{"id": "C06", "title": "subst replaces exactly the leftmost non-overlapping occurrences", "statement": "$(subst F,T,X) with nonempty F equals the result of scanning X from the left, replacing each occurrence of F by T and resuming after it; nothing else changes; if F does not occur X is returned unchanged; replacing F by itself is the identity.", "quantifier": "every F, T, X", "why_tests_cant": "Equality with the mathematical definition for all strings, including self-overlapping patterns.", "anchors": ["src/function.c: subst_expand, func_subst"]}
{"id": "C07", "title": "patsubst and suffix references transform words independently", "statement": "$(patsubst P,R,X) maps each whitespace separated word of X: a word matching P is replaced by R with its first % standing for the stem, another word is kept; words stay in order. $(X:a=b) is $(patsubst %a,%b,X).", "quantifier": "every pattern, replacement and text", "why_tests_cant": "Ranges over all words and all stems; the separator arithmetic is only wrong for words that become empty.", "anchors": ["src/function.c: patsubst_expand_pat, patsubst_expand, func_patsubst, subst_expand", "src/expand.c: variable_expand_string (substitution reference)"]}
{"id": "C08", "title": "filter and filter-out partition the words", "statement": "$(filter P..,X) is the subsequence of the words of X matching at least one pattern and $(filter-out P..,X) is exactly the rest, in order and with duplicates, whatever internal strategy (linear or hashed) is chosen.", "quantifier": "every pattern list and text, in particular on both sides of the literals/words threshold that switches to hashing", "why_tests_cant": "The result must not depend on the strategy chosen; duplicates chained through the hash only appear in large inputs.", "anchors": ["src/function.c: func_filter_filterout, pattern_matches"]}
{"id": "C09", "title": "sort returns the set of words in strictly increasing order", "statement": "$(sort X) contains exactly the words of X, each once, in strictly increasing order: first characters compared as signed chars, the rest bytewise, which is byte order when all words start with an ASCII character. The result is determined by the set of words. (The argument must be followed by two NUL bytes; make does not always provide the second.)", "quantifier": "every text", "why_tests_cant": "Universally quantified over word multisets; duplicate removal interacts with order.", "anchors": ["src/function.c: func_sort", "src/misc.c: alpha_compare"]}
{"id": "C10", "title": "Directory/file and stem/suffix splits lose nothing", "statement": "For every word W: dir(W)notdir(W) is W, or ./W when W has no slash; basename(W)suffix(W) is W; notdir has no slash; a suffix is empty or starts with the last dot after the last slash.", "quantifier": "every text, applied word by word", "why_tests_cant": "Ranges over all mixes of dots and slashes.", "anchors": ["src/function.c: func_notdir_suffix, func_basename_dir"]}
{"id": "C11", "title": "abspath yields a canonical absolute name", "statement": "$(abspath N) for nonempty N is absolute, has no empty, '.' or '..' components and no trailing slash (except the root itself), is unchanged by another abspath, and denotes the same sequence of directory steps as cwd/N resolved lexically.", "quantifier": "every name and every absolute working directory that fits in PATH_MAX", "why_tests_cant": "The in-place component removal is an automaton over arbitrary component sequences.", "anchors": ["src/function.c: abspath, func_abspath"]}
{"id": "C12", "title": "Dollar quoting round-trips", "statement": "Doubling every $ of a text and expanding it gives back the text, whatever variables are defined; text without $ is unchanged by expansion.", "quantifier": "every text, every variable environment", "why_tests_cant": "All strings and all environments.", "anchors": ["src/expand.c: variable_expand_string"]}
{"id": "C13", "title": "Self-referential variables are always caught", "statement": "Unless $(call) is used, expanding a text under any recursive variables always ends, with a result or an error, and leaves no variable marked as being expanded. The self-reference check never changes a result or another error. Without $(call) and $(foreach) a self reference is reported exactly when expansion without the check would never end. (With $(call) endless expansion is possible and with $(foreach) the report can be premature; both are shown.)", "quantifier": "every function table, every environment of recursive variables, every reference graph, every text", "why_tests_cant": "Cycles of any length through any nesting of references.", "anchors": ["src/expand.c: recursively_expand_for_file, variable_expand_string"]}
{"id": "C14", "title": "Variable precedence: the strongest origin wins, latest among equals", "statement": "After any sequence of definitions of a name in one set, the value is that of the last definition whose origin is at least as strong as every origin seen before it (default < environment < makefile < environment override < command line < override < automatic); weaker later definitions change nothing.", "quantifier": "every sequence of definitions and undefinitions with every origin, with and without -e", "why_tests_cant": "Order dependent over arbitrary histories.", "anchors": ["src/variable.c: define_variable_in_set, undefine_variable_in_set", "src/variable.h: enum variable_origin"]}
{"id": "C15", "title": "Variable lookup respects scopes and private", "statement": "A reference yields the definition in the innermost scope that defines the name visibly: a definition marked private is visible only in the scope it was made for; entering and leaving a scope restores all lookups; definitions in an inner scope never change what outer scopes see.", "quantifier": "every chain of scopes and every sequence of push/define/pop", "why_tests_cant": "Scope chains of any depth with any mix of private marks.", "anchors": ["src/variable.c: lookup_variable, lookup_variable_in_set, push_new_variable_scope, pop_variable_scope, initialize_file_variables"]}
{"id": "C16", "title": "Commands receive the right environment", "statement": "The environment passed to a recipe holds, for each name whose innermost definition is exported and visible, exactly the value that a reference in that recipe would have; every name has one entry; names of which no definition is exported are absent; MAKELEVEL is one more than make's own. Recursive values imported from the environment go through unexpanded (C45). Counterexamples exist where the innermost definition is private to a parent target or is not exported while an outer one is.", "quantifier": "every chain of variable scopes, every export setting, every variable value, every function table", "why_tests_cant": "The environment is merged over all scopes with per-variable and global export modes; conflicts appear only for particular combinations.", "anchors": ["src/variable.c: target_environment"]}
{"id": "C17", "title": "Pattern-specific variables apply from least to most specific", "statement": "For a target, all matching pattern-specific definitions are applied, shorter patterns first and definition order among equals, so that the most specific (longest) pattern wins and later ones among equals win.", "quantifier": "every sequence of pattern-specific definitions and every target", "why_tests_cant": "Insertion order and caching of last insert positions by length over arbitrary histories.", "anchors": ["src/variable.c: create_pattern_var, lookup_pattern_var, initialize_file_variables"]}
{"id": "C18", "title": "Backslash-newline joining", "statement": "Joining continuation lines replaces each maximal run of blanks, odd backslash-newline, blanks by one space and halves the backslashes in front of it; an even number of backslashes before a newline is no continuation; other text is unchanged.", "quantifier": "every line", "why_tests_cant": "All placements and counts of backslashes and blanks, done in place with two cursors.", "anchors": ["src/misc.c: collapse_continuations"]}
{"id": "C19", "title": "Backslash quoting of special characters is invertible", "statement": "In a string, a special character preceded by n backslashes: the n backslashes are halved; the character is special exactly if n is even. Hence quoting a text (doubling the backslashes before each special character and adding one) and searching yields the original text and no special character.", "quantifier": "every text, every special character set", "why_tests_cant": "All backslash counts at all positions; the in-place compaction moves text while scanning.", "anchors": ["src/read.c: find_map_unquote, find_char_unquote, find_percent, find_percent_cached"]}
{"id": "C20", "title": "Conditional directives select exactly one branch", "statement": "For every well-nested sequence of if/else/else-if/endif lines, the lines acted on are exactly those in the first branch whose condition holds of each conditional all of whose enclosing branches are selected, each condition judged in the state left by the lines before it; ignored text has no effect whatever its conditions say; text after endif is unaffected; the condition forms (a,b), quoted pairs, ifdef and ifndef mean what the manual says. Refuted: a malformed else-if is no error and reads unwritten memory; an ignored nested define ends at the first endef; 'else junk' permits a second else.", "quantifier": "every nesting depth, every sequence of lines, every expansion function", "why_tests_cant": "Nesting of any depth with arbitrary truth values.", "anchors": ["src/read.c: conditional_line, eval, do_define"]}
{"id": "C21", "title": "A recipe is split into its lines without loss", "statement": "Splitting a recipe of fewer than 65536 lines gives exactly its logical lines: the lines joined by newline are the recipe (up to one trailing newline), a newline preceded by an odd number of backslashes does not split, the reading is unique; each line's silent/ignore/recursive flags are those of its prefix characters and of literal references to MAKE. A recipe of 65536 lines is silently cut into none (refuted).", "quantifier": "every recipe text", "why_tests_cant": "All combinations of backslashes, newlines and prefix characters; counts near 65536.", "anchors": ["src/commands.c: chop_commands"]}
{"id": "C22", "title": "Bypassing the shell is unobservable", "statement": "Whenever make decides to run a command line without the shell, the argument vector it builds is exactly the one a POSIX shell would build for that line (quote removal, backslashes, backslash-newline, field splitting).", "quantifier": "every command line with default shell, shell flags and IFS", "why_tests_cant": "An equivalence between two tokenisers over all strings.", "anchors": ["src/job.c: construct_command_argv_internal (fast path)"]}
{"id": "C23", "title": "Running through the shell passes the line verbatim", "statement": "Whenever make runs a line through the shell, the resulting argument vector is the shell name, the shell flag words, and the command line as one argument, character for character up to the end of the line.", "quantifier": "every command line, every shell name, every flags string", "why_tests_cant": "An escape/unescape round trip over all strings.", "anchors": ["src/job.c: construct_command_argv_internal (slow path)"]}
{"id": "C24", "title": "Jobserver tokens are conserved and -jN is respected", "statement": "Across any number of make processes sharing a jobserver, in any interleaving of starting, finishing and failing jobs: at most N commands run at once, tokens are never created, tokens in the pipe and tokens held add up to N-1, all are back when everything has exited, no internal token error can be reported, no make exits while a command it started runs, and the makes never deadlock on the pipe. Refuted: a make exiting with a status other than 2 keeps the tokens of its load-waiting jobs; a recipe whose first command cannot be started is not waited for, which breaks the limit; a debugger quit in a sub-make makes the parent use freed memory or leave jobs behind.", "quantifier": "every interleaving, every number of processes, every N", "why_tests_cant": "Concurrency: all schedules.", "anchors": ["src/job.c: new_job, free_child, start_waiting_job, start_waiting_jobs, reap_children", "src/main.c: clean_jobserver, die", "src/posixos.c: jobserver_setup, jobserver_acquire, jobserver_release, jobserver_acquire_all"]}
{"id": "C25", "title": "Local job slots", "statement": "With -jN and no jobserver at most N commands run at any time, for any sequence of job starts and child exits in any order, if no load limit is in force and commands can be started; with one slot or .NOTPARALLEL a make has at most one child whatever happens. Refuted for N>=2: a load limit, or commands that cannot be started, let any number of commands run.", "quantifier": "every schedule of starts and exits, every N>=1", "why_tests_cant": "All schedules.", "anchors": ["src/job.c: new_job, start_job_command, start_waiting_job, start_waiting_jobs, reap_children"]}
{"id": "C26", "title": "File time encoding preserves order and round-trips", "statement": "Encoding seconds and nanoseconds into make's time stamp is strictly monotone on representable times, never collides with the special values (unknown, nonexistent, old, new), and decoding returns the same seconds and nanoseconds; later times are clamped to the last stamp and the order since 1970 is never reversed; the printed fraction denotes exactly the nanoseconds; under -L the newest stamp on the chain of links counts. Times before 1970 get the LAST stamp instead of the first (refuted).", "quantifier": "every seconds value and every nanoseconds value, both resolutions", "why_tests_cant": "Arithmetic on 64 bit words over the whole domain.", "anchors": ["src/file.c: file_timestamp_cons, file_timestamp_sprintf", "src/filedef.h: FILE_TIMESTAMP_S, FILE_TIMESTAMP_NS, ORDINARY_MTIME_MIN, ORDINARY_MTIME_MAX", "src/remake.c: name_mtime"]}
{"id": "C27", "title": "The build engine brings goals up to date in dependency order", "statement": "For any dependency graph (circles included), any file times, any number of jobs ending in any order, the build ends; each recipe is started at most once, after all prerequisites that were not dropped have been settled well; only circular prerequisites are dropped; a recipe is started only if its target is missing or phony, or a prerequisite (or, through an intermediate one, a prerequisite of that) is missing, phony, newer or was remade, or -B was given, or it is a double-colon rule without prerequisites; when a recipe starts its prerequisites, the intermediate ones too, are there; and when make reports success everything the goals need is there and not older than its prerequisites.", "quantifier": "every finite graph, every file-time assignment, every schedule and outcome of the recipes, every option -k, -B, -n, -q -k, -t -k", "why_tests_cant": "All graphs; sharing, diamonds and circles of any size, all interleavings of jobs.", "anchors": ["src/remake.c: update_goal_chain, update_file, update_file_1, check_dep, remake_file, notice_finished_file, f_mtime"]}
{"id": "C28", "title": "A second build does nothing", "statement": "After a build that went well, with recipes that leave their own targets with a time not older than anything else, building the same goals or some of what they depend on runs no recipe, changes nothing and goes well. Refuted with intermediate files that are kept.", "quantifier": "every acyclic graph without intermediate files, every initial state and schedule", "why_tests_cant": "Two-run property over all graphs.", "anchors": ["src/remake.c: update_file_1, check_dep, notice_finished_file"]}
{"id": "C29", "title": "Failure containment", "statement": "If a recipe fails or there is no rule for a file, no recipe of a target depending on it is started; without -k nothing is started any more and make fails; with -k make goes on to the end, everything the goals need is either up to date or depends on a failure, and make succeeds just if no goal does. Refuted for targets with several double-colon rules.", "quantifier": "every graph, every set of failing recipes, every schedule", "why_tests_cant": "All graphs and failure sets.", "anchors": ["src/remake.c: update_goal_chain, update_file_1, check_dep", "src/job.c: reap_children"]}
{"id": "C30", "title": "Pattern rule search picks the shortest stem", "statement": "If some pattern rule applies as things are, the one chosen has the shortest stem, and the earliest definition among equals; otherwise it is the first rule in that order, not terminal, of which every prerequisite can be had or made by a chain in which no rule is used twice. Substituting the stem back into the target pattern gives the target; the prerequisites are those of the rule with the stem put in; match-anything rules that are not terminal lose against any specific rule. The search ends for all rules; if none is found, every rule has a prerequisite that cannot be had; and if no rule can serve twice in a chain, whatever can be made is found.", "quantifier": "every rule list, target name, file table, file system and search path", "why_tests_cant": "All rule sets, orders and chains of any length.", "anchors": ["src/implicit.c: pattern_search, stemlen_compare, try_implicit_rule"]}
{"id": "C31", "title": "Redefining a pattern rule", "statement": "Defining a pattern rule with the same target pattern and the same prerequisites as an existing one replaces it (or is ignored when not overriding), leaving exactly one of them in force: the last overriding definition, or the first one if none overrides; the rules in force stand in the order of those definitions.", "quantifier": "every sequence of definitions of pattern rules with one target", "why_tests_cant": "Histories of definitions of any length.", "anchors": ["src/rule.c: new_pattern_rule, create_pattern_rule, freerule"]}
{"id": "C32", "title": "Automatic variables", "statement": "$^ lists the distinct normal prerequisites in first-occurrence order, $+ all normal ones in order, $| the distinct order-only ones that are not normal anywhere, $? the distinct normal ones newer than the target (all with -B); a member of an archive is listed by its member name. $@, $%, $* and $< are the target (or archive), the member, the stem (or the name without its first known suffix) and the first prerequisite that is neither order-only nor from .EXTRA_PREREQS. Building these lists never writes past the memory reserved for them, if the mentions of one name changed together.", "quantifier": "every prerequisite list with every order-only/changed marking, every earlier size of the static buffers, every target name and suffix list", "why_tests_cant": "All lists with duplicates and mixed markings; the memory bound fails only for particular orders.", "anchors": ["src/commands.c: set_file_variables"]}
{"id": "C33", "title": "Only intermediate files are removed", "statement": "Files deleted at the end of a build were intermediate, existed only because of this build, and are neither precious, secondary nor given as a goal; in question, touch and (on signal) dry-run modes none is deleted.", "quantifier": "every file table", "why_tests_cant": "All flag combinations on all files.", "anchors": ["src/file.c: remove_intermediates"]}
{"id": "C34", "title": "Debugger breakpoints", "statement": "After any sequence of break, delete, continue, finish and step commands and stops: the breakpoint list contains exactly the breakpoints set and not deleted, in order, without following a dangling pointer; numbers are never reused; execution stops at a point of a target only if a listed breakpoint asks for it, and exactly then while no target has two breakpoints and none is temporary. The unrestricted 'exactly' is refuted (second breakpoint, deleting one of two, temporary breakpoints, finish, continue with several modifiers).", "quantifier": "every sequence of commands and stopping points", "why_tests_cant": "Histories with several breakpoints on one target.", "anchors": ["libdebugger/break.c: add_breakpoint, remove_breakpoint, list_breakpoints", "libdebugger/cmd.c: enter_debugger", "src/remake.c: update_file_1", "libdebugger/command/continue.c", "libdebugger/command/finish.c", "libdebugger/command/delete.c"]}
{"id": "C35", "title": "Debugger frame motion", "statement": "up/down/frame move to exactly the requested frame when it exists, whatever motions came before; otherwise the motion is reported, the position is kept, and a too large down keeps the current frame. Refuted: a failed up or frame loses the current frame.", "quantifier": "every stack depth and every sequence of motions", "why_tests_cant": "Histories of moves.", "anchors": ["libdebugger/stack.c: dbg_adjust_frame, dbg_stack_size"]}
{"id": "C36", "title": "Debugger command words", "statement": "The command is the first word of the line and its argument starts at the second word; words separated by single blanks are found unchanged; modifier abbreviations are exactly the long enough prefixes. Refuted for words separated by two blanks.", "quantifier": "every command line", "why_tests_cant": "All strings.", "anchors": ["libdebugger/fns.c: get_word, is_abbrev_of", "libdebugger/cmd.c: execute_line"]}
{"id": "C37", "title": "Line number lookup stays inside its table", "statement": "Building the line table of makefiles whose locations are inside them never writes outside it, and looking up line L answers from inside the table with something located on L if there is one, for every L except the one after the last entry. Refuted for that L, for break on any larger line (uninitialised type), and for makefiles found through the include path.", "quantifier": "every set of located targets and rules and every L", "why_tests_cant": "Boundary value depends on file length.", "anchors": ["libdebugger/file2line.c: target_for_file_and_line, enter_target_lineno, enter_rule_lineno", "libdebugger/command/break.c: dbg_cmd_break"]}
{"id": "C38", "title": "Argument-vector splitting", "statement": "Every line is cut into exactly the arguments a small grammar of blanks, quotes and backslashes gives it (unterminated quotes and a trailing backslash included), uniquely; quoting each argument and splitting gives back the arguments. Single quotes do not protect a backslash (refuted).", "quantifier": "every line; every non-empty list of arguments", "why_tests_cant": "All strings.", "anchors": ["src/buildargv.c: buildargv"]}
{"id": "C39", "title": "Options and command variables survive MAKEFLAGS", "statement": "A make that was not given -e puts a MAKEFLAGS entry into its recipes' environment; a make reading it has the same value of every inherited option (arguments as the same strings in the same order), every other option as if not given, the --eval strings unchanged whatever they contain, and each command-line variable with the same value and flavour at command-line strength. Excluded, each with a counterexample: option arguments with a dollar sign, file names beginning with a tilde, and simply expanded variables with a dollar sign.", "quantifier": "every command line and environment, every option state reachable from them, every --eval string, every list of command variables, every environment around the entry", "why_tests_cant": "Encode/export/import/expand/split/getopt round trip over all strings and all options.", "anchors": ["src/main.c: switches, define_makeflags, quote_for_env, decode_env_switches, decode_switches, handle_non_switch_argument, expand_command_line_file", "src/getopt.c: _getopt_internal", "src/variable.c: target_environment"]}
{"id": "C40", "title": "VPATH search returns the first match", "statement": "A vpath search returns directory/name for the earliest place in which the file is mentioned or exists, and nothing if there is none. The places are the directories of the vpath directives in force (not cancelled by a later one) whose pattern the name matches, in the order of the makefile, then the directories of VPATH. GPATH holds exactly for its directories. This fails for directories that end in a slash, names with two slashes, and patterns with a quoted percent.", "quantifier": "every list of vpath directives, every value of VPATH and GPATH, every file system and every set of files the makefiles mention", "why_tests_cant": "All directory lists, directive orders and names, including ones whose entries end in a slash.", "anchors": ["src/vpath.c: construct_vpath_list, build_vpath_lists, selective_vpath_search, vpath_search, gpath_search"]}
{"id": "C41", "title": "addprefix, addsuffix and join work word by word", "statement": "$(addprefix P,X) and $(addsuffix S,X) attach the text to every word of X in order; $(join A,B) concatenates the words of A and B pairwise and keeps the surplus words of the longer list; joining $(dir X) and $(notdir X) gives the words of X back when each has a directory part and a file part.", "quantifier": "all texts", "why_tests_cant": "unboundedly many word counts and white space layouts", "anchors": ["src/function.c:func_addsuffix_addprefix", "src/function.c:func_join"]}
{"id": "C42", "title": "findstring is the substring test", "statement": "$(findstring F,X) is F when F occurs anywhere in X and empty otherwise.", "quantifier": "all texts F, X", "why_tests_cant": "all positions and self-overlapping patterns", "anchors": ["src/function.c:func_findstring"]}
{"id": "C43", "title": "Function calls get the arguments written", "statement": "A call $(name a1,...,an) of a built-in text function receives exactly the arguments written between top-level commas (brackets protect commas), at most as many as the function takes with the last one keeping the remaining commas, and its result takes the place of the call; only the exact name of a function is recognised (false for names of 256 characters or more).", "quantifier": "every function table, every argument list, every text around the call", "why_tests_cant": "All texts, nestings and argument counts.", "anchors": ["src/function.c: lookup_function, find_next_argument, handle_function, expand_builtin_function", "src/expand.c: variable_expand_string"]}
{"id": "C44", "title": "Texts mean what their syntax says", "statement": "The value of a text is given by rules on its parts: literal text stands for itself, $$ for a dollar, $x $(x) ${x} and computed names for the value of the innermost visible variable (plain value, or expansion of a recursive one), $(x:a=b) for the word-wise substitution, a function call for the function applied to the values of its arguments, $(if) and $(or) and $(and) evaluate only the arguments they need, $(foreach) evaluates its body once per word with the variable bound, $(call) evaluates the function's value with the arguments as $(1), $(2), ... Whenever these rules give a value, the expander computes exactly that value (or, with $(call)/$(foreach), reports a self reference).", "quantifier": "every text, scope chain, function table", "why_tests_cant": "All texts of any nesting, all environments.", "anchors": ["src/expand.c: variable_expand_string, reference_variable, recursively_expand_for_file", "src/function.c: func_if, func_or, func_and, func_foreach, func_call, handle_function"]}
{"id": "C45", "title": "make passes its own environment through unchanged", "statement": "An entry NAME=VALUE of make's environment (the last for NAME, NAME not SHELL, MAKE_RESTARTS, MAKELEVEL or MAKEPARENT_*) reaches every recipe with exactly the same value, dollar signs included, as long as no scope redefines NAME.", "quantifier": "every environment vector, every name and value, every chain of scopes, with and without -e", "why_tests_cant": "The value is stored as a recursive variable whose references would expand it; that it is never expanded on the way out, for any value and any surrounding definitions, is not settled by samples.", "anchors": ["src/main.c: main (environment import)", "src/variable.c: target_environment", "src/variable.c: define_variable_in_set"]}
{"id": "C46", "title": "Debugger command lookup", "statement": "A command name or alias of two or more characters selects exactly the command the tables give for it and nothing else is accepted; every full command name in front of arguments runs with those arguments. Refuted for the one character aliases.", "quantifier": "every string typed", "why_tests_cant": "The early exit of the search is only right if the tables are sorted by strcmp.", "anchors": ["libdebugger/cmd.c: find_command, execute_line", "libdebugger/cmd_initialize.h: dbg_commands, aliases"]}
{"id": "C47", "title": "step N counts stopping points", "statement": "After step N the next N-1 stopping points of targets without breakpoint are passed and the N-th stops.", "quantifier": "every N, every series of stopping points and every debugger state", "why_tests_cant": "Arbitrary counts and series.", "anchors": ["libdebugger/cmd.c: enter_debugger", "libdebugger/command/step.c: dbg_cmd_step", "src/remake.c: update_file_1"]}
{"id": "C48", "title": "A definition line does what its operator says", "statement": "A line NAME OP TEXT is read as exactly that name, operator and text; =, :=, ::=, +=, ?= and != then give the variable the value and flavour the manual states, unless a stronger definition stands, and touch no other variable. A target-specific += puts the outer value, a space and the new text together in the scope of the target.", "quantifier": "every line, every variable set, every old definition and origin", "why_tests_cant": "All texts with references and white space inside names, all combinations of operator, old flavour, old origin and emptiness of the values.", "anchors": ["src/variable.c: parse_variable_definition, assign_variable_definition, try_variable_definition, do_variable_definition, define_variable_in_set", "src/expand.c: variable_append"]}
{"id": "C49", "title": "A library is found in the earliest place", "statement": "For a prerequisite -lNAME, the file used is the earliest over all words of .LIBPATTERNS: one in the current directory before one in a place of the search path, that before one in a standard directory, earlier places before later ones, and at one place the first pattern; and nothing is used only if no pattern gives a file anywhere.", "quantifier": "every name, every list of patterns, every search path and every file system", "why_tests_cant": "The order mixes patterns and places; all combinations of presence and absence count.", "anchors": ["src/remake.c: library_search", "src/vpath.c: vpath_search"]}
{"id": "C50", "title": "Suffix rules become the pattern rules they stand for", "statement": "From the suffixes and the files with commands make derives exactly these rules, each once, after those of the makefile: for every suffix .s an empty rule %.s, for .s with commands the rule %: %.s, for .s.t with commands the rule %.t: %.s, and for .s.a the archive member rule too; in POSIX mode not for targets with prerequisites; and none that the makefile already has as a pattern rule.", "quantifier": "every list of suffixes, every table of files and every list of pattern rules", "why_tests_cant": "All combinations of suffixes, commands and existing rules.", "anchors": ["src/rule.c: convert_to_pattern, convert_suffix_rule, new_pattern_rule"]}
{"id": "C51", "title": "-n, -q and -t leave alone what they should, and -n and -q leave nothing out", "statement": "With -n or -q no file is changed and no job is left; with -q or -t no recipe is started; with -t only files that have a recipe and are not phony are written; a needed file whose recipe -n does not print, or any needed file when -q reports success, is there, with its prerequisites, none of which is newer or has its own recipe printed.", "quantifier": "every graph, double-colon rules and circles included, every mode, with and without -k", "why_tests_cant": "All graphs and all paths through the engine.", "anchors": ["src/remake.c: remake_file, touch_file, notice_finished_file", "src/commands.c: execute_file_commands", "src/job.c: start_job_command"]}
{"id": "C52", "title": "Logical lines of makefiles", "statement": "A makefile is read as its logical lines: a newline after an odd number of backslashes continues the line, every other newline ends it, and a carriage return before a newline does not count. Each line carries the number of its first physical line. Nothing else is lost or added, however long the lines are and whatever the size of the buffer. The text of $(eval) has the same lines.", "quantifier": "every text without NULs and every size of the buffer", "why_tests_cant": "The buffer is filled in pieces whose ends may fall anywhere, between a carriage return and its newline or inside a run of backslashes.", "anchors": ["src/read.c: readline, readstring, eval, eval_buffer"]}
{"id": "C53", "title": "Continuations inside references in recipes", "statement": "Before a recipe is expanded, white space with a continuation in it becomes one space inside references, and nothing else is changed. The recipe is changed in place and once for every target that shares it, so doing it again must change nothing.", "quantifier": "every line of a recipe (for the exact result: without two backslashes before a newline)", "why_tests_cant": "The loop reads and writes the same buffer at two places; the runs of backslashes and blanks are unbounded.", "anchors": ["src/job.c: new_job"]}
{"id": "C54", "title": "The output of $(shell) and !=", "statement": "The output of a command becomes one line: carriage returns before newlines and the newlines at the end are dropped (only one newline for !=), every other newline becomes a space, and nothing else is changed.", "quantifier": "every output without NULs", "why_tests_cant": "All positions and numbers of newlines.", "anchors": ["src/function.c: fold_newlines, func_shell_base"]}
{"id": "C55", "title": "Recipe prefixes on continuation lines", "statement": "When a command is run, one recipe prefix is removed at the beginning of each of its lines after the first, and no other character.", "quantifier": "every command and every recipe prefix", "why_tests_cant": "All numbers of lines and prefixes; commands that come from the same line of the recipe are handled one after the other.", "anchors": ["src/job.c: start_job_command, job_next_command"]}
{"id": "C56", "title": "A sub-make knows its parent", "statement": "A make that is started by a recipe reads in the environment it got that it is one level deeper than its parent, which process its parent is, and which target started it, and defines the variables MAKELEVEL, MAKEPARENT_PID and MAKEPARENT_TARGET with these values.", "quantifier": "every level, process, target name, set of variables and exported environment", "why_tests_cant": "The other variables in the environment and the name of the target are arbitrary; the names that break it are long or unusual.", "anchors": ["src/variable.c: target_environment, define_automatic_variables", "src/main.c: main"]}
{"id": "C57", "title": "The profile is a JSON document", "statement": "With --profile=json make writes a file that is a well-formed JSON document and gives, under the documented keys, the arguments, the goals, the times, and for every target its name, its place, its times and the names of the targets it depends on.", "quantifier": "every set of targets, names, times, arguments and directories", "why_tests_cant": "Names are arbitrary texts, lists have arbitrary lengths; a reader of JSON fails on one missing comma or escape.", "anchors": ["src/json_format.c: escape_print, format_timestamp, dump_preamble, dump_argv, dump_target, dump_depends, json_close"]}
{"id": "C58", "title": "Lists of file names", "statement": "A list of targets or prerequisites names exactly its words: separated by blanks, with backslash quoting undone, without leading ./, up to the first unquoted stop character (an unquoted bar separates order-only prerequisites), and lib(a b c) names lib(a) lib(b) lib(c); names written with quoting come back unchanged; a name that begins with ~ stands for the home directory, a pattern for the files that match it (or for itself), a pattern for members of an archive for the members that match; $(wildcard) gives for each word the files that match; no list, however written, makes the parser write past its buffer.", "quantifier": "every text, every set of stop characters and flags, every answer of the file system", "why_tests_cant": "Texts are unbounded and combine quoting, groups, stop characters and ./ in any order; an overrun shows only on the one text that fills the buffer.", "anchors": ["src/read.c: parse_file_seq, find_map_unquote", "src/file.c: split_prereqs", "src/function.c: string_glob, func_wildcard", "src/ar.c: ar_name, ar_glob_pattern_p"]}
{"id": "C59", "title": "The rules of a target", "statement": "After a makefile is read, a target of single-colon rules has all the prerequisites its rules give it, those of the rule with the recipe first, and the last recipe given; a recipe is replaced only with a warning that names the target; a double-colon target has one entry per rule, in order, each with its own prerequisites and recipe; make stops exactly if a name is the target of both kinds; static pattern rules give each target the prerequisites with its stem; an empty .SUFFIXES or .DEFAULT clears what came before; grouped targets know each other; names no rule mentions are not targets.", "quantifier": "every list of rules", "why_tests_cant": "Rules for one target can be spread over any number of rules in any order and mixed with rules for other targets.", "anchors": ["src/read.c: record_files", "src/file.c: enter_file, lookup_file, enter_prereqs", "src/function.c: patsubst_expand_pat"]}
{"id": "C60", "title": "Descriptions of targets", "statement": "A rule is recorded with the description comment (#: text) that was read since the rule before it in the same makefile, and with no other: not that of another rule, not one from an including or included makefile; the description is the text of the comment to the end of the line, a # that is quoted or inside a reference starts none; remake --tasks lists exactly the targets with a description, each once, in the order of their names, whatever the order of the hash table.", "quantifier": "every sequence of lines, rules, statements and nested makefiles; every content and order of the table of files", "why_tests_cant": "The description is kept in static variables with line numbers, shared by nested makefiles; which value is used depends on the interleaving of comments, rules and includes.", "anchors": ["src/read.c: eval, record_waiting_files, remove_comments, record_files", "libdebugger/command/info.c: dbg_cmd_info_tasks, dbg_target_compare"]}
{"id": "C61", "title": "Targets of failed and interrupted recipes", "statement": "make deletes only targets of recipes it started and that failed, were interrupted or could not go on; never a precious or phony target or an archive member, and never a file that it looked at and that has not changed since; after a signal from the user no target of a running recipe is left in a state that differs from the one make saw; the same holds after a recipe dies by a signal, or fails with .DELETE_ON_ERROR, and otherwise a failure deletes nothing; while make is dying no command is started and an unfinished recipe counts as failed.", "quantifier": "every sequence of starts, endings, signals and changes of files by anyone; every set of precious and phony targets and archive members", "why_tests_cant": "The outcome depends on when a signal arrives relative to what the recipes write and to what make has looked at.", "anchors": ["src/commands.c: delete_target, delete_child_targets, fatal_error_signal", "src/job.c: reap_children"]}
{"id": "C62", "title": "The line of a rule", "statement": "A line made of words, a colon (or ::, &:, &::), a text and possibly a comment or a recipe is read as that: its targets are the expanded words, with quoted blanks and colons unquoted; behind the colon, modifiers and a definition make it a target-specific assignment; otherwise the text is expanded, a further unquoted colon makes a static pattern rule with one pattern, and a semicolon starts the recipe. A line without a colon is refused unless it expands to nothing. No text is read past its end, whatever variables expand to.", "quantifier": "every line, every expansion of its variable references, every set of names, every answer of the file system", "why_tests_cant": "Words, references, quoting, operators and endings combine without limit, and a colon or semicolon may come from any expansion.", "anchors": ["src/read.c: eval, get_next_mword, parse_var_assignment, find_map_unquote, find_char_unquote"]}
{"id": "C63", "title": "The default goal", "statement": "Without goals on the command line and without .DEFAULT_GOAL in the makefiles, the goal is the first target that is no dotted name (without a slash), no pattern, no suffix and no pair of suffixes, of the first rule that has one; if there is none, make says so. Setting .DEFAULT_GOAL to nothing starts the search again; a value set by the user stays and is used: the file of that name, else exactly one name. Whether it is undefined or not, no freed memory is read.", "quantifier": "every sequence of rules, changes of .SUFFIXES and definitions, every starting set of variables, every set of known files", "why_tests_cant": "Rules, suffix lists and definitions interleave without limit, and freed memory often still holds the old value.", "anchors": ["src/read.c: eval", "src/main.c: main", "src/variable.c: undefine_variable_in_set"]}
{"id": "C64", "title": "Members of archives", "statement": "For every archive as ar writes it (names in the headers with or without a slash, GNU's table of long names, BSD's names in the data, a table of symbols), the members are visited one by one with their names, positions, sizes and dates; lib(dir/name) has the date of the first member 'name' and does not exist if there is none; touching it changes the twelve bytes of its date and nothing else; lib(pattern) gives the members that match. For any file at all, the scan ends and touches nothing outside of its buffers.", "quantifier": "every archive, every name, every pattern, every size of the stack; for safety, every file", "why_tests_cant": "Archives have unlimited numbers of members, and names, tables and numbers of any form; damaged files are unlimited too.", "anchors": ["src/arscan.c: ar_scan, ar_name_equal, ar_member_pos, ar_member_touch", "src/ar.c: ar_parse_name, ar_member_date, ar_glob"]}
{"id": "C65", "title": "Output of parallel jobs with -O", "statement": "Whatever -O says, and however the jobs of any number of makes are interleaved: what can be seen of a child is at all times a prefix of what its messages and commands put out (for each stream), and all of it when make has finished the child. With -Otarget and -Orecurse nothing of a child is seen before it is finished, and then it is one block with nothing of another dump in between; with -Oline the output of a line is written before the next line starts; a command that runs another make is not held back (but with -Orecurse). With -w each block is between the lines Entering and Leaving; without -O or with -Orecurse each make says Entering once before all else, and Leaving when it ends. No make waits for the lock for ever. If the lock cannot be had, blocks may be mixed.", "quantifier": "every number of makes and children, every interleaving of what they do, every output, every size of the buffer, all modes of -O, -w, stdout and stderr the same or not", "why_tests_cant": "Which interleavings come up in a test is chance; the bytes, the makes and the children are unlimited.", "anchors": ["src/output.c: _outputs, setup_tmpfile, output_start, pump_from_tmp, acquire_semaphore, release_semaphore, output_dump, output_init, output_close", "src/job.c: reap_children, start_job_command, new_job, child_error", "src/main.c: decode_output_sync_flags, die"]}
{"id": "C66", "title": "The cache of directories", "statement": "Whether a file exists, and what a wildcard is matched against, is answered from the listing its directory had when it was first asked about under any of its names; no other question, no file marked as impossible, and no change of the file system since then changes the answer. A file is known to be impossible exactly if it was marked in that directory, under any of its names. While the file system does not change the answer is what the file system says. The count of open directories is exact and ten are never open. Whether a directory itself exists, on the other hand, is not kept apart from the marks: marking a file of a directory that is not there makes it exist.", "quantifier": "all sequences of calls of file_exists_p, file_impossible, file_impossible_p and glob, all answers of the system at each of them, all names", "why_tests_cant": "directories are read lazily and shared between names by device and inode; how far one has been read depends on all questions before, so the answer could depend on the order of unrelated questions", "anchors": ["src/dir.c: find_directory, dir_contents_file_exists_p, dir_file_exists_p, file_exists_p, file_impossible, file_impossible_p, open_dirstream, read_dirstream", "src/implicit.c: pattern_search (calls of file_impossible)"]}
{"id": "C67", "title": "Second expansion and extra prerequisites", "statement": "With .SECONDEXPANSION each text of prerequisites that is still to be expanded is replaced, in its place, by the names it expands to; while it is expanded $@ and $% are the target's, $* is the stem of its static pattern rule or else of the target, $^ and $| are made of what has been expanded before it and of the prerequisites after it that need no expansion, $< of those before it; this never fails and leaves nothing to be expanded; where nothing is pending nothing changes. A target gets, after its own prerequisites, all those of its own .EXTRA_PREREQS, or of the global one if it has no variables of its own, or none of them if it is one of them; they can not be seen in $^, $+, $?, $| and $<. Against the manual: $^ has prerequisites of later rules too; every percent sign of a static pattern text is the stem, not only the first of each word; a target with any variable of its own, or with something that was expanded a second time, does not get the global extra prerequisites.", "quantifier": "all targets, all lists of prerequisites of all rules, all texts, all results of expansion and splitting", "why_tests_cant": "the value of each automatic variable depends on how many texts before it have been expanded and on which order-only prerequisites were made normal on the way; tests try one or two texts.", "anchors": ["src/file.c: expand_deps", "src/file.c: enter_prereqs", "src/file.c: expand_extra_prereqs", "src/file.c: snap_file", "src/commands.c: set_file_variables"]}
{"id": "C68", "title": "Remaking makefiles and running make again", "statement": "Goals, or makefiles as goals, are all looked at until each is up to date or a call has ended its pass; the result is the first failure or question met, else the last goal that said it was remade. The calls go in passes in the order of the goals, and a goal that was up to date in a pass is not looked at again; it ends if from some call on everything is updated. Makefiles are remade in spite of -n, -q and -t, but for those that are goals on the command line. Makefiles that would loop are not remade. Make is run again exactly if the result is success, or if it is failure and some makefile has a new time; it dies exactly if there is a failure, nothing was remade and a makefile that is not included and not optional is missing; so it is only run again if some makefile was really remade. If the only words that begin with -f are those that give makefiles, then the next make gets the same options and goals and the names of the list of makefiles in their places; a makefile from the standard input becomes a temporary file that is not to be remade. In its environment only MAKELEVEL and MAKE_RESTARTS change; it reads one more restart than this make, and whether the directory was announced. Against expectation: with --file or -kf the next make reads other makefiles; an argument -fdir of -C crashes; goals after -- can be lost or added; with -q a remade makefile may not be read again; the stop of -q ends only a pass.", "quantifier": "all goals with all entries, all behaviours of update_file that depend on all that was done before, all modes, all lists of makefiles, all times, all command lines", "why_tests_cant": "what happens depends on the interleaving of passes, on which makefile fails first, on the modes of each entry, and on how each word of the command line is read; tests try one remade makefile with plain options.", "anchors": ["src/main.c: main", "src/remake.c: update_goal_chain", "src/main.c: decode_switches"]}
{"id": "C69", "title": "Files whose names turn out to be the same are merged into one", "statement": "If a file turns out to have another name (found in a directory of VPATH), then afterwards the new name is that of one file and the old name of none, other names are as they were, and whoever had a file gets to the right one; make does not abort. If the name was that of another file, that one stays: it has the prerequisites of both, its own first, its own recipe or else the other's, the later time, the flags of either, and of each variable the one in the inner set, its own if both are as deep; other files are unchanged but for the name of the entries of a double-colon target. make stops exactly if one has single-colon and the other double-colon rules. A recipe that is lost is reported. No variable in use is freed if no set is in both lists. Against expectation: the message names the wrong recipe; a file merged twice aborts; further double-colon rules are lost; breakpoints and other marks are lost; variables of a shared parent are freed.", "quantifier": "all tables of files that are sound, all files in them with all contents, all names, all lists of sets of variables", "why_tests_cant": "it depends on the order in which names are found, on what both files already have, on handles kept elsewhere and on memory that is freed while in use; tests try one file in one directory of VPATH.", "anchors": ["src/file.c: rehash_file", "src/file.c: rename_file", "src/variable.c: merge_variable_set_lists", "src/remake.c: update_file", "src/filedef.h: check_renamed"]}
{"id": "C70", "title": "define ... endef takes the lines up to its own endef", "statement": "A define reads the lines up to the endef that belongs to it, inner defines having theirs, and leaves what follows; the value is these lines with newlines between them, continuations joined, taken as they are but for comments of inner endefs. It fails exactly if there is no such endef, whatever the lines are; its buffer is always large enough. make complains exactly if there is something behind one of the endefs. The name is the text before the operator, expanded, without blanks around it, and is never empty; without an operator the variable is recursive. Against expectation: comments of inner endefs are lost, inner definitions with override or export are not counted, and endef# does not end a definition.", "quantifier": "all lists of lines of any length and nesting, both modes of joining, all prefixes of recipes, all texts of the directive, all expansions", "why_tests_cant": "nesting and the text of the lines are unbounded, the buffer is grown by a rule that has to hold for all lengths, and words that only look like define or endef come in endless forms; tests try a few.", "anchors": ["src/read.c: do_define", "src/read.c: remove_comments", "src/misc.c: collapse_continuations", "src/variable.c: parse_variable_definition"]}
{"id": "C71", "title": "Looking at a file gives its time, and the name under which it is found", "statement": "If a file is there under its name, or need not or cannot be found elsewhere, looking at it changes no name and gives the time of that name. If it is found in a directory of VPATH, the name there stands for it from then on, the old name for no file, everyone who had the file gets to the right one, and the time is that of the file found or what -o and -W say; recipes get the old name unless the directory is in GPATH, and then the new one. The time is noted in those entries of a double-colon target that are as much updated as the first; a file that is there and that make has not made is no longer intermediate; nothing else changes. There is at most one warning about times in the future, only for a file later than the clock that make has not just made, and if the clock does not go back such a file does not go unnoticed. Against expectation: libraries with short names make it read outside of the name, and libraries in GPATH are not renamed.", "quantifier": "all tables of files, all results of searches and times, all lists of GPATH, all sequences of files looked at and of clock readings", "why_tests_cant": "it depends on what is in the table under both names, on double-colon entries, on the clock, and on the file system; tests try a few such combinations.", "anchors": ["src/remake.c: f_mtime", "src/vpath.c: gpath_search", "src/file.c: rehash_file", "src/file.c: rename_file", "src/filedef.h: check_renamed"]}
{"id": "C72", "title": "With -L a file counts with the newest of its own time and those of the links to it", "statement": "Without -L, or for a name that is too long, the time of a name is what stat says. With -L it is the newest of that and of the times of all links one meets on following the name, each link taken relative to the directory it is in; links that lead nowhere count as files. The links met are determined by the file system; if they have an end the time is found, whatever is in them, at most one error is reported, and no buffer is written beyond its end even for links of any length. An error of stat other than a missing file is reported and the file counts as missing. Against expectation: links among the directories of a name are not looked at, and links are not counted, so that one that comes to point to itself meanwhile makes make hang.", "quantifier": "all answers of stat, lstat and readlink, all names and texts of links of any length, all limits on the length of names", "why_tests_cant": "chains of links and the lengths of names are unbounded, and the limits of buffers are met only by names made for it; tests follow one or two links.", "anchors": ["src/remake.c: name_mtime", "src/makeint.h: PATH_VAR, GET_PATH_MAX", "src/filedef.h: NONEXISTENT_MTIME"]}
