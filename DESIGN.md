# Formal model of ksh-openbsd: design

## Method

* The model is written in Gallina as small total functions in
  `rocq/theories/`.  For each area there are up to four files:
  `X_model.v` (definitions only; each carries a comment with the C file and
  lines it models), `X_spec.v` (the independent specification, written without
  the model's helpers), `X_proof.v` (lemmas), and `X_props.v` (only the
  property theorems, each closed by `exact`, with `Print Assumptions` below and
  a non-vacuity `Example` beside it).
* C strings are `list ascii` without the terminating NUL; a pointer into a
  string is the remaining suffix (or an index where the code goes backwards).
* Loops are structural recursion, or recursion on explicit fuel that returns a
  distinct out-of-fuel value; theorems about fuelled functions show that a
  stated amount of fuel is enough.
* Undefined behaviour (signed overflow, out-of-bounds access) is a separate
  outcome of the model wherever the property is about it.
* System calls (read, write, access, ...) are oracles: universally quantified
  functions or lists of outcomes.

## Trusted base

* Coq 8.16.1's kernel, including `vm_compute`.
* The reading of the C sources that produced the model (nothing was executed).
* Axioms: none; every theorem's `Print Assumptions` says "Closed under the
  global context".
* `coqchk` lists seven constants of the standard library's module type
  `Coq.ssr.ssrunder.UNDER_REL` instance (`Coq.ssr.ssrunder.Under_rel.*`:
  `Under_rel`, `Under_rel_from_rel`, `Under_relE`, `under_rel_done`, `over_rel`,
  `over_rel_done`, `Over_rel`, as far as present).  They come in with the
  standard library's `ssreflect` files, and no theorem here depends on them.

## What is modelled, area by area

| files | C code | not modelled |
|-------|--------|--------------|
| `StripNuls_*` | misc.c `strip_nuls` | |
| `Num_*` | var.c `getint`, `str_val`; misc.c `u64ton`, `getn` | locale, errno |
| `SimplifyPath_*`, `Search_*` | path.c `simplify_path`, `make_path`; exec.c `search`, `search_access` | the file system (an oracle); symbolic links |
| `Glob_*`, `Trim_*` | misc.c `gmatch`, `do_gmatch`, `cclass`, `pat_scan`; eval.c `trimsub`, `debunk` | reading directories (`globit`) |
| `Table_*`, `Alloc_*` | table.c; alloc.c | memory exhaustion beyond the stated overflow checks |
| `Printf_*` | shf.c `shf_vfprintf` | floating point |
| `Justify_*` | var.c `formatstr` | |
| `Arith_*` | expr.c | array references inside expressions, the error message texts |
| `Test_*` | c_test.c, exec.c side of `[[` for the grammar | file tests are an oracle |
| `Exec_*` | exec.c `execute`, c_sh.c `c_brkcont`, `c_exitreturn`, main.c `shell`/`unwind` as far as status and control flow | expansion, redirection, job control, traps |
| `Jobs_*` | jobs.c `exchild`, `startlast`, `waitfor`/`j_waitj`, `j_resume`, `j_jobs`, `j_notify`, `j_async`, `j_set_async`, `j_startjob`, `j_sigchld`, `check_job`, `j_lookup`, `new_job`, `put_job`, `remove_job` | terminal modes and process groups of the tty, `kill_job`, printing, times, coprocess jobs; waitpid/fork are the nondeterministic kernel of `Jobs_spec.step` |
| `History_*` | history.c `histsave`, `sethistsize`, `sethistcontrol`, `histbackup`, `histreset`, `init_histvec`, `findhist`, `hist_get`, `hist_replace`, `hist_execute` (lines and text), the old=new argument of `c_fc` | the history file, the editor of `fc`, listing output; strings live in an explicit heap, so use after free and leaks are visible |
| `Shift_*`, `Umask_*`, `Columns_*` | c_sh.c `c_shift`, `c_umask`; misc.c `print_columns` | option parsing of the two builtins, evaluation of the argument of `shift`; `umask(2)` keeps the low nine bits |
| Shf_* | shf.c: shf_fdopen (one direction), shf_emptybuf, shf_flush, shf_putc, shf_putchar, shf_write, shf_clearerr; shf_fillbuf, shf_getchar, shf_ungetc, shf_read, shf_getse | C39, C40 | read(2)/write(2) are lists of answers (an exhausted list means waiting for ever); RDWR streams, lseek at shf_flush of an input stream, shf_reopen, close not modelled |
| ShfStr_* | shf.c: shf_sopen (writing), shf_emptybuf for strings, shf_putc, shf_putchar, shf_write, shf_sclose | C50 | sizes unbounded (no int overflow) |
| XString_* | expand.h: Xinit, Xput, XcheckN, Xrestpos, Xclose, XPinit, XPput; misc.c: Xcheck_grow_ | C49 | sizes unbounded |
| Word_* | tree.h word codes; tree.c: wdscan, wdcopy, wdstrip, tcopy, iocopy; misc.c: str_save | C23, C56 | trees are values, not memory cells; an unknown code is skipped (no warning) |
| `Src_*` | lex.c:107-110, 974-1072, 1620-1670 (getsc, getsc_, getsc__, getsc_bn, ungetsc), lex.h:14-46 | lines of a file are an oracle list (getsc_line with prompts, timeouts, line editing, history and read errors is not modelled); SF_ECHO and line numbers left out |
| `Lex_*` | lex.c:136-927 (yylex, gethere, readhere), 1518-1617 (get_brace_var, arraysub) | csh history (lex.c:196-261), prompts and multi-line state left out; the state stack, kept in C as linked blocks of 32 entries, is a list; here delimiters come in already evaluated |
| `Quote_*` | misc.c:979-1011 (print_value_quoted) | output is a text; shf_putc of 0xFF on a full buffer is not modelled |
| `Here_*`, `Alias_*` | theorems about `Lex_model` (readhere, gethere, alias expansion) | as for `Lex_*` |
| `Syn_*` | syn.c:49-625, 781-802 (the whole parser), var.c:805-853 (is_wdvarname, is_wdvarassign) | `[[ ]]` is an unmodelled outcome; nesting state and messages, line numbers left out; heredoc bodies are filled in later by the lexer and not put into the tree; the theorems use a lexer over lexemes, with no limit on here documents |
| `Var_model/spec/proof/inv/array/typed/env/refuse/props.v` | var.c 56-101, 149-304, 307-432, 503-522, 586-784, 790-802, 857-892, 1156-1255; c_unset, the variable part of c_read, c_getopts, x_sigwinch, varsub | C11, C12, C14, C57. Flags, blocks, chains and the union are explicit; arithmetic is an arbitrary function from state and text to assignments and a result. Not modelled: special variables (getspec, setspec, unsetspec), the restricted shell, positional parameters, freeing of memory. |
| `Opt_*` (C19, C20) | misc.c:178-188 `option`, 237-262 `printoptions` (short form) and `getoptions`, 265-324 `change_flag`, 329-463 `parse_args`, 847-977 `ksh_getopt_reset`, `ksh_getopt`; c_ksh.c:1257-1362 `getopts_reset`, `c_getopts`; edit.c:213-234 `set_editmode` | Reading behind the NULL of argv or the NUL of a string is UB. Messages, j_change and the uid calls are not modelled; sorting of operands and the array assignment are only recorded as requested. Direct assignments to options elsewhere are the operation `OFlag`. |
| `Brace_*` (C34) | eval.c:1261-1334 `alt_expand` | A mark as the last byte makes the code read behind the string: UB. What is done with each resulting word (glob or debunk) is left to the caller. The marking of braces (eval.c:662-670) is `emit` of `Trim_model.v`. |
| `Print_*` | c_ksh.c:204-403 c_print (echo and print): options, operands, escapes, the buffer, the write loop with the kernel as an oracle | messages, block_pipe/restore_pipe; coprocess and check_fd are parameters |
| `Read_*` | c_sh.c:252-424 c_read: reading a line, splitting it, the variables, the history text, the status; input and signals as a list of events | options, prompts, shf_flush, coproc_read_close; variables by a parameter |
| `Findcom_*` (C31) | exec.c:742-764 findfunc, 838-934 findcom, 939-953 flushcom; the users of the tracked alias table (cd, PATH assignment/unset, alias -t, unalias -t) | the file system is a parameter depending on the current directory; errno values, string memory, and the loading of an autoloaded function are not modelled |
| Redir | exec.c iosetup, herein, descriptors of execute (redirections, TPIPE); io.c ksh_dup2, savefd, restfd, openpipe, check_fd, coproc_*_close, maketemp; main.c quitenv, include; eval.c comsub; c_sh.c c_exec; shf.c shf_open | C30 | descriptor table with lowest-free allocation; success of open/fork and the files come from an oracle; only the parent is followed after fork; dup2/close of open descriptors do not fail (no EINTR); buffers not modelled; the command tree is the tree of executed commands |
| Trap | trap.c inittraps, trapsig, intrcheck, fatal_trap_check, trap_pending, runtraps, runtrap, cleartraps, restoresigs, settrap, block_pipe, restore_pipe, setsig, setexecsig; signals of a child (jobs.c exchild), of exec (exec.c), the traps in unwind (main.c) | C45 | the kernel's dispositions are a table; sigaction fails only for KILL, STOP, 32, 33; what the commands of an action do is a list of operations (trap, signal, status, return, error, exit, a frame); job control signals, SIGWINCH, SIGALRM/TMOUT not modelled; [cut] and [log] are ghost fields |
| `Expand_*` | C32, C33 | expand() eval.c:156-731 as a step machine over the encoded word: all cases of the type switch, substitutions, the XSUB/XARG/XCOM sources, field splitting states, the output of characters with MAGIC; varsub 736-879. Oracles: variables, parameters, arithmetic, command output, tilde lookup. The second pass (alt_expand, glob) is cut off at `second`. |
| `Tput_*` | C22 | tputC and tputS tree.c:244-334 on the memory of a word; shf_putchar (a byte 0xFF is lost). Reading again is Lex_model, meaning is Expand_model; `Tput_spec.ok` lists the words that survive, `Tput_spec.same` when two words mean the same (proved to expand alike in `Tput_expand`). ptree (the commands around the words) is not modelled. |
| `Pathglob_*` (C58) | eval.c:982-1145 glob, glob_str, globit | The file system is a record of answers that does not change during one expansion; interrupts are not modelled; qsort(3) is insertion sort (the result of sorting distinct strings is unique); the path buffer is the XString model, stores outside are a distinct outcome. |
| C59 | `Vi_model`, `Vi_spec`, `Vi_proof`, `Vi_inv`, `Vi_step`, `Vi_props` | vi.c:96-129, 142-256 (the loop, not the terminal), 258-1524, 1529-1735, 2024-2181 (given the answer of x_cf_glob), 2209-2221, 2262-2266; edit.c:247-286; the screen (display, ed_mov_opt, refresh) is not modelled |
| C60 | `Vi_model`, `Vi_frame`, `Vi_keep`, `Viline_spec`, `Viline_proof`, `Viline_props` | vi.c:258-300, 537-691 in insert mode; the same model as C59, also for the bytes of UTF-8 characters |
| C61 | `Vi_model`, `Vi_frame`, `Vi_keep`, `Viundo_spec`, `Viundo_proof`, `Viundo_props` | vi.c:258-1524 as in C59; commands read from a macro, `.`, `@` and searches are not the command that is undone |
| C62 | `Cd_model`, `Cd_spec`, `Cd_proof`, `Cd_step`, `Cd_inst`, `Cd_props` | path.c:37-110, 180-272; c_ksh.c:16-202; main.c:290-312. The kernel is a record of answers; `Cd_spec.honest_kernel` says which are true for a tree of directories with symbolic links (bind mounts, hard linked or moved directories, and changes to the tree between commands are left out). Options, messages, and memory are not modelled |
| C63, C64, C65 | `Emacs_model`, `Emacs_spec`, `Emacs_proof`, `Emacs_kill`, `Emacs_pop`, `Emacs_keys`, `Emacs_props` | emacs.c (all commands, the key loop, input with put-back and macros, the kill ring, bindings); edit.c:247-286, 795-812, 943-971. Left out: everything that draws (x_displen, x_adj, x_zots...), signals, bind's listing, x_cf_glob (an oracle). `char` is signed, as on the usual platforms |
| C66 | `Emacs_model`, `Emcmd_spec`, `Emcmd_proof`, `Emcmd_props` | the same model: words, case, history, character and history searches, comments, history words | the history search is stated for a pattern typed on a new line and ended with ESC, when some line matches; words are bytes (a letter outside ASCII is part of a word) |
| C67, C68 | `Mail_model`, `Mail_spec`, `Mail_proof`, `Mail_props` | mail.c whole, setspec/unsetspec of MAIL, MAILPATH, MAILCHECK | the evaluation of messages is an oracle that says whether MAILPATH is assigned; stat is an oracle; allocations are numbers, a free of anything else is UB |
| C69 | `Ulimit_kernel`, `Ulimit_model`, `Ulimit_spec`, `Ulimit_proof`, `Ulimit_props` | c_ulimit.c whole, on top of the model of ksh_getopt | the evaluation of expressions and setrlimit are oracles, getrlimit succeeds; RLIM_INFINITY is 2^64-1 (Linux) |
| C70 | `Tilde_model`, `Tilde_spec`, `Tilde_proof`, `Tilde_props` | eval.c:1217-1258 tilde, homedir; maybe_expand_tilde and the tracking of tilde_ok and saw_eq in expand() (in `Expand_model`) | words of literal and quoted characters; getpwnam is an oracle; a variable with the integer attribute is represented by its text |
| C71, C72 | `Special_model`, `Special_spec`, `Special_proof`, `Special_follow`, `Special_flush`, `Special_time`, `Special_props` | var.c:911-1150 special, unspecial, getspec, setspec, unsetspec; global, local, setstr, setint, typeset, unset, popblock as far as they concern special variables | no arrays, no attributes but integer and readonly, base 10; v_evaluate and rand() are oracles without side effects; the functions called with the values (set_editmode, mbset, mpset, sethistfile, sethistcontrol, sethistsize, setupterm, flushcom) are represented by the value last passed; popblock goes through the block in the order of the list instead of that of the hash table; nothing imported from the environment |
| C73 | `Complete_model`, `Complete_spec`, `Complete_proof`, `Complete_props` | edit.c:584-855 x_locate_word, x_try_array, x_cf_glob, add_glob, x_longest_prefix, x_basename; 938-971 x_escape and emacs.c:1731-1782 do_complete (in `Emacs_model`) | the names of commands and files (x_command_glob, x_file_glob) and the arrays are oracles; vi's complete_word and x_print_expansions are not modelled |
| C74 | `Prompt_model`, `Prompt_spec`, `Prompt_proof`, `Prompt_props` | lex.c:1166-1175 special_prompt_expand, 1211-1513 dopprompt, pprompt, promptlen | time, host, terminal, user, version, numbers are given; texts fit the buffers of 1024 bytes; the substitution in set_prompt is not modelled; a read beyond the prompt or of an unwritten buffer is the result None |
| C75 | `Kill_model`, `Kill_spec`, `Kill_proof`, `Kill_props` | posix_signals.h:41-124, trap.c:24-44 (names), 92-119 gettrap, c_ksh.c:1124-1255 kill_fmt_entry, c_kill, jobs.c:669-703 j_kill, 1649-1660 kill_job, c_sh.c:475-516 c_trap | signal numbers of Linux on x86; the answers of kill(2) and the job list are oracles on the calls made before; messages of strsignal are given (glibc reuses its buffer for signals without a message: not modelled); settrap is the list of its calls (its effect is C45) |
| C76 | `Select_model`, `Select_spec`, `Select_proof`, `Select_props` | exec.c:275-318 (TSELECT), 1250-1343 do_selectargs, select_fmt_entry, pr_menu, with c_read of C42 and print_columns of C48 | variables are a state with functions for reading and assigning; the list of commands is an oracle that may change the variables and use up input; its output is left out; expansion of the words is not part; fewer than 2^31-1 words |
| `Whence_*` (C77) | c_ksh.c: c_whence (also c_type, c_command) after the options | ksh_getopt (see Opt), the tables of keywords and aliases and the attributes of functions are parameters; findcom is that of Findcom_model; the default branch of the switch (*GOK*) is not reachable in the model because no other entry type exists |
| `Aliascmd_*` (C78) | c_ksh.c: c_alias, c_unalias after the options; blocks of APERM as a heap with use after free and double free as undefined behaviour | ksh_getopt (see Opt); the tables are lists with each name once (C15); ktsort sorts names by insertion; the search of tracked aliases is a parameter; other writers of the tables (findcom, flushcom, homedir) are not among the histories |
| `Times_*` (C79) | c_sh.c: p_tv, p_ts, c_times, timex; sys/time.h timeradd, timersub, timespecsub | the clocks and j_usrtime are parameters; execute() of the command is not modelled; output is the printf of Printf_model |
| `Timehook_*` (C79) | c_sh.c: timex_hook | errorf is an outcome with its text; afree is the list of words freed |

## Findings

Each is a theorem `..._refuted` or an `Example` with a concrete witness.

* `getint` accepts a minus sign anywhere, reduces the base modulo 2^32; printing INT64_MIN is undefined.
* `getn` rejects INT_MAX and INT_MIN.
* Patterns: a quoted `[:` or `^G` inside brackets is misread; `[:blank:]` and `[` after a class.
* Tables: a deleted and re-entered name keeps its stale value; `7*nsize` overflows beyond 2^28 slots.
* `shf_vfprintf`: integer precisions deviate from ISO C in several combinations.
* Arithmetic: skipped operands of `&&`, `||`, `?:` may assign; postfix `++`/`--` work in 32 bits;
  `++` without an operand uses the variable before it; signed overflow is undefined.
* `test`: several three- and four-argument forms give status 2.
* `set -e`: `false && true || false` at the end of a loop body or left operand does not exit; `eval` too.
* Jobs: if `fork()` fails while a pipeline is being built, a SIGCHLD held back for it is lost
  (a following `wait` can hang).  If `pipe()` fails after the first process, the job stays
  unstarted and, once another job has been created, every later SIGCHLD is held back for ever;
  a numeric job name then reads an uninitialised pointer.  A pid reused by the kernel while the
  old process is still listed sends the status to the wrong job.
* History: when `reallocarray` fails while HISTSIZE shrinks, the vector keeps freed strings.  `fc -s str`
  as the only command finds itself.  A command with several lines is saved up to its *last* newline.
* `shift 4294967297` shifts by one.  `umask u` (classes without an operator) reads past the end of
  its argument; `umask 40000000022` is taken for `022`.
shf_putchar (shf.c:571) takes the character EOF for "nothing to do": a byte 0xFF passed as a signed char is dropped when the buffer is full and no error is recorded; shf_vfprintf (shf.c:964-1001) and tree.c pass plain chars (c39_byte_ff_refuted).
shf_write (shf.c:641-672) on a growing string doubles the buffer only once: a longer text is stored outside the buffer or lost (c50_write_overflow_refuted, c50_write_lost_refuted, c50_putc_after_refuted).
shf_getse loses the part of a line already read when a later read fails.
wdstrip (tree.c:566-581) does not skip the null byte ending $() and $(()): the rest of the word is lost (c56_strip_comsub_refuted); it drops bytes 0xFF (c56_strip_ff_refuted), so a function whose name has such a byte is defined under another name.
- Lexer (by reading, not proved): an unterminated double quote in a here-document delimiter is not reported (SHEREDQUOTE replaces the state instead of being pushed, lex.c:654-703); words of 64 characters or more are never keywords or aliases (lex.c:818-824, IDENT).
- Aliases (C51, `c51_*_refuted`): expansion never ends (a) for `alias a=a` and the word `a` at the end of an input without a final newline, for instance `$(a)`: getsc__ drops the alias from the stack when it meets the end of input (lex.c:1040-1046), so the test for recursion does not see it; (b) for an alias that ends in a space character that does not end a word (VT, FF, CR); (c) for an alias that ends in backslash-newline; (d) for an alias named `x[`, because the text pushed back after an unmatched bracket hides the alias. By reading: `alias a=x[;a` gives an endless stream of commands for the same reason. Apart from these cases expansion ends (`c51_terminates_partial`); a value that ends in a lone backslash is excluded too, but is not refuted.
- Here documents (C25, `c25_newline_refuted`): a delimiter that contains a newline is matched across lines although no line equals it.
- Listings (C21): a value that is `~` or contains braces is printed unquoted, the empty value is printed as nothing; neither reads back as the value.
- `time case $x in ...`: syn.c:366-367 copies the *encoded* word of the case with str_save, which stops at the null byte inside `OSUBST`; executing or printing it then reads beyond the allocation (c27_timed_case_refuted).
- Variables (C57): `x=abc; typeset -i x=1+` reports the bad expression and leaves x an integer whose value is the address of "abc" (c57_failed_integer_refuted); the same for an error that unwinds while a value is converted (c57_unwound_integer_refuted); `x=x; typeset -i x` evaluates x while it is already an integer holding a pointer, so x becomes an address instead of a recursion error (c57_self_reference_refuted).
- Read-only variables (C11): x_sigwinch changes a read-only integer COLUMNS/LINES and marks a read-only unset one as set with no value; getopts removes the attribute from OPTARG; makenv removes it from exported integers; `typeset -ir a` that fails in element 0 leaves the other elements writable (c11_*_refuted).
- Locals (C14): unset of a local makes the next assignments go to the outer variable (c14_unset_local_leaks_refuted); an inner definition that is unset or not exported does not hide an outer exported one from commands (c14_hidden_value_exported_refuted). By reading: `typeset x-y=5` silently creates a variable named "x-y=5".
- **Option letters outside ASCII** (C19): `ksh_getopt` returns a signed char: `getopts é x` with `-é` reports the end of the options; byte 0xFF even ends the loop of a builtin (`c19_getopts_8bit_refuted`, `c19_byte255_refuted`).
- **getopts after --** (C19): the end announced by `--` is not remembered; the next `getopts` parses the operands as options (`c19_getopts_past_end_refuted`).
- **set -o posix twice** (C20): an option that has the value already is left alone, so brace expansion stays on in a posix shell (`c20_posix_again_refuted`); for the same reason, and because braceexpand is printed before posix, the output of `set +o` does not restore posix with braceexpand (`c20_restore_posix_refuted`).
- C34: a group inside a group without a comma (`{a{b,c}}`) and everything behind a brace without a partner (`a{{b,c}`) is not expanded (`c34_inner_group_refuted`; the second is commented as intended in eval.c:1291-1293).
- `print` and `echo` write a space between arguments without making room for it (c_ksh.c:351-352): Xcheck is only done for bytes of arguments. More than 136 empty arguments write behind the heap buffer (`c41_overflow_refuted`).
- `read`: white space at the end of the line is stripped even when quoted (`c42_quoted_tail_refuted`); with IFS=' :' the line `a : b` gives three fields (`c42_space_before_separator_refuted`); `read -s` at end of file puts the byte 255 into the history (`c42_history_eof_refuted`).
- C31: flushcom(0) at cd drops only tracked aliases with relative paths; with PATH=bin:/bin a tracked /bin/ls stays in force in a directory that has bin/ls (`c31_cd_stale_refuted`). FPATH set to the empty string is searched (as the current directory), unset is not.
**C30** Restoring a descriptor by dup2() clears FD_CLOEXEC: `exec 3>x; : 3>y` makes fd 3 visible to programs (c30_cloexec_lost_refuted). With no descriptor left in savefd the opened file leaks (c30_emfile_leak_refuted). A failing fork() in $(...) leaves the shell's standard output on the pipe, because comsub's ofd1 is not in savefd (c30_fork_comsub_refuted), and in a pipeline leaves the pipe open (c30_fork_pipe_leak_refuted). savefd is an array of short (c30_short_refuted). `{ ulimit -n 3; } 5>x` loses fd 5 (c30_ulimit_refuted). Read, not modelled: jobs.c:1289 uses savefd[2] which may be -1; iosetup's `if (u == 2)` probably means unit; the temporary file of a here-document is not close-on-exec while its command substitutions run.
- `trap x INT; cmd &` (not interactive): the child ignores INT and QUIT and then cleartraps() puts back the shell's own handler, so the program starts with INT default (c45_background_trap_refuted).
- `trap '' INT; exec prog` (or the last command of a pipeline) starts prog with INT default: comexec() calls setexecsig(SS_RESTORE_ORIG) (c45_exec_ignore_refuted).
- Traps: SIGCHLD ignored on entry can be trapped (c45_chld_ignored_refuted); an action left by return leaves the other pending traps waiting for another signal (c45_delayed_refuted); `set -e; trap x ERR; false` runs x twice (c45_err_twice_refuted); an ERR action that returns removes the trap (c45_err_trap_lost_refuted); return in an EXIT action cancels an exit inside a function (c45_exit_cancelled_refuted); a subshell of an interactive shell catches a trapped signal that was ignored on entry, with no action (c45_talking_child_refuted); after a failing execve() INT is default in the shell (c45_failed_exec_refuted); `trap x KILL` reads an uninitialised struct sigaction (c45_kill_uninitialised_refuted); SIGHUP ends the shell without the EXIT trap (c45_hup_skips_exit_refuted). Read, not modelled: c_eval() leaves errexit off when its command unwinds (`eval return`).
- C32: with IFS=: and x=a: y=b, `$x$y` gives an empty field between a and b; `a$x` with x=:b too (the XSUB hack, eval.c expand).
- C32: a value of non-white separators only gives one field less than POSIX asks for (":" none); `$(echo :b)` loses the leading empty field that `$x` keeps.
- C32: `a${x#q}` with x="q b" gives the single word "ab": the separator at the start of a trimmed (or assigned, `${x=$y}`) value is dropped and the texts are joined.
- C32: `""$@` without parameters and `""${x-}` with x unset give no field at all.
- C33: `"$@$x"` without parameters and empty x gives no field, `"$x$@"` one.
- C33: with an empty IFS, x="$@" and x=$* assign only the first parameter (evalstr takes the first word).
- C33: `${@:+w}` with an empty first of several parameters expands to the parameters instead of nothing; `${*:-w}` tests only the first one.
- C32: `st->base` is a short: more than 32767 bytes of text before `${x#...}` or `${x=...}` in one word is out of its range (undefined in the model); with an empty IFS `${x#$*}` emits a word in the pattern so that base points behind the new buffer.
- C32: `set -- ""; ${*:?msg}` dereferences the null st->var.
- C32: unquoted `$((...))` is never split at IFS.
- C22: `typeset -f` prints '\$x' as "\\$x" (expands to \ and the value of x) and '\' as "\", an unclosed quote: tputS does not escape a backslash within quotes (tree.c:283-287).
- C22: control characters are printed as ^J, ^I, ...: a newline or tab within quotes or $(...) -- any command of several lines -- comes back as other text; bytes 0x80-0x9F and 0xFF come back as $@ ... $?, parameter expansions.
- C22: a command substitution in backquotes is printed as $(...): `` `(a)` `` becomes $((a)), arithmetic; an unmatched ) of a case pattern ends it early; `` $`a` `` becomes $$(a), a syntax error.
- C22: "${x%\*}" is printed without the backslash (the * is then a pattern), "${x-\}}" too (the } then closes); ${x#(a|b)} is printed as ${x# (a|b)}, with the internal blank of the pattern code.
- C58: with markdirs every name found by a pattern is looked up with lstat, so in a directory that may be read but not searched `*` matches nothing, while it matches without markdirs (`c58_markdirs_refuted`).
vi.c: `a` on the last character uses forw_ on the bytes after the line; stale UTF-8 continuation bytes there put the cursor after the end, and the next insert calls memmove with a negative size (c59_a_stale_refuted, c59_a_old_line_refuted).
vi.c: the kill and word-erase characters in replace mode move the cursor before undo->cursor, where erase stops; the next erase goes on to cbuf[-1] (c59_replace_kill_refuted).
vi.c: `cw` on an empty line reads cbuf[-1] (c59_cw_empty_refuted); a line that starts with a UTF-8 continuation byte makes backward motions read cbuf[-1] (c59_continuation_first_refuted).
vi.c: srchlen is not reset when a search line is given up by an interrupt; erasing in the next search line goes below cbuf (c59_search_interrupt_refuted). A count before `/` skips the set-up of the search line, which is then written after the line, even past the buffer (c59_count_search_refuted).
vi.c: ^V NUL removes the character from the line but not from ibuf: 4097 of them overflow ibuf (c59_literal_nul_refuted); counts overflow int (c59_count_overflow_refuted).
vi.c:309-322 with vi.c:88: a character typed after ^V is looked up in classify after masking with 0x7f, so that the byte 0x80 is dropped as if it were NUL (C60 leaves it out).
- main.c:299-306 checks with stat(2) that PWD names the current directory, and simplifies it afterwards (`simplify_path` takes `x/..` away even if `x` is a symbolic link): with `PWD=/b/l/..`, `l` a link to `/a/c`, a shell started in `/a` believes to be in `/b` (`c62_startup_refuted`).
- c_ksh.c:146-156: when the current directory is not known and the argument is relative, PWD is left as it was and names another directory (`c62_stale_pwd_refuted`).
- `cd none/..` succeeds although `none` does not exist (`ex_nowhere`); with a CDPATH that has no empty entry the current directory is not tried (`ex_not_here`; POSIX tries it last).
emacs.c: the mark is not reset when a history line is loaded or by the comment command, so exchange-point-and-mark and kill-region can go beyond the line (c63_stale_mark_refuted).
emacs.c x_meta_yank: after a yank that did not fit it moves back over other text, or before the buffer (c63_lost_yank_refuted).
emacs.c x_prev_histword reads history[-1] without history and before the line for an empty entry (c63_histword_refuted); the blanks at the end of the line are inserted too.
emacs.c x_search, x_search_hist: the hit is an index into the whole history line, but the loaded line is cut to the buffer (c63_long_history_refuted).
emacs.c x_set_arg: the argument overflows an int (c63_number_refuted).
emacs.c kb_encode, kb_decode and line[] of x_emacs are written without a check of their size.
emacs.c x_e_getc: a macro byte 0x80-0xFF is negative as a signed char: 0xFF is taken for the end of input; x_search_char_back never finds such bytes.
emacs.c: macro_args still points to the text of a macro whose binding is deleted while it is read.
emacs.c x_transpose exchanges single bytes of UTF-8 characters (c64_transpose_utf8_refuted); counts of the moving and deleting commands are counts of bytes.
emacs.c x_bind: binding a longer sequence makes the shorter one unreachable (c65_longer_refuted); a refused binding is reported as success (c65_prefix_refuted); a literal ^ before a letter is shown as the control character (c65_shown_refuted).
`MAILPATH=:/m/a` (a value whose first entry has no file, followed by one that has): the next assignment or unset of MAILPATH frees an address in the middle of an allocation (mail.c:166-167 frees the path of the last mailbox, which is not the start of the saved string). `c67_freed_wrong`, `c67_freed_refuted`.
An empty MAILPATH is saved and never freed: `c67_kept_refuted`.
A MAILPATH message that assigns MAILPATH, such as `$((MAILPATH=0))`, frees the list mcheck is walking through, and mcheck then writes mb_mtime of the freed mailbox (mail.c:80-82): `c68_message_refuted`.
Mail delivered in the same second as an earlier seen change is never announced (only st_mtime is compared): `c68_same_second_refuted`.
`ulimit -f 36028797018963968` sets the limit to 0 bytes and `ulimit -n 0-1` to unlimited (c_ulimit.c:157 multiplies modulo 2^64): `c69_wraps_refuted`, `c69_negative_refuted`. The branch of c_ulimit.c:122-125 that sets the file size from an operand cannot be reached (82-85 refuse every operand).
- **C70** eval.c:1199-1200: maybe_expand_tilde puts MAGIC before a byte \007 of the directory but does not set DOMAGIC_ in fdo, so nothing removes it: with \007 in HOME a word ~ gives two of them (`c70_magic_refuted`).  eval.c:700-701: with HOME empty a word ~ of a command disappears altogether (`c70_empty_refuted`).
- **C71** var.c:264-304: local() does not tell the shell about the new, unset variable: after typeset PATH in a function $PATH is unset, but commands are still found along the old path (`c71_local_refuted`).  var.c:1106-1109: unset of a local PATH makes the default path the search path, although the outer PATH is visible again (`c71_unset_refuted`).  var.c:82-101: popblock stops at the first setspec that fails, e.g. for an outer HISTSIZE that is no number; special variables after it in the table keep the settings of the function, and the block is not freed (`c71_end_refuted`).
- **C72** var.c:975-1097: setspec clears SPECIAL before intval() and sets it after; intval() unwinds if the value is no number.  LINENO=abc, HISTSIZE=abc thus make the variable an ordinary one for good (`c72_wrong_number_refuted`).  var.c:1133-1148 called from popblock (94-95): after RANDOM=1 before a command, RANDOM having never been read, unsetspec removes it from the special variables and $RANDOM is empty from then on (`c72_random_local_refuted`).
- **C73** edit.c:606-613: x_locate_word goes back over a separator if a backslash is before it without asking whether that one is quoted itself: with `\\\\ x` and the cursor at the end, the word found is the two backslashes and ends before the cursor (`c73_locate_refuted`).  edit.c:944-971: x_escape writes a newline as backslash-newline, which the shell removes (`c73_newline_refuted`), and does not quote a leading tilde (`c73_tilde_refuted`); it does not look whether the backslash and the character could be inserted, so in a nearly full line the backslash is left alone and success reported (`c73_full_refuted`).  emacs.c:1760: nlen (of the names) is compared with olen (of the word as written, with backslashes), so a longer common text is not inserted (`c73_quoted_refuted`).  emacs.c:1768: with one empty element in complete_NAME, words[0][-1] is read (`c73_empty_refuted`).  edit.c:833: the comment says 2 for `///`, x_basename gives 1 (`c73_slashes_refuted`).
- **C74** lex.c:1262: for \D at the very end of the prompt strchr(cp + 2, '}') starts behind the terminating NUL (`c74_date_refuted`).  lex.c:1298-1304: \l without a terminal leaves strbuf as it was, at first uninitialised (`c74_tty_refuted`).  lex.c:1229-1234, 1305-1320: a newline, a return or a tab sets totlen, and is then counted itself, so the prompt is taken for one column wider (`c74_newline_refuted`).  lex.c:1449-1464 cuts off texts of escapes between \[ and \], 1488 does not cut off bytes there: the escape character is lost and the rest of the sequence printed (`c74_cut_refuted`).  lex.c:1166-1175 replaces \$ without reading backslashes in pairs (`c74_dollar_refuted`).
- **kill, trap (C75).** The names IOT, POLL and CLD of posix_signals.h are never accepted, since inittraps keeps the first name of each number. `%?text` says "ambiguous" when two processes of one job contain the text. `%-x`, `%+x` and `%%x` are taken for `%-`, `%+` and `%%`. `trap` lists an ignored signal as `trap --  INT`, which resets it when read back. A trap on a signal without a name (34 and up) is listed with the name `(null %s)`.
- C76: select sets the variable to the empty string for an answer that is not valid, where the manual says it is unset (`c76_unset_refuted`); a line of IFS characters that are not white space is an answer, where the manual says the menu is printed again (`c76_separators_refuted`); a last line without newline changes REPLY but is not taken for an answer (`c76_last_line_refuted`).
- **C77**: `whence` and `command -v` without the long form stop at the first name that means nothing (`while (vflag || ret == 0)`), so names after it are not printed although the manual says "for each name" (c77_each_refuted). A function that is not exported and not defined yet is called "is a undefined function".
- **C78**: `alias -x nope` enters a name without value, and `unalias nope` then succeeds (c78_status_refuted). `alias -t ls=x` ignores the value, as documented, but also does not look ls up (c78_tracked_refuted). Names are printed unquoted, so the line of the alias `a b` cannot be read back (c78_name_refuted).

## Plan per property

| id | modelled | how proved |
|----|----------|------------|
| C01 | `do_gmatch`, `cclass`, `pat_scan`, `posix_cclass` on byte strings | equivalence with an inductive language of pattern trees (encode tree -> bytes) |
| C02 | `trimsub` loops over an abstract matcher | shortest/longest characterisation |
| C03 | `simplify_path` with the read and write cursors | component-list normal form; idempotence; length |
| C04 | `make_path` with the CDPATH cursor | iteration = map over split components |
| C05 | `search` | first-match characterisation over any file system oracle |
| C06 | `u64ton`, `str_val`, `getint` | digit round trip by induction on value; buffer bound |
| C07 | `token`, `evalexpr` | printed expression trees evaluate to the tree's denotation |
| C08 | division cases of `evalexpr` | case analysis, UB outcome excluded |
| C09 | `noassign` handling | refuted for bare operands by a witness; proved for the guarded forms |
| C10 | `do_ppmm` with its 32-bit temporary | refuted beyond 32 bits, proved within |
| C11 | variable operations on a store | invariant over all operation sequences |
| C12 | `arraysearch` linked list | refinement to a finite map, sortedness invariant |
| C13 | `formatstr` | length and content characterisation |
| C14 | block stack, `global`, `local`, `makenv` | refinement to a stack of maps |
| C15 | open-addressed `table` | invariant + refinement to a set/map, any hash |
| C16 | area lists | invariant over operation traces |
| C17 | `c_test` argument-count special cases | decision table, refuted cases as witnesses |
| C18 | recursive-descent parser of `test` | agreement with grammar of printed expressions; status range |
| C19 | `ksh_getopt` state machine | agreement with a one-pass specification |
| C20 | `change_flag` | invariant over all change sequences |
| C21 | `print_value_quoted` + lexer word reader | round trip, refuted for `~` and empty |
| C22 | `tputS` + lexer word reader | round trip on a sublanguage, refuted in general |
| C23 | `wdscan`, `wdcopy`, `wdstrip` | well-formed encodings are scanned exactly |
| C24 | the SBASE/SSQUOTE/SDQUOTE part of `yylex` | every text round trips |
| C25 | `readhere` | agreement with a line-based specification |
| C26 | `getsc_bn` | stream equality |
| C27 | `pipeline`, `andor`, `c_list` | parse of printed tree shapes |
| C28 | `execute` with `xerrok` | agreement with big-step semantics; errexit deviations as witnesses |
| C29 | `c_brkcont`, loop environments | agreement with the direct definition |
| C30 | descriptor table, `iosetup`, `savefd`, `restfd`, `quitenv` | restore theorem for any redirection list |
| C31 | `findcom` | decision table for any tables |
| C32 | word-state machine of `expand` | agreement with a declarative splitting |
| C33 | `$@`/`$*` part of `expand` | direct |
| C34 | `alt_expand` | agreement with a brace tree semantics |
| C35 | `debunk`, quoting with MAGIC | round trip |
| C36 | `check_job`, `j_waitj` status | direct, order independence |
| C37 | `new_job`, `put_job`, `remove_job` | invariant over histories |
| C38 | `j_sigchld` with held signals | invariant over schedules |
| C39 | `shf_write`, `shf_putchar`, `shf_emptybuf` with write oracle | stream invariant |
| C40 | `shf_getse`, `shf_fillbuf`, ... with read oracle | stream invariant |
| C41 | `c_print` | verbatim theorem, escape decoding spec, write loop |
| C42 | `c_read` | agreement with a splitting specification |
| C43 | `shf_vfprintf` integer conversions | digits, width, buffer bound |
| C44 | history array | refinement to a bounded list |
| C45 | trap table | invariant over operation sequences |
| C46 | `c_shift` with the int truncation | proved in range, refuted beyond |
| C47 | `c_umask` | round trip; out-of-bounds read witness |
| C48 | `print_columns` index arithmetic | bijection |
| C49 | XString | invariant over append sequences |
| C50 | string shf | invariant, overflow witness if reachable |
| C51 | alias stack of the lexer | a potential of the stack of sources: each character weighs less the more aliases are in use (`Alias_pot`), shown to fall in each expansion by a weakest precondition for reading programs (`Alias_wp`) |
| C52 | `hist_replace` | agreement with leftmost replacement |
| C53 | `strip_nuls` | equals filter |
| C54 | `getn` | exact acceptance |
| C55 | `hist_get`, `findhist` | most recent match; refuted for a one-entry history |
| C57 | typed invariant with exceptions for the variable under conversion | invariant over command sequences; refuted for failing conversions |
| C19, C20 | `Opt_props.v`: event semantics `scan` of argument vectors, simulation of ksh_getopt; `obeys`/`switched` semantics of options; invariants over histories |
| C34 | `Brace_props.v`: relation `expands` on symbols, shown total and deterministic; simulation of alt_expand; `c34_typed` joins it with the marking of expand() |
| C58 | pathname expansion | refinement of the buffer to lists, induction over components; language of components from C01 |
| C73 | completion | words as lists of quoted pieces (those of C24), induction over the pieces for finding and writing the word |
| C74 | prompt | pieces as an inductive grammar; every piece acts on the state (`parsed`), induction over the pieces for output, width and what is cut off |
| C77 | whence | meaning of a name as a relation over right_entry (C31); texts as relations; both lists by induction over the names with the tracked aliases as invariant |
| C78 | alias, unalias | ownership invariant between table and heap (`wf`), abstraction of a state to a map, commands as relations on maps |
| C79 | times, time | durations in nanoseconds; numerals by denotation (C06), formats by C43 |
