{
 "claims": [
  {
   "property": "C01",
   "status": "partial",
   "theorems": [
    "c01_gmatch_decides_language",
    "c01_literal_pattern",
    "c01_bracket_after_class_refuted",
    "c01_blank_class_refuted"
   ],
   "note": "Proved for every well-formed pattern tree; an unquoted [ following a class in a bracket and [:blank:] are refuted by witnesses (not well-formed in the sense of ok_bracket)."
  },
  {
   "property": "C02",
   "status": "proved",
   "theorems": [
    "c02_trim",
    "c02_trim_any_pattern"
   ],
   "note": ""
  },
  {
   "property": "C03",
   "status": "proved",
   "theorems": [
    "c03_simplify_path",
    "c03_empty_path",
    "c03_idempotent",
    "c03_normal_unchanged"
   ],
   "note": ""
  },
  {
   "property": "C04",
   "status": "proved",
   "theorems": [
    "c04_cdpath_candidates",
    "c04_phys_part",
    "c04_absolute_target",
    "c04_relative_target"
   ],
   "note": ""
  },
  {
   "property": "C05",
   "status": "proved",
   "theorems": [
    "c05_search_first_match",
    "c05_slash_not_searched"
   ],
   "note": ""
  },
  {
   "property": "C06",
   "status": "partial",
   "theorems": [
    "c06_print_parse_round_trip",
    "c06_text_shape",
    "c06_most_negative_refuted",
    "c06_numerals_read_exactly",
    "c06_numeral_overflow_is_undefined",
    "c06_only_loose_numerals_accepted",
    "c06_only_numerals_refuted",
    "c06_u64ton_within_buffer",
    "c06_u64ton_beyond_buffer"
   ],
   "note": "Round trip proved for every value except INT64_MIN (undefined behaviour there, refuted); exact acceptance characterised, it is wider than the documented numerals (refuted)."
  },
  {
   "property": "C07",
   "status": "partial",
   "theorems": [
    "c07_arithmetic_partial",
    "c07_every_tree",
    "c07_spelling",
    "c07_plain_variables"
   ],
   "note": "Proved for every well-formed tree and every spacing, including variables whose text is again an expression; left out are signed overflow (undefined), skipped operands that are not skippable (C09), postfix operators on values outside 32 bits (C10), storing INT64_MIN in a string variable, and array references. Every tree is shown to have a well-formed spelling with the same meaning."
  },
  {
   "property": "C08",
   "status": "proved",
   "theorems": [
    "c08_quotient_remainder",
    "c08_division",
    "c08_division_assign"
   ],
   "note": "Operands are 64-bit; for /= and %= the theorem covers the zero and INT64_MIN/-1 cases, other operands are under C07."
  },
  {
   "property": "C09",
   "status": "partial",
   "theorems": [
    "c09_and_partial",
    "c09_or_partial",
    "c09_cond_true_partial",
    "c09_cond_false_partial",
    "c09_skippable",
    "c09_no_side_effects_refuted"
   ],
   "note": "Holds for skippable operands (in parentheses, or not assigning, no overflow while skipping). Refuted by witness otherwise: 0 && x++, 1 || x++, 0 ? x=6 : 2, 1 ? 2 : x++ all change x."
  },
  {
   "property": "C10",
   "status": "partial",
   "theorems": [
    "c10_prefix",
    "c10_postfix_partial",
    "c10_stored",
    "c10_postfix_refuted",
    "c10_stale_operand_refuted"
   ],
   "note": "Prefix forms proved for all 64-bit values; postfix for 32-bit old values, refuted beyond (x++ at 2^31 yields -2^31). Also refuted: ++ with no operand increments the variable before it."
  },
  {
   "property": "C11",
   "status": "proved",
   "theorems": [
    "c11_readonly_stays",
    "c11_writes_fail",
    "c11_winch_changes_integer_refuted",
    "c11_winch_sets_unset_refuted",
    "c11_getopts_unlocks_OPTARG_refuted",
    "c11_makenv_unlocks_integer_refuted",
    "c11_half_readonly_refuted"
   ],
   "note": "Value and attribute kept through every sequence of assignments, typeset/export/readonly/local, read, unset, arithmetic, set -A, calls and returns, failing or not; attempts on the denoted variable never succeed. Outside those commands it is false: window-size changes, getopts (OPTARG) and makenv (exported integers) change or unlock read-only variables, and a readonly that fails half way leaves elements writable (c11_*_refuted). Special variables are not modelled."
  },
  {
   "property": "C12",
   "status": "proved",
   "theorems": [
    "c12_array_is_map",
    "c12_read_element",
    "c12_elements_in_order",
    "c12_start",
    "c12_chains_sorted"
   ],
   "note": "For plain string arrays of the outermost block; subscripts are any expressions that evaluate to 0..INT_MAX without side effects. c12_chains_sorted holds for all commands and all variables."
  },
  {
   "property": "C13",
   "status": "proved",
   "theorems": [
    "c13_right",
    "c13_left",
    "c13_case",
    "c13_trim_unique"
   ],
   "note": "Values and widths below INT_MAX."
  },
  {
   "property": "C14",
   "status": "partial",
   "theorems": [
    "c14_get_innermost",
    "c14_assign_innermost",
    "c14_local_does_not_leak",
    "c14_unset_local_leaks_refuted",
    "c14_environment",
    "c14_hidden_value_exported_refuted"
   ],
   "note": "Proved: innermost resolution, no leak while the local is not unset, and the environment holds exactly one string per name for the innermost block where the name is set and exported. The stated form (innermost binding) is refuted: an inner local that is unset or not exported lets the outer exported value through, and unset of a local makes assignments reach the outer variable."
  },
  {
   "property": "C15",
   "status": "proved",
   "theorems": [
    "c15_finite_map",
    "c15_listing",
    "c15_growth",
    "c15_fresh_entry_refuted",
    "c15_size_overflow_refuted"
   ],
   "note": "For any hash function and up to 10^8 operations on a table. Two refuted corners: a re-entered deleted name keeps its stale value, and 7*nsize overflows an int for tables beyond 2^28 slots."
  },
  {
   "property": "C16",
   "status": "proved",
   "theorems": [
    "c16_areas",
    "c16_teardown",
    "c16_array_overflow"
   ],
   "note": ""
  },
  {
   "property": "C17",
   "status": "partial",
   "theorems": [
    "c17_posix_partial",
    "c17_parentheses_partial",
    "c17_posix_refuted",
    "c17_parentheses_refuted"
   ],
   "note": "0-4 arguments, negation and primaries: proved for all words except a unary operator followed by a word spelled like a binary operator (-n =), where c17_posix_refuted shows status 2; XSI parentheses proved apart from the clashes named, which fail (c17_parentheses_refuted). -a/-o between three words go through the grammar of C18."
  },
  {
   "property": "C18",
   "status": "proved",
   "theorems": [
    "c18_status",
    "c18_expression",
    "c18_errors",
    "c18_bracket",
    "c18_string_order"
   ],
   "note": "Argument lists of more than four words: status is the truth value of the expression tree, 2 for syntax errors and unusable operands; side effects of integer operands are not modelled."
  },
  {
   "property": "C19",
   "status": "partial",
   "theorems": [
    "c19_scan",
    "c19_unambiguous",
    "c19_byte255_refuted",
    "c19_getopts",
    "c19_getopts_safe",
    "c19_getopts_8bit_refuted",
    "c19_getopts_past_end_refuted"
   ],
   "note": "Proved for ksh_getopt with any option specification without byte 255 and for getopts with ASCII specifications; c19_getopts_safe holds without restriction. Refuted outside: option letters >= 0x80 are negative as signed char, and getopts called again after the end goes on behind --."
  },
  {
   "property": "C20",
   "status": "partial",
   "theorems": [
    "c20_set",
    "c20_last_request",
    "c20_set_keeps",
    "c20_one_editor",
    "c20_editor",
    "c20_change",
    "c20_posix_braces",
    "c20_posix_again_refuted",
    "c20_restore",
    "c20_restore_posix_refuted",
    "c20_dollar_minus",
    "c20_dollar_minus_once"
   ],
   "note": "At most one editing mode: proved for all histories. posix turns brace expansion off when it was off before; set -o posix in a posix shell leaves braceexpand alone (c20_posix_again_refuted)."
  },
  {
   "property": "C21",
   "status": "partial",
   "theorems": [
    "c21_reread_partial",
    "c21_quoted",
    "c21_tilde_refuted",
    "c21_empty_refuted"
   ],
   "note": "Proved for every non-empty value, except one with ~ { or } and nothing that needs quotes; those and the empty value are refuted (C_QUOTE lacks these characters; the empty value prints nothing)."
  },
  {
   "property": "C22",
   "status": "partial",
   "theorems": [
    "c22_reread_partial",
    "c22_meaning_partial",
    "c22_printed",
    "c22_backslash_refuted",
    "c22_quote_refuted",
    "c22_control_refuted",
    "c22_backquotes_refuted",
    "c22_trim_refuted",
    "c22_brace_refuted"
   ],
   "note": "Proved: every word is printed without reading beyond its end; the text of every word in Tput_spec.ok, followed by a blank, an operator or a parenthesis, is read back by yylex as one word that expands in every environment to the same fields with the same effects. Refuted for the words ok excludes (c22_..._refuted): backslashes in quotes, control and high bytes, backquotes around ( or unmatched ), quoted characters in trims within double quotes, } in \"${x-...}\", ${x#(a|b)}. Missing: the printing of the commands around the words (ptree), and words with [ after a name in assignment position."
  },
  {
   "property": "C23",
   "status": "proved",
   "theorems": [
    "c23_scan_word",
    "c23_copy_word",
    "c23_scan_close",
    "c23_scan_alternative",
    "c23_copy_tree",
    "c23_copy_of_copy"
   ],
   "note": "Words as lists of characters, quotes, nested substitutions and patterns; memory after a word is arbitrary. Trees as values: that the copy shares no memory with the original is not stated."
  },
  {
   "property": "C24",
   "status": "proved",
   "theorems": [
    "c24_quoted_word",
    "c24_plain_word"
   ],
   "note": "Words of single-quoted, double-quoted, backslash-escaped and non-special pieces, from any fresh input, after any blanks, followed by any word terminator; a final unquoted @, + or ! directly followed by ( is excluded since it starts a pattern."
  },
  {
   "property": "C25",
   "status": "partial",
   "theorems": [
    "c25_bodies_partial",
    "c25_unclosed_partial",
    "c25_cases",
    "c25_newline_refuted"
   ],
   "note": "Proved for every text and every list of pending documents whose delimiters contain no newline; a delimiter with a newline is refuted."
  },
  {
   "property": "C26",
   "status": "proved",
   "theorems": [
    "c26_joined",
    "c26_raw"
   ],
   "note": "For every sequence of reads and put-backs (a character is put back only after being read)."
  },
  {
   "property": "C27",
   "status": "proved",
   "theorems": [
    "c27_grammar",
    "c27_unambiguous",
    "c27_operators",
    "c27_timed_case_refuted",
    "c27_assignment",
    "c27_variable",
    "c27_function_name"
   ],
   "note": "For every sequence of lexemes the grammar of Syn_spec.v derives (all commands but [[ ]], no aliases). The lexer in the theorem hands out lexemes; on text with the real lexer only examples are run. c27_timed_case_refuted: time before case cuts the case word."
  },
  {
   "property": "C28",
   "status": "partial",
   "theorems": [
    "c28_status",
    "c28_errexit_partial",
    "c28_errexit_refuted",
    "c28_eval_refuted"
   ],
   "note": "Statuses: proved for every tree with errexit off throughout. Errexit: proved for trees without eval and without an && || ! construct ending the left operand of && or || or the body of while, until or select; outside these c28_errexit_refuted and c28_eval_refuted give counterexamples."
  },
  {
   "property": "C29",
   "status": "proved",
   "theorems": [
    "c29_break_continue",
    "c29_function"
   ],
   "note": "eval is a barrier for break and continue (they do not reach loops outside the eval); stated in the semantics."
  },
  {
   "property": "C30",
   "status": "partial",
   "theorems": [
    "c30_redirections",
    "c30_restored",
    "c30_exec",
    "c30_exec_failed",
    "c30_hidden",
    "c30_cloexec_lost_refuted",
    "c30_emfile_leak_refuted",
    "c30_fork_comsub_refuted",
    "c30_fork_pipe_leak_refuted",
    "c30_short_refuted",
    "c30_ulimit_refuted"
   ],
   "note": "Proved for every nesting of commands, redirections and command substitutions while the system does not run out of descriptors or processes, RLIMIT_NOFILE <= 32768 and ulimit -n is not used inside; the close-on-exec flag is not restored and EMFILE / failing fork leak (refutations)."
  },
  {
   "property": "C31",
   "status": "proved",
   "theorems": [
    "c31_findcom",
    "c31_unique",
    "c31_coherent",
    "c31_usable",
    "c31_table",
    "c31_checked",
    "c31_cd_stale_refuted"
   ],
   "note": "findcom and flushcom, all flag combinations; c31_findcom: every lookup from a coherent state gives the right kind of entry, exactly in the order special builtin / function / regular builtin / other builtin / file / autoload; c31_unique: that determines the result; c31_coherent: tracked aliases agree with PATH in every history in which cd happens only while all PATH elements are absolute and files do not change; c31_cd_stale_refuted: without that restriction a tracked alias found through an absolute element hides a command of an earlier relative element after cd (c31_usable, c31_checked hold without it)"
  },
  {
   "property": "C32",
   "status": "partial",
   "theorems": [
    "c32_fields",
    "c32_nothing_lost",
    "c32_value",
    "c32_command",
    "c32_quoted",
    "c32_unsplit",
    "c32_text",
    "c32_adjacent_refuted",
    "c32_only_separators_refuted",
    "c32_command_refuted",
    "c32_trimmed_refuted",
    "c32_empty_quotes_refuted",
    "c32_null_variable_refuted"
   ],
   "note": "Proved for all words built of literals, quotes, $x, ${x-w} ${x+w} ${x?w} ${x=w} (not assigning), $@, $*, arrays, commands, arithmetic and patterns: no text is lost or reordered and the fields with text are right for every IFS; the exact fields outside of the listed doubtful cases; a single value is split as POSIX says. Refuted (c32_..._refuted): adjacent parameters with a non-white separator between, values of separators only, leading separators of command output, trimmed values after text, empty quotes before ${x-}. Missing: trims, assigning ${x=w}, ${#x} and tilde in the general word theorem; file name generation and braces after the first pass (C34, C01)."
  },
  {
   "property": "C33",
   "status": "proved",
   "theorems": [
    "c33_vector",
    "c33_at",
    "c33_at_alone",
    "c33_star",
    "c33_order_refuted",
    "c33_assign_refuted",
    "c33_alternative_refuted"
   ],
   "note": "For every IFS, every parameter list and text before and after inside the quotes; also ${name[@]}. The refuted theorems show neighbouring cases that are not part of the statement: order of \"$@\" and an empty variable, assignments with an empty IFS, ${@:+w}."
  },
  {
   "property": "C34",
   "status": "proved",
   "theorems": [
    "c34_expand",
    "c34_unambiguous",
    "c34_safe",
    "c34_typed",
    "c34_group",
    "c34_unchanged",
    "c34_inner_group_refuted"
   ],
   "note": ""
  },
  {
   "property": "C35",
   "status": "partial",
   "theorems": [
    "c35_marks_removed_exactly",
    "c35_marks_removed_in_place",
    "c35_quoted_text_literal",
    "c35_quoted_word_literal",
    "c35_quoted_class_refuted",
    "c35_quoted_magic_in_bracket_refuted"
   ],
   "note": "Proved for quoted text outside bracket expressions; inside brackets a quoted [: and a quoted ^G are misread (refuted by witnesses)."
  },
  {
   "property": "C36",
   "status": "proved",
   "theorems": [
    "c36_pipeline_status",
    "c36_order_independent"
   ],
   "note": "Holds for every schedule in which the kernel does not reuse the pid of a process still listed. A stopped job reports 0 and is excluded."
  },
  {
   "property": "C37",
   "status": "proved",
   "theorems": [
    "c37_unique",
    "c37_new_job",
    "c37_number_found",
    "c37_remove_move",
    "c37_nothing_lost",
    "c37_lookup_number",
    "c37_lookup_sound",
    "c37_current",
    "c37_stopped_current"
   ],
   "note": "Zombies (jobs kept only for wait) all have number -1 and are not listed."
  },
  {
   "property": "C38",
   "status": "partial",
   "theorems": [
    "c38_recorded",
    "c38_finished",
    "c38_unstarted",
    "c38_stable",
    "c38_waited_kept",
    "c38_wakeup_partial",
    "c38_held_raised",
    "c38_drained",
    "c38_wakeup_refuted",
    "c38_pid_reuse_refuted",
    "c38_abandoned",
    "c38_zombies",
    "c38_zombie_limit"
   ],
   "note": "Records, completion and stability are proved for all schedules without pid reuse of listed processes; delivery (no child left unreported for ever) only while no fork() fails. c38_wakeup_refuted, c38_pid_reuse_refuted and c38_abandoned show what happens otherwise."
  },
  {
   "property": "C39",
   "status": "partial",
   "theorems": [
    "c39_exactly_once_partial",
    "c39_errors_reported",
    "c39_retry",
    "c39_byte_ff_refuted"
   ],
   "note": "Proved for every sequence of shf_write/shf_putc/shf_putchar/shf_flush on a write-only descriptor stream, every buffer size and every sequence of write(2) answers, for character arguments in 0..255. Refuted for a byte 0xFF passed as a signed char when the buffer is full (c39_byte_ff_refuted), as shf_vfprintf does. Streams open for both reading and writing are not modelled."
  },
  {
   "property": "C40",
   "status": "proved",
   "theorems": [
    "c40_line",
    "c40_lines",
    "c40_chunking",
    "c40_line_shape",
    "c40_read",
    "c40_getc"
   ],
   "note": "shf_getse, shf_read, shf_getchar and shf_ungetc on a descriptor stream, every buffer size and every sequence of read(2) answers; a failing read makes the call fail and loses the part of the line read before it."
  },
  {
   "property": "C41",
   "status": "partial",
   "theorems": [
    "c41_decode_unique",
    "c41_print_partial",
    "c41_raw_partial",
    "c41_R_partial",
    "c41_echo_partial",
    "c41_echo_posix_partial",
    "c41_overflow_refuted",
    "c41_write",
    "c41_write_ends"
   ],
   "note": "print and echo: options, operands, escapes, -R, -s, -u, -p and the write loop. The theorems about the text assume that no six empty arguments follow each other, because the code overflows its buffer there (c41_overflow_refuted: more than 136 empty arguments). decode is shown to be functional (c41_decode_unique)."
  },
  {
   "property": "C42",
   "status": "partial",
   "theorems": [
    "c42_read",
    "c42_values_unique",
    "c42_total",
    "c42_one_raw",
    "c42_quoted_tail_refuted",
    "c42_space_before_separator_refuted",
    "c42_history_eof_refuted"
   ],
   "note": "read: c42_read gives, for every IFS, input and list of names, the values by a separate specification that determines them (c42_values_unique); c42_one_raw is the case of one variable with -r; c42_total: never an overflow, and read ends or waits for the rest of a line. The claim that a backslash quotes fails for white space at the end of the line (c42_quoted_tail_refuted); white space before a separator makes an extra field (c42_space_before_separator_refuted). Options, prompts and coprocess handling are not modelled."
  },
  {
   "property": "C43",
   "status": "partial",
   "theorems": [
    "c43_printf_partial",
    "c43_digits",
    "c43_numbuf",
    "c43_snprintf_partial",
    "c43_iso_refuted",
    "c43_undefined_refuted"
   ],
   "note": "Proved for every format of literals and directives with strings, characters and integers of any size, width, flags and stars; for integer precisions where the code agrees with ISO C (supported_int). The remaining precision cases and %#x of 0 are refuted by witnesses. The number buffer theorem is unrestricted."
  },
  {
   "property": "C44",
   "status": "proved",
   "theorems": [
    "c44_history",
    "c44_memory",
    "c44_most_recent",
    "c44_resize_failure_refuted"
   ],
   "note": "refinement to a bounded list, exact memory ownership; a failing reallocarray while shrinking is refuted (c44_resize_failure_refuted)"
  },
  {
   "property": "C45",
   "status": "partial",
   "theorems": [
    "c45_disposition_partial",
    "c45_program_partial",
    "c45_ignored",
    "c45_latest",
    "c45_once_per_arrival",
    "c45_all_pending",
    "c45_in_order_partial",
    "c45_not_forgotten_partial",
    "c45_special_partial",
    "c45_status",
    "c45_background_trap_refuted",
    "c45_exec_ignore_refuted",
    "c45_chld_ignored_refuted",
    "c45_delayed_refuted",
    "c45_err_twice_refuted",
    "c45_err_trap_lost_refuted",
    "c45_exit_cancelled_refuted",
    "c45_talking_child_refuted",
    "c45_failed_exec_refuted",
    "c45_kill_uninitialised_refuted",
    "c45_hup_skips_exit_refuted"
   ],
   "note": "Dispositions proved for all histories of trap commands, signals, traps run, print -p and subshells of a non-interactive shell except a background process while INT or QUIT has an action, and SIGCHLD; ignored-on-entry, one run per arrival, all pending run, $? proved in full; in-order and not-forgotten while no action is left by return/break/error. Refutations: exec/background dispositions, SIGCHLD, delayed traps, ERR run twice or lost, cancelled exit, failed exec, trap on KILL."
  },
  {
   "property": "C46",
   "status": "partial",
   "theorems": [
    "c46_shift_partial",
    "c46_safe",
    "c46_shift_refuted"
   ],
   "note": "for values of int; larger values are cut to 32 bits (c46_shift_refuted); never an access outside argv (c46_safe)"
  },
  {
   "property": "C47",
   "status": "partial",
   "theorems": [
    "c47_symbolic",
    "c47_refused",
    "c47_oob_refuted",
    "c47_numeric_partial",
    "c47_numeric_refuted",
    "c47_round_trip"
   ],
   "note": "symbolic form fully characterised; refuted: an argument of classes only is read past its end (c47_oob_refuted), numbers wrap modulo 2^32"
  },
  {
   "property": "C48",
   "status": "proved",
   "theorems": [
    "c48_every_entry_once",
    "c48_fits",
    "c48_no_overflow"
   ],
   "note": "every entry once, in column order; lines fit; no int overflow"
  },
  {
   "property": "C49",
   "status": "proved",
   "theorems": [
    "c49_in_bounds",
    "c49_check_put",
    "c49_reserve_exact",
    "c49_vector",
    "c49_vector_zero"
   ],
   "note": "Every sequence keeping to the rule stated in expand.h (at most n + 8 bytes after a check for n); arithmetic on sizes is unbounded. That each caller keeps to the rule is not proved."
  },
  {
   "property": "C50",
   "status": "partial",
   "theorems": [
    "c50_growing_putc",
    "c50_fixed",
    "c50_growing_write_partial",
    "c50_write_overflow_refuted",
    "c50_write_lost_refuted",
    "c50_putc_after_refuted"
   ],
   "note": "Growing strings: every sequence of shf_putc/shf_putchar, and of shf_write calls shorter than the initial size; fixed buffers: every sequence. Refuted for longer shf_write calls on growing strings (c50_write_overflow_refuted, c50_write_lost_refuted, c50_putc_after_refuted); the shell itself only puts characters into growing strings, except here documents printed by snptreef."
  },
  {
   "property": "C51",
   "status": "partial",
   "theorems": [
    "c51_terminates_partial",
    "c51_not_nested_partial",
    "c51_end_of_input_refuted",
    "c51_vertical_tab_refuted",
    "c51_backslash_newline_refuted",
    "c51_bracket_refuted"
   ],
   "note": "Proved (c51_terminates_partial): for every alias table, also with cycles, every reachable state of the input and every set of lexer flags, reading a token ends, provided that no alias name contains a bracket, no alias value ends in VT, FF, CR, a backslash or backslash-newline, and the input ends in a newline. Each of the excluded cases but the trailing backslash is refuted with a concrete alias whose expansion never ends, the simplest being alias a=a with the word a at the end of an input without a final newline (as in $(a)). c51_not_nested_partial: no alias is read inside its own text, down to text pushed back after an unclosed bracket."
  },
  {
   "property": "C52",
   "status": "proved",
   "theorems": [
    "c52_argument",
    "c52_replace",
    "c52_unchanged",
    "c52_executed"
   ],
   "note": "replacement, argument splitting and the text and lines executed"
  },
  {
   "property": "C53",
   "status": "proved",
   "theorems": [
    "c53_strip_nuls_is_filter"
   ],
   "note": ""
  },
  {
   "property": "C54",
   "status": "proved",
   "theorems": [
    "c54_getn_exact"
   ],
   "note": "INT_MAX and INT_MIN themselves are rejected by the code; the theorem states the exact range."
  },
  {
   "property": "C55",
   "status": "partial",
   "theorems": [
    "c55_search",
    "c55_search_refuted",
    "c55_number",
    "c55_number_approx"
   ],
   "note": "proved when there is an earlier command; c55_search_refuted: the only entry, the fc command itself, is found"
  },
  {
   "property": "C56",
   "status": "partial",
   "theorems": [
    "c56_strip_partial",
    "c56_strip_comsub_refuted",
    "c56_strip_ff_refuted"
   ],
   "note": "Proved for words without $() and $(()) and without the byte 0xFF; refuted for those (c56_strip_comsub_refuted, c56_strip_ff_refuted)."
  },
  {
   "property": "C57",
   "status": "partial",
   "theorems": [
    "c57_typed_values_partial",
    "c57_start",
    "c57_strings_readable",
    "c57_failed_integer_refuted",
    "c57_unwound_integer_refuted",
    "c57_self_reference_refuted"
   ],
   "note": "Proved for runs in which no command that gives attributes fails; failing typeset -i leaves a string pointer read as an integer (c57_*_refuted), also x=x; typeset -i x."
  },
  {
   "property": "C58",
   "status": "proved",
   "theorems": [
    "c58_pathname_expansion",
    "c58_markdirs",
    "c58_safe",
    "c58_markdirs_refuted"
   ],
   "note": "c58_pathname_expansion and c58_markdirs for every path whose components are text (also with unclosed brackets) or patterns well-formed in the sense of C01; c58_safe for every string. c58_markdirs_refuted: with markdirs the names of a directory that cannot be searched are lost."
  },
  {
   "property": "C59",
   "status": "partial",
   "theorems": [
    "c59_safe_partial",
    "c59_in_line_partial",
    "c59_on_char_partial",
    "c59_a_stale_refuted",
    "c59_a_old_line_refuted",
    "c59_replace_kill_refuted",
    "c59_cw_empty_refuted",
    "c59_continuation_first_refuted",
    "c59_search_interrupt_refuted",
    "c59_literal_nul_refuted",
    "c59_count_search_refuted",
    "c59_count_overflow_refuted"
   ],
   "note": "False as stated: nine ways to leave the buffers (or the type int) are exhibited (c59_*_refuted): a after stale continuation bytes, kill in replace mode, cw on an empty line, a continuation byte first, an interrupted search line, literal NULs, a count before /, counts that overflow. Proved for every session of ASCII keys that avoids the listed cases (Vi_spec.allowed): nothing outside the buffers is touched, cursor and line stay in bounds, and in command mode the cursor is on a character. Expansion and completion (x_cf_glob) answer nothing in the proved sessions; terminal output is not modelled."
  },
  {
   "property": "C60",
   "status": "proved",
   "theorems": [
    "c60_typed_line",
    "c60_meaning_unique",
    "c60_meaning_total"
   ],
   "note": ""
  },
  {
   "property": "C61",
   "status": "proved",
   "theorems": [
    "c61_undo",
    "c61_undo_undo"
   ],
   "note": ""
  },
  {
   "property": "C62",
   "status": "partial",
   "theorems": [
    "c62_first_directory",
    "c62_knows_where",
    "c62_pwd_names",
    "c62_logical",
    "c62_physical",
    "c62_ends",
    "c62_back",
    "c62_pwd",
    "c62_startup",
    "c62_startup_refuted",
    "c62_stale_pwd_refuted"
   ],
   "note": "Refuted as stated for a PWD at startup that has . or .. after a link (c62_startup_refuted: stat checks it as given, then it is simplified) and, when the shell does not know where it is, PWD is left as it was (c62_stale_pwd_refuted). Proved for all other cases. The physical path theorem supposes that readlink(2) does not fail for what exists; c62_back supposes that the old directory can still be entered by its path."
  },
  {
   "property": "C63",
   "status": "partial",
   "theorems": [
    "c63_in_bounds_partial",
    "c63_key_partial",
    "c63_stale_mark_refuted",
    "c63_lost_yank_refuted",
    "c63_number_refuted",
    "c63_histword_refuted",
    "c63_long_history_refuted"
   ],
   "note": "Refuted as stated without the proviso (c63_*_refuted): a mark left beyond a shorter line, a yank that did not fit followed by yank-pop, a long numeric argument, prev-hist-word without history, a search hit beyond the end of a cut history line. Proved for all sessions that do not reach a state with one of the first three, with history lines that are not empty and fit, and keys shorter than the key buffer. Redrawing is not modelled."
  },
  {
   "property": "C64",
   "status": "proved",
   "theorems": [
    "c64_kill",
    "c64_kill_yank",
    "c64_kept",
    "c64_yank_pop",
    "c64_motion",
    "c64_char_before",
    "c64_char_after",
    "c64_transpose",
    "c64_typed",
    "c64_transpose_utf8_refuted"
   ],
   "note": "Kill ring, yank, yank-pop, motion, UTF-8 steps, transposition of bytes, typed text. c64_transpose_utf8_refuted: ^T tears UTF-8 characters apart. With an explicit argument the commands count bytes."
  },
  {
   "property": "C65",
   "status": "partial",
   "theorems": [
    "c65_dispatch",
    "c65_self_insert",
    "c65_startup",
    "c65_bind",
    "c65_longer_refuted",
    "c65_prefix_refuted",
    "c65_shown_partial",
    "c65_shown_refuted"
   ],
   "note": "Dispatch proved for tables without hidden bindings and ASCII keys; bind under the proviso in the statement (refuted without: c65_longer_refuted, c65_prefix_refuted); what bind shows is right unless a ^ is followed by a character that ^ would turn into a control character (c65_shown_refuted)."
  },
  {
   "property": "C66",
   "status": "proved",
   "theorems": [
    "c66_words",
    "c66_case",
    "c66_history",
    "c66_search_char",
    "c66_comment",
    "c66_histword",
    "c66_search_history",
    "c66_eot"
   ],
   "note": ""
  },
  {
   "property": "C67",
   "status": "partial",
   "theorems": [
    "c67_entries",
    "c67_unambiguous",
    "c67_readable",
    "c67_written",
    "c67_written_alone",
    "c67_written_refuted",
    "c67_freed_partial",
    "c67_kept",
    "c67_freed_wrong",
    "c67_freed_refuted",
    "c67_kept_refuted"
   ],
   "note": "Freeing is proved for values in which no entry without a file precedes one with a file (c67_freed_partial); for all others it is refuted (c67_freed_wrong, c67_freed_refuted). An all-empty value is never freed (c67_kept_refuted)."
  },
  {
   "property": "C68",
   "status": "proved",
   "theorems": [
    "c68_mailpath",
    "c68_mail",
    "c68_exclusive",
    "c68_same_second_refuted",
    "c68_message_refuted"
   ],
   "note": "Refuted without the provisos: mail that arrives in the second of an earlier change is not announced (c68_same_second_refuted), a message that assigns MAILPATH writes to freed memory (c68_message_refuted)."
  },
  {
   "property": "C69",
   "status": "proved",
   "theorems": [
    "c69_ulimit",
    "c69_meant",
    "c69_only_named",
    "c69_wraps_refuted",
    "c69_negative_refuted",
    "c69_shown_refuted"
   ],
   "note": "Outside of the range the values wrap (c69_wraps_refuted, c69_negative_refuted) or are shown as negative numbers (c69_shown_refuted). The expressions of values are an oracle."
  },
  {
   "property": "C70",
   "status": "proved",
   "theorems": [
    "c70_unambiguous",
    "c70_tilde",
    "c70_variables",
    "c70_users",
    "c70_empty_refuted",
    "c70_magic_refuted"
   ],
   "note": "c70_tilde with c70_unambiguous (one text per word, and it is what expand() gives), c70_variables, c70_users; excluded and refuted: an empty text of a command's word is no word (c70_empty_refuted), \\007 in a directory is doubled (c70_magic_refuted). Words with substitutions are covered by C32, where tildes stay as they are."
  },
  {
   "property": "C71",
   "status": "proved",
   "theorems": [
    "c71_settings",
    "c71_read",
    "c71_forgets",
    "c71_local_refuted",
    "c71_unset_refuted",
    "c71_end_refuted"
   ],
   "note": "c71_settings, c71_read for all runs of the operations named harmless in Special_spec; c71_forgets for all runs. What is excluded is refuted: c71_local_refuted, c71_unset_refuted, c71_end_refuted. No arrays, no imported environment at the start, evaluation without side effects."
  },
  {
   "property": "C72",
   "status": "proved",
   "theorems": [
    "c72_seconds",
    "c72_seconds_since_start",
    "c72_random",
    "c72_random_from_start",
    "c72_lineno",
    "c72_lineno_assigned",
    "c72_wrong_number_refuted",
    "c72_random_local_refuted"
   ],
   "note": "c72_seconds, c72_seconds_since_start, c72_random, c72_random_from_start, c72_lineno, c72_lineno_assigned. Excluded and refuted: a wrong number makes LINENO an ordinary variable (c72_wrong_number_refuted), a local RANDOM may take its value away for good (c72_random_local_refuted)."
  },
  {
   "property": "C73",
   "status": "proved",
   "theorems": [
    "c73_locate_safe",
    "c73_locate",
    "c73_locate_refuted",
    "c73_offered",
    "c73_glob_sane",
    "c73_prefix",
    "c73_completed",
    "c73_read_back",
    "c73_newline_refuted",
    "c73_tilde_refuted",
    "c73_full_refuted",
    "c73_quoted_refuted",
    "c73_empty_refuted",
    "c73_pattern",
    "c73_basename",
    "c73_slashes_refuted"
   ],
   "note": "Proved: c73_locate_safe, c73_locate, c73_offered, c73_glob_sane, c73_prefix, c73_completed, c73_read_back, c73_pattern, c73_basename. Looking names up is given. Refuted outside the provisos: c73_locate_refuted (two backslashes and a blank), c73_newline_refuted, c73_tilde_refuted, c73_full_refuted (line nearly full), c73_quoted_refuted (common text not inserted although longer), c73_empty_refuted (reads before a string), c73_slashes_refuted."
  },
  {
   "property": "C74",
   "status": "proved",
   "theorems": [
    "c74_printed",
    "c74_safe",
    "c74_date_refuted",
    "c74_tty_refuted",
    "c74_width",
    "c74_width_lines",
    "c74_newline_refuted",
    "c74_again",
    "c74_cut",
    "c74_cut_refuted",
    "c74_dollar",
    "c74_dollar_refuted"
   ],
   "note": "c74_printed, c74_safe, c74_width, c74_width_lines, c74_again, c74_cut, c74_dollar. Excluded and refuted: \\D at the end reads behind the prompt (c74_date_refuted), \\l without terminal prints an unwritten buffer (c74_tty_refuted), newlines and tabs count one too many (c74_newline_refuted), cutting off with \\[ breaks escape sequences (c74_cut_refuted), a quoted backslash before $ (c74_dollar_refuted). The substitution of parameters in PS1 is not part of the model."
  },
  {
   "property": "C75",
   "status": "partial",
   "theorems": [
    "c75_signal",
    "c75_unambiguous",
    "c75_synonym_refuted",
    "c75_kill",
    "c75_kill_total",
    "c75_sent_unique",
    "c75_job_twice_refuted",
    "c75_list_posix",
    "c75_list",
    "c75_trap",
    "c75_trap_total",
    "c75_trap_list",
    "c75_trap_reread",
    "c75_trap_actions",
    "c75_trap_ignored_refuted",
    "c75_trap_nameless_refuted"
   ],
   "note": "Proved for all arguments, jobs and kernel answers. Refuted: three names in the table (IOT, POLL, CLD) are not accepted (c75_synonym_refuted); a job of which two processes have the text is not found by %?text (c75_job_twice_refuted); trap lists an ignored signal as one to be reset (c75_trap_ignored_refuted) and a signal without a name as (null %s) (c75_trap_nameless_refuted). The re-reading theorem is about the words; that a quoted word is read back is C21."
  },
  {
   "property": "C76",
   "status": "proved",
   "theorems": [
    "c76_menu",
    "c76_menu_fits",
    "c76_ask",
    "c76_ask_total",
    "c76_choice_unique",
    "c76_select",
    "c76_select_unique",
    "c76_total",
    "c76_number",
    "c76_unset_refuted",
    "c76_separators_refuted",
    "c76_last_line_refuted"
   ],
   "note": "Proved for all words, inputs, variables and lists: c76_menu, c76_menu_fits, c76_ask, c76_ask_total, c76_choice_unique, c76_select, c76_select_unique, c76_total, c76_number. The statement is that of the code where the manual differs: c76_unset_refuted (an invalid answer does not unset the variable), c76_separators_refuted (a line of IFS characters that are not blanks is no empty answer), c76_last_line_refuted (a last line without newline is not taken)."
  },
  {
   "property": "C77",
   "status": "proved",
   "theorems": [
    "c77_means_unique",
    "c77_long",
    "c77_short",
    "c77_safe",
    "c77_file",
    "c77_each_refuted",
    "c77_same"
   ],
   "note": "Proved for all tables, files and names in shells whose tracked aliases are up to date (coherent, kept by every command except cd with relative directories in PATH, see C31): c77_long, c77_short, c77_means_unique, c77_safe, c77_file, c77_same. c77_each_refuted: the manual says that whence prints about each name; without -v the code stops at the first name that means nothing."
  },
  {
   "property": "C78",
   "status": "proved",
   "theorems": [
    "c78_memory",
    "c78_alias",
    "c78_does_unique",
    "c78_lone",
    "c78_list",
    "c78_unalias",
    "c78_reset",
    "c78_set_shown",
    "c78_reread",
    "c78_status_refuted",
    "c78_tracked_refuted",
    "c78_name_refuted"
   ],
   "note": "Proved for all histories of alias and unalias: c78_memory, c78_alias, c78_does_unique, c78_lone, c78_list, c78_unalias, c78_reset, c78_set_shown, c78_reread. The statement is that of the code where one would expect more: c78_status_refuted (an alias that was only marked with -x counts for unalias), c78_tracked_refuted (alias -t name=value does not look the name up), c78_name_refuted (names are not quoted in the list). Entries that findcom and homedir make in the tables of -t and -d are not among the histories."
  },
  {
   "property": "C79",
   "status": "proved",
   "theorems": [
    "c79_hook",
    "c79_times",
    "c79_time",
    "c79_time_shell",
    "c79_prints_unique"
   ],
   "note": "Proved for all proper clock values: c79_times, c79_time, c79_time_shell, c79_prints_unique, on top of the model of shf_vfprintf (C43). The clocks are parameters; the options of time (timex_hook) and which job j_usrtime belongs to (the last one waited for, as the comment in timex says) are not part of it."
  }
 ]
}