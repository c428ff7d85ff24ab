{"id": "C01", "title": "Pattern matching decides the pattern language", "statement": "A case/[[ ]]/${x#..} pattern made of literal characters, ?, *, bracket expressions (ranges, negation, [:class:]) and the extended forms *( ) +( ) ?( ) @( ) !( ) matches a string exactly when the string belongs to the language the pattern denotes; the matcher always answers.", "quantifier": "every well-formed pattern and every NUL-free string, of any length and nesting depth", "why_tests_cant": "patterns nest without bound and the matcher backtracks; tests only sample pattern/string pairs", "anchors": ["misc.c:gmatch", "misc.c:do_gmatch", "misc.c:cclass", "misc.c:posix_cclass", "misc.c:pat_scan", "misc.c:has_globbing"]}
{"id": "C02", "title": "${x#p}, ${x##p}, ${x%p}, ${x%%p} remove the shortest/longest matching prefix/suffix", "statement": "Trimming removes exactly the shortest (#, %) or longest (##, %%) prefix (#) or suffix (%) of the value that matches the pattern, and leaves the value unchanged when no prefix/suffix matches.", "quantifier": "every value and every pattern", "why_tests_cant": "minimality and maximality quantify over all prefixes/suffixes of all strings", "anchors": ["eval.c:trimsub", "misc.c:gmatch"]}
{"id": "C03", "title": "Logical path simplification keeps the meaning and is canonical", "statement": "Simplifying a path (cd, $PWD) yields a path with no empty or '.' components, no '..' after a named component, no '..' directly under '/', with the same absolute/relative kind, not longer than the input, denoting the same logical location; simplifying twice is the same as once.", "quantifier": "every NUL-free path string", "why_tests_cant": "in-place pointer rewriting over arbitrary mixtures of slashes, '.' and '..'; only samples can be tested", "anchors": ["path.c:simplify_path"]}
{"id": "C04", "title": "CDPATH candidates are tried left to right, each exactly once", "statement": "cd builds its candidate directories by walking CDPATH components in order, each joined to the target with exactly one slash, relative components anchored at the current directory; absolute, ./ and ../ targets ignore CDPATH; iteration always ends.", "quantifier": "every current directory, target and CDPATH value", "why_tests_cant": "the iteration state is threaded through a pointer into the CDPATH string", "anchors": ["path.c:make_path", "c_ksh.c:c_cd"]}
{"id": "C05", "title": "Command search takes the first usable PATH entry", "statement": "Searching a name without a slash returns the first PATH component (in order) containing a file that passes the access test, an empty component meaning the current directory; a name with a slash is never searched; nothing is returned only if no component qualifies.", "quantifier": "every name, every PATH value and every file system state", "why_tests_cant": "ranges over all PATH strings and file system contents", "anchors": ["exec.c:search", "exec.c:search_access"]}
{"id": "C06", "title": "Integer print/parse round trip in every base", "statement": "Printing an integer variable in base 2..36 and reading the text back gives the same integer; the text uses only digits of that base, has no superfluous leading zeros, and fits the fixed buffers used.", "quantifier": "every 64-bit value and every base from 2 to 36", "why_tests_cant": "2^64 values times 35 bases and fixed-size buffers", "anchors": ["misc.c:u64ton", "var.c:str_val", "var.c:getint", "var.c:setint_v"]}
{"id": "C07", "title": "Arithmetic obeys the documented grammar", "statement": "Evaluating the text of an arithmetic expression gives the value defined by C operator precedence and associativity over 64-bit integers, for every expression tree however it is parenthesised or spaced.", "quantifier": "every expression tree over constants, variables and all operators, every variable state", "why_tests_cant": "expression trees are unbounded; precedence errors only show on particular shapes", "anchors": ["expr.c:evalexpr", "expr.c:token", "expr.c:opinfo"]}
{"id": "C08", "title": "Division and remainder never crash the shell", "statement": "Division or remainder by zero in an evaluated operand is reported as an error, and dividing the most negative integer by -1 gives a defined result; no evaluated division traps.", "quantifier": "all operand pairs and all expressions", "why_tests_cant": "needs all 2^128 operand pairs", "anchors": ["expr.c:evalexpr"]}
{"id": "C09", "title": "Unevaluated arithmetic operands have no side effects", "statement": "The right operand of && and || and the arm of ?: that is not selected do not change any variable and do not raise division errors.", "quantifier": "every expression and every variable state", "why_tests_cant": "side effects can be hidden anywhere in an arbitrarily nested operand", "anchors": ["expr.c:evalexpr", "expr.c:token", "expr.c:do_ppmm"]}
{"id": "C10", "title": "Pre/post increment and decrement", "statement": "x++ and x-- yield the old value of x, ++x and --x the new value, and x changes by exactly one.", "quantifier": "every 64-bit value of x that can be incremented/decremented without overflow", "why_tests_cant": "depends on value width; 2^64 states", "anchors": ["expr.c:do_ppmm"]}
{"id": "C11", "title": "Readonly variables never change", "statement": "Once a variable is readonly, no sequence of assignments, typeset, read, unset, arithmetic or array assignments changes its value or makes it writable; each attempt fails.", "quantifier": "every sequence of variable operations", "why_tests_cant": "invariant over unbounded histories", "anchors": ["var.c:setstr", "var.c:setint", "var.c:typeset", "c_sh.c:c_unset", "var.c:set_array"]}
{"id": "C12", "title": "Arrays are finite maps from index to value", "statement": "Reading an array element returns the value last assigned to that index, or unset; other elements are unaffected by an assignment or unset; the element list and ${#a[*]} enumerate each set index once in increasing order.", "quantifier": "every sequence of element assignments and unsets with indices in the accepted range", "why_tests_cant": "sparse linked list whose shape depends on the full history", "anchors": ["var.c:arraysearch", "var.c:array_index_calc", "var.c:unset", "var.c:set_array"]}
{"id": "C13", "title": "typeset -L/-R/-Z give exactly the requested width", "statement": "A value stored in a -L n, -R n or -Z n variable always has length n: left-justified values drop leading blanks and are padded or cut on the right; right-justified values drop trailing blanks and are padded or cut on the left; -u/-l change letter case only.", "quantifier": "every value and every width", "why_tests_cant": "unbounded values and widths with pointer arithmetic at both ends", "anchors": ["var.c:formatstr"]}
{"id": "C14", "title": "Local variables do not leak and the environment holds the innermost exported values", "statement": "Assignments to a variable made local in a function are undone when the function returns; a name resolves to the innermost block that defines it; the environment passed to a command has exactly one NAME=value for each name whose innermost binding is set and exported.", "quantifier": "every nesting of function calls and sequence of local/global operations", "why_tests_cant": "unbounded nesting and history", "anchors": ["var.c:newblock", "var.c:popblock", "var.c:global", "var.c:local", "var.c:makenv"]}
{"id": "C15", "title": "Name tables behave as finite maps", "statement": "After any sequence of enter, delete and search operations a lookup finds a name exactly when it was entered and not deleted since; growth of the table loses and invents nothing; probing always terminates; a walk lists every defined entry exactly once and the sorted listing is sorted and complete.", "quantifier": "every sequence of operations, every hash function outcome and collision pattern", "why_tests_cant": "open addressing with tombstones: behaviour depends on the whole history and on collisions", "anchors": ["table.c:ktenter", "table.c:ktsearch", "table.c:ktdelete", "table.c:texpand", "table.c:ktwalk", "table.c:ktnext", "table.c:ktsort"]}
{"id": "C16", "title": "Area memory: every block freed exactly once", "statement": "A block obtained from an area is released exactly once, either individually or when the area is torn down; tearing down an area releases all of its live blocks and nothing else; array allocations whose size product overflows are refused.", "quantifier": "every interleaving of alloc, resize, free and free-all over any number of areas", "why_tests_cant": "doubly linked list surgery; double free and leaks depend on history", "anchors": ["alloc.c:alloc", "alloc.c:aresize", "alloc.c:afree", "alloc.c:afreeall", "alloc.c:areallocarray"]}
{"id": "C17", "title": "test/[ follows the POSIX rules for up to four arguments", "statement": "With 0..4 arguments, test/[ gives the result POSIX specifies from the number of arguments, whatever the operand text is.", "quantifier": "all argument strings", "why_tests_cant": "operands that look like operators: infinitely many argument texts", "anchors": ["c_test.c:c_test", "c_test.c:test_parse", "c_test.c:test_isop"]}
{"id": "C18", "title": "test expressions obey precedence and always give status 0, 1 or 2", "statement": "Longer test expressions evaluate -a tighter than -o, ! tightest, parentheses group; the exit status is 0 (true), 1 (false) or 2 (syntax error), and a syntax error is never reported as true or false.", "quantifier": "all argument lists and all outcomes of the primary tests", "why_tests_cant": "recursive-descent parser over unbounded argument lists", "anchors": ["c_test.c:test_oexpr", "c_test.c:test_aexpr", "c_test.c:test_nexpr", "c_test.c:test_primary"]}
{"id": "C19", "title": "Option parsing visits every option once and stops at the operands", "statement": "Repeated option parsing of an argument vector returns each option letter with its argument in order, whether clustered or separate, stops at the first operand or after --, and leaves the index at the first operand; it always terminates and never indexes outside the vector.", "quantifier": "every option specification and argument vector", "why_tests_cant": "state is carried between calls in (index, position) pairs", "anchors": ["misc.c:ksh_getopt", "c_ksh.c:c_getopts"]}
{"id": "C20", "title": "Editing-mode options are mutually exclusive", "statement": "After any sequence of option changes at most one of vi, emacs and gmacs is set, turning posix on turns brace expansion off, and no other option is disturbed.", "quantifier": "every sequence of set +-o changes", "why_tests_cant": "invariant over all histories", "anchors": ["misc.c:change_flag"]}
{"id": "C21", "title": "Quoted listings can be re-read", "statement": "The text printed for a value by set/alias/trap/typeset listings, when read back by the shell as one word, denotes the original value.", "quantifier": "every NUL-free string value", "why_tests_cant": "infinitely many strings with metacharacters; needs lexer and printer agreement", "anchors": ["misc.c:print_value_quoted", "lex.c:yylex"]}
{"id": "C22", "title": "Printed functions mean the same when re-read", "statement": "The text typeset -f prints for a word of a function body, when parsed again, is the same word.", "quantifier": "every word the lexer can produce", "why_tests_cant": "unbounded nesting of quotes and substitutions", "anchors": ["tree.c:tputS", "lex.c:yylex"]}
{"id": "C23", "title": "Copying a parsed word or tree copies all of it", "statement": "Saving a function definition makes a copy of every word and command equal to the original, reading exactly the encoded word and not a byte beyond.", "quantifier": "every well-formed encoded word, every nesting of substitutions", "why_tests_cant": "recursive scan over an in-band encoded byte string", "anchors": ["tree.c:wdscan", "tree.c:wdcopy", "tree.c:wdstrip", "tree.c:tcopy"]}
{"id": "C24", "title": "Quoting makes characters literal", "statement": "A word written with single quotes, or with every special character backslash-escaped or double-quoted with the required escapes, denotes exactly the enclosed text.", "quantifier": "every text (without a single quote for the single-quote form; NUL-free)", "why_tests_cant": "lexer is a state machine with pushback over unbounded input", "anchors": ["lex.c:yylex", "lex.c:getsc_bn"]}
{"id": "C25", "title": "Here-document bodies are exactly the lines up to the delimiter", "statement": "The body collected for << is the concatenation of the input lines before the first line equal to the delimiter (each line's leading tabs removed for <<-), and reading resumes right after the delimiter line; input that ends first is an error.", "quantifier": "every input text and delimiter", "why_tests_cant": "delimiter prefixes may appear partially in any line; unbounded input", "anchors": ["lex.c:readhere"]}
{"id": "C26", "title": "Backslash-newline disappears", "statement": "Outside single quotes the parser sees the input with every backslash-newline pair removed and nothing else changed.", "quantifier": "every input text", "why_tests_cant": "interplay of lookahead and pushback on unbounded input", "anchors": ["lex.c:getsc_bn", "lex.c:ungetsc"]}
{"id": "C27", "title": "Operators associate as documented", "statement": "cmd | cmd | ..., cmd && cmd || ..., and cmd ; cmd & ... are parsed so that | binds tighter than &&/||, which bind tighter than ; and &, and && and || have equal precedence and associate to the left.", "quantifier": "every sequence of commands and operators", "why_tests_cant": "unbounded sequences; associativity errors show only in mixed chains", "anchors": ["syn.c:pipeline", "syn.c:andor", "syn.c:c_list"]}
{"id": "C28", "title": "Exit status and errexit of compound commands", "statement": "The status of a compound command is the status its definition gives (lists, &&, ||, !, if, while, for, case); with set -e the shell exits as soon as a command fails outside a condition, an operand of && or || other than the last, or !.", "quantifier": "every command tree and every outcome of the simple commands", "why_tests_cant": "trees and loop iterations are unbounded", "anchors": ["exec.c:execute"]}
{"id": "C29", "title": "break n and continue n affect exactly min(n, depth) loops", "statement": "break n leaves the n innermost enclosing loops and continue n resumes the n-th enclosing loop; when n exceeds the nesting all (respectively the outermost) enclosing loops are affected; loops outside the current function are not.", "quantifier": "every n >= 1 and every loop nesting", "why_tests_cant": "implemented by flags on a chain of environments and long jumps", "anchors": ["c_sh.c:c_brkcont", "exec.c:execute"]}
{"id": "C30", "title": "Redirections of a command are undone afterwards", "statement": "After a builtin, function or compound command with any list of redirections ends, descriptors 0-9 refer to the same open files (or are closed) as before, and no shell-private descriptor is leaked.", "quantifier": "every list of redirections, including repeated redirection of one descriptor and closed descriptors, and every initial descriptor table", "why_tests_cant": "sequences of dup/close on shared descriptor table", "anchors": ["exec.c:iosetup", "io.c:savefd", "io.c:restfd", "main.c:quitenv"]}
{"id": "C31", "title": "Command lookup order", "statement": "A command name resolves to a special builtin, else a function, else a regular builtin, else an executable found in PATH, whichever is enabled by the lookup flags; names with a slash are never functions or builtins.", "quantifier": "every combination of definitions and flags", "why_tests_cant": "combinatorial; must hold for every table state", "anchors": ["exec.c:findcom"]}
{"id": "C32", "title": "Field splitting follows IFS", "statement": "Unquoted expansion results are split at IFS characters: runs of IFS white space separate fields and are dropped at both ends, each non-white IFS character (with adjacent IFS white space) ends one field, quoted text is never split, and concatenating the pieces loses no non-IFS character.", "quantifier": "every sequence of quoted and unquoted characters and every IFS", "why_tests_cant": "state machine over unbounded input", "anchors": ["eval.c:expand"]}
{"id": "C33", "title": "\"$@\" yields exactly the positional parameters", "statement": "\"$@\" expands to one field per positional parameter with its exact text, \"$*\" to one field joining them with the first IFS character, and no parameters give no field for \"$@\".", "quantifier": "every list of parameters and every IFS", "why_tests_cant": "unbounded lists, arbitrary content", "anchors": ["eval.c:expand", "eval.c:varsub"]}
{"id": "C34", "title": "Brace expansion produces every alternative once, in order", "statement": "a{b,c}d expands left to right to one word for each alternative with prefix and suffix attached, nested braces expand recursively, and words without a well-formed brace group are unchanged; expansion terminates.", "quantifier": "every word", "why_tests_cant": "nesting is unbounded and generates exponentially many words", "anchors": ["eval.c:alt_expand"]}
{"id": "C35", "title": "Quoted pattern characters stay literal", "statement": "Text that was quoted never acts as a pattern, and removing the internal quoting marks gives back the original text exactly.", "quantifier": "every text", "why_tests_cant": "in-band marker bytes; arbitrary content including the marker byte", "anchors": ["eval.c:debunk", "misc.c:gmatch", "misc.c:has_globbing"]}
{"id": "C36", "title": "Pipeline status", "statement": "The status of a pipeline is that of its last process, or with pipefail that of the last process that failed (0 if none did); a process killed by signal n counts as 128+n.", "quantifier": "every number of processes and every combination of their endings, in every order of arrival", "why_tests_cant": "combinatorial in arrival order", "anchors": ["jobs.c:j_waitj", "jobs.c:check_job", "jobs.c:j_sigchld"]}
{"id": "C37", "title": "Job numbers are unique and reused smallest-first", "statement": "At all times every listed job has a distinct number, a new job gets the smallest unused positive number, removing or reordering jobs loses or duplicates none, and the current/previous job references follow the list order.", "quantifier": "every sequence of job creation, removal and reordering", "why_tests_cant": "linked list surgery over unbounded histories", "anchors": ["jobs.c:new_job", "jobs.c:put_job", "jobs.c:remove_job", "jobs.c:j_lookup"]}
{"id": "C38", "title": "No child status is lost or double counted", "statement": "Whatever the interleaving of child terminations with job creation, every terminated child is recorded exactly once with its real status, a job is finished exactly when all its processes have ended, and its status is never changed afterwards.", "quantifier": "every schedule of SIGCHLD deliveries and job starts", "why_tests_cant": "asynchronous signal handler schedules cannot be enumerated by tests", "anchors": ["jobs.c:j_sigchld", "jobs.c:check_job", "jobs.c:j_startjob", "jobs.c:exchild"]}
{"id": "C39", "title": "Buffered output delivers the exact byte stream", "statement": "The bytes written to a shell output stream reach the descriptor exactly once and in order for every sequence of writes, buffer size and pattern of partial writes and interruptions; an error is reported, never silently dropped.", "quantifier": "every sequence of write/putc/flush calls and every behaviour of the write system call", "why_tests_cant": "kernel schedule dependent", "anchors": ["shf.c:shf_write", "shf.c:shf_putchar", "shf.c:shf_emptybuf", "shf.c:shf_flush"]}
{"id": "C40", "title": "Line input is independent of how reads are chunked", "statement": "Reading a file or pipe line by line yields the same lines whatever sizes the individual read calls return; lines concatenated give the file.", "quantifier": "every file content, buffer size and sequence of read sizes", "why_tests_cant": "kernel schedule dependent", "anchors": ["shf.c:shf_getse", "shf.c:shf_fillbuf", "shf.c:shf_read", "shf.c:shf_getchar", "shf.c:shf_ungetc"]}
{"id": "C41", "title": "print -r and echo -E output their arguments verbatim; escapes decode as documented", "statement": "print -r -- args writes exactly the arguments separated by single spaces and a newline; without -r each documented escape becomes its character and everything else is unchanged; partial and interrupted writes do not lose or repeat bytes.", "quantifier": "every argument list and every pattern of partial/interrupted writes", "why_tests_cant": "schedules and unbounded arguments", "anchors": ["c_ksh.c:c_print"]}
{"id": "C42", "title": "read splits a line into its variables", "statement": "read -r assigns to each variable but the last the next field of the line and to the last variable the rest of the line without trailing IFS white space; without -r a backslash quotes the next character and backslash-newline joins lines; NUL bytes are ignored.", "quantifier": "every input, IFS and number of variables", "why_tests_cant": "state machine over unbounded input", "anchors": ["c_sh.c:c_read"]}
{"id": "C43", "title": "Formatted output of numbers", "statement": "The shell's printf-style formatter prints the exact decimal/octal/hex representation, honours width, precision and flags, and never overruns its number buffer.", "quantifier": "every 64-bit value, width, precision and flag combination", "why_tests_cant": "2^64 values and fixed buffer", "anchors": ["shf.c:shf_vfprintf"]}
{"id": "C44", "title": "History keeps the most recent commands in order", "statement": "After any sequence of saves and size changes the history holds the most recently saved commands, at most HISTSIZE of them, in order; lines beginning with a space and repeated lines are skipped exactly when asked for.", "quantifier": "every sequence of commands and HISTSIZE settings", "why_tests_cant": "ring/array shifting over unbounded histories", "anchors": ["history.c:histsave", "history.c:sethistsize", "history.c:histbackup", "history.c:findhist"]}
{"id": "C45", "title": "Signals ignored at start-up stay ignored; traps run once per batch and keep $?", "statement": "In a non-interactive shell a signal ignored on entry can never be trapped or reset; otherwise the installed disposition is always what the trap setting demands; each pending trap is run exactly once and $? is the same after a trap as before.", "quantifier": "every sequence of trap commands, signals and forks", "why_tests_cant": "asynchronous and history dependent", "anchors": ["trap.c:settrap", "trap.c:setsig", "trap.c:runtraps", "trap.c:runtrap", "trap.c:cleartraps"]}
{"id": "C46", "title": "shift drops exactly n parameters or fails", "statement": "shift n removes the first n positional parameters when 0 <= n <= $#, preserving $0 and the rest; otherwise it fails and changes nothing.", "quantifier": "every parameter list and every n", "why_tests_cant": "n is an arbitrary 64-bit expression value", "anchors": ["c_sh.c:c_shift"]}
{"id": "C47", "title": "umask symbolic and numeric modes", "statement": "umask $(umask -S) leaves the mask unchanged, symbolic clauses set, add or remove exactly the named permissions, invalid text is refused without changing the mask and without reading past the argument.", "quantifier": "every mask and every argument string", "why_tests_cant": "arbitrary argument text", "anchors": ["c_sh.c:c_umask"]}
{"id": "C48", "title": "Column listings show every entry once", "statement": "A listing in columns (kill -l, select menus, completion) prints every entry exactly once whatever the terminal width and entry count.", "quantifier": "every count, width and terminal size", "why_tests_cant": "row/column arithmetic over all sizes", "anchors": ["misc.c:print_columns"]}
{"id": "C49", "title": "Growing string buffers never overflow", "statement": "Appending any number of characters through the checked buffer operations never writes outside the allocation and keeps the accumulated text.", "quantifier": "every sequence of appends, any initial size", "why_tests_cant": "unbounded sequences; off-by-one only visible at exact boundaries", "anchors": ["expand.h:Xcheck", "expand.h:Xput", "misc.c:Xcheck_grow_"]}
{"id": "C50", "title": "Growing output strings never overflow", "statement": "Writing to an in-memory output stream keeps all the text and never writes outside the allocation.", "quantifier": "every initial size and sequence of writes", "why_tests_cant": "only particular size combinations overflow", "anchors": ["shf.c:shf_write", "shf.c:shf_putchar", "shf.c:shf_emptybuf"]}
{"id": "C51", "title": "Alias expansion terminates", "statement": "Expanding aliases of a command word always terminates, whatever aliases (also mutually recursive ones) are defined, and no alias is expanded inside its own expansion.", "quantifier": "every alias table and command word", "why_tests_cant": "alias tables can contain arbitrary cycles", "anchors": ["lex.c:yylex"]}
{"id": "C52", "title": "fc -s old=new substitutes the leftmost (or all) occurrences", "statement": "fc -s old=new command re-executes the command with the first occurrence (all non-overlapping occurrences with -g) of old replaced by new, and fails if old does not occur; it always terminates.", "quantifier": "every command text, old and new", "why_tests_cant": "overlapping occurrences, empty replacement, arbitrary text", "anchors": ["history.c:hist_replace"]}
{"id": "C53", "title": "NUL bytes are removed from input, nothing else", "statement": "Reading input containing NUL bytes gives the input with exactly the NUL bytes removed, in order.", "quantifier": "every byte string", "why_tests_cant": "in-place moves over arbitrary positions of NULs", "anchors": ["misc.c:strip_nuls"]}
{"id": "C54", "title": "Small integer arguments are parsed exactly or refused", "statement": "A numeric builtin argument is accepted exactly when it denotes an integer in the accepted range, and then with its exact value.", "quantifier": "every argument string", "why_tests_cant": "all strings", "anchors": ["misc.c:getn", "misc.c:bi_getn"]}
{"id": "C55", "title": "fc finds the most recent matching command", "statement": "fc with a string selects the most recent earlier command that begins with it (contains it, for ?string) and never the fc command itself; with a number it selects exactly the command of that number or refuses.", "quantifier": "every history and argument", "why_tests_cant": "all histories, sizes and search strings", "anchors": ["history.c:hist_get", "history.c:findhist"]}
{"id": "C56", "title": "Stripping a word removes the quotes only", "statement": "The name a function definition gets from its word is the text of the word without quotes, nothing more and nothing less removed.", "quantifier": "every encoded word", "why_tests_cant": "only particular words (substitutions, byte 0xFF) are affected", "anchors": ["tree.c:wdstrip", "syn.c:function_body"]}
{"id": "C57", "title": "A variable's value is never read at the wrong type", "statement": "A variable keeps either a string or an integer in one union. After any sequence of assignments, typeset, read, unset, arithmetic and array commands, a variable that is set and an integer holds an integer, and one that is set and not an integer holds a string whose value starts where its type field says; so printing it or passing it to a command never shows an address or stray memory.", "quantifier": "every sequence of variable commands in which no command that gives attributes fails half way", "why_tests_cant": "the stored representation depends on the whole history of attribute changes, and misreads only show as odd numbers", "anchors": ["var.c:typeset", "var.c:setstr", "var.c:setint_v", "var.c:str_val", "var.c:export"]}
{"id": "C58", "title": "Pathname expansion gives exactly the matching paths", "statement": "Expanding a word with pathname patterns replaces it by exactly the paths that match it component by component (names listed by the directories on the way that match the pattern; a leading dot only by an explicit dot; never . or ..; text after a pattern must exist, and be a directory if a slash follows), in ascending strcmp order and each once; if no path matches, by its own text with the quoting removed.  The path buffer is never overrun.", "quantifier": "every file system contents, every number of components and slashes, every component that is text or a well-formed pattern; the memory claim for every string", "why_tests_cant": "unbounded directory contents, path depths, name lengths and patterns", "anchors": ["eval.c:glob", "eval.c:glob_str", "eval.c:globit"]}
{"id": "C59", "title": "The vi line editor stays inside its buffers", "statement": "Whatever keys are typed and however lines are interrupted, the vi editing mode never reads or writes outside the line buffer, the undo buffer, the saved line, the yank buffer, the repeated text, the command and the search pattern; while a line is edited the cursor is in it and the line fits its buffer with one byte to spare, and in command mode the cursor is on a character or the line is empty.", "quantifier": "every session: any number of lines, keys, counts, history and initial buffer contents", "why_tests_cant": "unbounded key sequences; the buffers interact over many commands and lines", "anchors": ["vi.c:vi_hook", "vi.c:vi_insert", "vi.c:vi_cmd", "vi.c:domove", "vi.c:redo_insert", "vi.c:putbuf", "vi.c:del_range", "vi.c:findch", "vi.c:grabhist", "vi.c:grabsearch", "edit.c:x_do_comment"]}
{"id": "C60", "title": "A typed line is the text that its keys mean", "statement": "In vi insert mode, typing characters, literal characters (^V), and the erase, kill-line and erase-word keys, and then return, gives the shell exactly the text these keys mean: each character is added at the end of the line, erase takes the last character away with all its bytes, kill empties the line, erase-word takes away the last word and the white space after it, and keys that would make the line longer than its buffer are ignored. Nothing typed or edited before has an influence.", "quantifier": "every key sequence of these kinds, line length, previous session, buffer contents and history", "why_tests_cant": "key sequences of any length mixing insertion, multi-byte characters, three ways of erasing and a full buffer, after any earlier session", "anchors": ["vi.c:vi_insert", "vi.c:vi_hook", "vi.c:vi_reset", "vi.c:backword"]}
{"id": "C61", "title": "u takes back the last change of the line", "statement": "In vi mode, after a command that changes the line (with any counts and movement argument, whether it does something or fails), the text typed for it in insert or replace mode, and any movements after it, the command u brings back the text of the line and the cursor position from before the command; u again brings back the changed line and its cursor position.", "quantifier": "every line, command, count, movement, inserted keys (with erasing, completion and expansion), later movements and editor state", "why_tests_cant": "the undo copy must survive every key of every command; the number of combinations is unbounded", "anchors": ["vi.c:vi_cmd", "vi.c:vi_hook", "vi.c:vi_insert", "vi.c:domove", "vi.c:redo_insert", "vi.c:expand_word", "vi.c:complete_word"]}
{"id": "C62", "title": "cd, pwd and PWD agree with the directory the shell is in", "statement": "cd goes to the first directory, of those its arguments and CDPATH give, that chdir(2) accepts, and otherwise changes nothing. As long as the shell knows where it is, PWD (and what pwd and cd print) is an absolute path that names the directory the process is in, and OLDPWD is PWD as it was. Without -P the new path is the old one with the components of the argument applied to it; with -P it has no symbolic link, . or .. in it. cd - goes back. cd ends. A shell that is started with a PWD without superfluous components knows where it is.", "quantifier": "every file system (any directories and symbolic links), every kernel that answers truthfully but may refuse, every sequence of cd commands, CDPATH, PWD, OLDPWD and HOME", "why_tests_cant": "file systems with links, chains of links and sequences of cd commands are unbounded", "anchors": ["c_ksh.c:c_cd", "c_ksh.c:c_pwd", "path.c:make_path", "path.c:simplify_path", "path.c:get_phys_path", "path.c:set_current_wd", "main.c:main"]}
{"id": "C63", "title": "The emacs editor stays in its buffers", "statement": "While a line is edited in emacs mode, nothing outside the line buffer, the kill ring, the history and the key buffer is read or written, the cursor stays within the line and the line within the buffer, and no int overflows, provided that no state is reached in which the mark is beyond the line, the last command was a yank that did not fit, or the digits typed for an argument exceed INT_MAX. Each command ends when the keys do.", "quantifier": "every key sequence, macro, set of bindings, history, argument, completion result, kill ring left by earlier lines and number of commands", "why_tests_cant": "key sequences and histories are unbounded; the states that go wrong need combinations of mark, history and full buffers", "anchors": ["emacs.c:x_emacs", "emacs.c:x_delete", "emacs.c:x_search_hist", "emacs.c:x_meta_yank", "emacs.c:x_prev_histword", "emacs.c:x_set_arg"]}
{"id": "C64", "title": "Text that is typed, killed and yanked in emacs mode is kept exactly", "statement": "Text typed in emacs mode comes into the line at the cursor byte by byte, and a newline key gives the line to the shell. A kill command takes one piece out of the line (the word, rest of line, region or line that it names), and it becomes the first of at most 20 kills; no other command changes the kills; a yank after it restores the line. A yank and j yank-pops leave the j-th latest kill, counted around, at the cursor. Moving commands do not change the text; moving and deleting by one goes over a whole UTF-8 character.", "quantifier": "every line, cursor, kill ring, argument, text (valid UTF-8 or not) and number of yank-pops", "why_tests_cant": "the ring wraps after 20 kills; lines, texts and sequences are unbounded", "anchors": ["emacs.c:x_push", "emacs.c:x_kill", "emacs.c:x_yank", "emacs.c:x_meta_yank", "emacs.c:x_del_bword", "emacs.c:x_kill_region", "emacs.c:x_e_getu8", "emacs.c:x_insert", "emacs.c:x_newline"]}
{"id": "C65", "title": "A key sequence runs the function it is bound to", "statement": "When the keys of a binding are typed its function is run once, or its macro is read next, and what is not bound inserts itself. The bindings at startup, with any terminal's special characters, do not hide each other. bind changes the named keys and nothing else, if no other binding begins with them or is their beginning. What bind shows for keys denotes these keys.", "quantifier": "every table of bindings none of which begins another, every terminal setting, every bind command, every key sequence", "why_tests_cant": "tables, sequences and bind histories are unbounded", "anchors": ["emacs.c:x_emacs", "emacs.c:kb_add_string", "emacs.c:kb_match", "emacs.c:kb_encode", "emacs.c:kb_decode", "emacs.c:x_bind", "emacs.c:x_init_emacs", "emacs.c:x_emacs_keys"]}
{"id": "C66", "title": "Emacs commands for words, case, history, searches and comments", "statement": "forward-word and backward-word move over exactly the number of words asked for. The case commands change only the case of ASCII letters of that many words. The history commands show the line asked for, with the cursor at its end, or do nothing. Character searches go to the next or previous occurrence, around the ends of the line. Searching the history for a typed pattern shows the newest line that matches, with the cursor after its first match. The comment command puts a # before each line, and takes it back. prev-hist-word inserts the last or the numbered word of the last command.", "quantifier": "every line, cursor, argument, history, pattern", "why_tests_cant": "lines, histories and patterns are unbounded", "anchors": ["emacs.c:x_fword", "emacs.c:x_bword", "emacs.c:x_fold_case", "emacs.c:x_load_hist", "emacs.c:x_search_char_forw", "emacs.c:x_search_char_back", "emacs.c:x_search_hist", "emacs.c:x_comment", "emacs.c:x_prev_histword", "edit.c:x_do_comment"]}
{"id": "C67", "title": "MAILPATH is read as its entries and freed once", "statement": "Every value of MAILPATH is a colon-separated list of entries, each naming a file and, after an unquoted % (or, outside of posix mode, a ?), a message; \\% stands for %; an empty message is the default one, and entries without a file are skipped. There is one reading of each entry, and every file name not ending in a backslash can be written with any message. Assigning and unsetting MAILPATH again and again frees each saved value once, and nothing else, provided that in no value an entry without a file precedes one with a file.", "quantifier": "every value of MAILPATH, every sequence of assignments, unsets and checks, either mode", "why_tests_cant": "values and sequences are unbounded; a wrong free shows only at a later assignment, if at all", "anchors": ["mail.c:mpset", "mail.c:munset", "mail.c:mballoc", "var.c:setspec", "var.c:unsetspec"]}
{"id": "C68", "title": "New mail is announced once", "statement": "Of the prompts of an interactive shell, those look for mail that come at least MAILCHECK seconds after the last one that looked. Such a prompt announces a mailbox exactly if the file has contents, its time of change is not the one seen at the look before (or when MAILPATH or MAIL was assigned), and it has not been read since it was changed. With MAILPATH, MAIL is not looked at. No message may assign MAILPATH.", "quantifier": "every list of mailboxes, every series of prompts at any times, every history of the files", "why_tests_cant": "what is announced depends on the unbounded history of times and files", "anchors": ["mail.c:mcheck", "mail.c:mbset", "mail.c:mprintit", "mail.c:mcset", "main.c:629"]}
{"id": "C69", "title": "ulimit sets and shows the limits its options name", "statement": "ulimit with an unknown option or an operand changes and shows nothing and fails. Otherwise its options are carried out in order up to the first that fails: an option with a value sets the limit it names, and no other, to that many units (or to unlimited), soft or hard or both as the last of -S and -H says; an option without a value shows it in units, rounded down; -a then shows all limits; without arguments the file size is shown. For values and limits below 2^63 bytes.", "quantifier": "every argument vector, all limits, every kernel that accepts or refuses changes, every evaluation of expressions", "why_tests_cant": "argument vectors are unbounded, and each option acts on the limits left by the ones before", "anchors": ["c_ulimit.c:c_ulimit", "c_ulimit.c:set_ulimit", "c_ulimit.c:print_ulimit"]}
{"id": "C70", "title": "A tilde is replaced exactly where it may be, by the right directory, and nothing happens to the directory", "statement": "In a word of literal and quoted characters, an unquoted ~ at the start, right after the first unquoted = or (in assignments) right after an unquoted : is replaced, together with the name of unquoted characters after it (up to a slash, in assignments also a colon, or the end of the word), by the directory for the name, if there is one; a quoted tilde, a name with a quoted character, a tilde right after quotes and all other text stay as they are. The word stays one word: the directory is neither split nor taken as a file name pattern. ~, ~+ and ~- are HOME, PWD and OLDPWD if set; ~user is the directory the password file gave when it first knew the user.", "quantifier": "for all words of literals, escaped characters and quoted strings, all flags, all tables of directories, all sequences of look-ups", "why_tests_cant": "the combinations of quoting, =, : and / positions with names that exist or not are unbounded, and the state (tilde_ok, saw_eq) is carried through the whole word", "anchors": ["eval.c:676-711", "eval.c:1175-1209", "eval.c:1211-1234", "eval.c:1236-1258"]}
{"id": "C71", "title": "The shell goes by the values its special variables have", "statement": "PATH, IFS, TMPDIR, HISTCONTROL, MAIL and MAILPATH: after any assignments, unsets, local variables, assignments before commands, readonly attributes, errors, calls and returns of functions, the search path, the field separators, the directory for temporary files (only an absolute, usable one), the history control and the mailboxes in force are those for the values the visible variables have, or the default if unset. The search path never changes without the remembered locations of commands being forgotten. Excluded are a local variable without a value, the removal of a local variable that hides another, and a function that fails to end.", "quantifier": "all sequences of operations on all variables, any nesting of functions, all values", "why_tests_cant": "the setting is a copy kept up to date by each operation; it goes wrong only after particular sequences of nested locals, unsets, errors and returns", "anchors": ["var.c:setspec", "var.c:unsetspec", "var.c:global", "var.c:local", "var.c:setstr", "var.c:unset", "var.c:popblock"]}
{"id": "C72", "title": "SECONDS, RANDOM and LINENO", "statement": "Whatever else is done in between, SECONDS gives the number last assigned to it (0 at the start) plus the whole seconds gone by since, rounded down; RANDOM gives numbers from 0 to 32767, and the k-th since an assignment depends on the number assigned (modulo 2^32) and k only; LINENO gives the current line, and after an assignment counts so that the line after it has the number assigned. Excluded: making the variable local, readonly or unset; values beyond the range of the integers.", "quantifier": "all sequences of operations on other variables, calls, returns, and readings; all times, all line numbers, all numbers assigned", "why_tests_cant": "the values depend on time, on the number of readings and on everything that happened since the assignment", "anchors": ["var.c:getspec", "var.c:setspec", "var.c:setint", "var.c:popblock"]}
{"id": "C73", "title": "Completion of the word at the cursor", "statement": "In the emacs editor: from every place in a word written with backslashes (and not preceded by a backslash and a separator) the whole of it is found (never outside of the line), and it is a command exactly if it follows the start of the line or an operator and has no slash. Offered are for a command the commands, otherwise the elements of the array complete_NAME_N or else complete_NAME that start with the word, and else files. With room in the line, names without newline and tilde, and blanks in IFS, the word is replaced by the only name, or by the longest text all names start with if it is longer than the word as written, in such a way that the shell reads it as one word that stands for exactly this text, with a blank after the only name unless it ends in a slash; everything else in the line stays and the word can be completed again. The word is looked up as a prefix unless it has a wildcard or parameter or names a user.", "quantifier": "all lines, cursor positions, words, sets of names, arrays and contents of IFS; all continuations of the line", "why_tests_cant": "quoting, position in the line, and the names that exist combine without bound; a test sees a few file names", "anchors": ["edit.c:x_locate_word", "edit.c:x_try_array", "edit.c:x_cf_glob", "edit.c:add_glob", "edit.c:x_longest_prefix", "edit.c:x_basename", "edit.c:x_escape", "emacs.c:do_complete"]}
{"id": "C74", "title": "The prompt", "statement": "The prompt prints the meaning of each of its pieces (bytes, ! and !!, \\ddd, \\D{format}, the letters of the manual; for sh only \\h and \\$), one after the other, and nothing else is read but the text, unless it ends in \\D or \\l is used without a terminal. Without tabs and newlines its width is the number of bytes outside of \\[ \\] and of delimiters. What is printed again is the text after the last newline, and prints the end of the whole. A prompt cut off by n bytes lacks the first n bytes and nothing else if there is no \\[. \\$ is replaced everywhere before.", "quantifier": "all prompts, all values of the surroundings (time, host, user, directories, numbers), all widths to cut off", "why_tests_cant": "prompts combine escapes, octal numbers, formats, delimiters and history numbers without bound; overreads are not visible", "anchors": ["lex.c:dopprompt", "lex.c:pprompt", "lex.c:promptlen", "lex.c:special_prompt_expand"]}
{"id": "C75", "title": "Signals by name and number: kill and trap", "statement": "A word is taken for signal n exactly when it is its decimal number below NSIG or its name, with or without SIG (in any case, except for the first operand of trap). kill sends the signal asked for (SIGTERM if none) with one kill or killpg per process, group or job named, in the order of the operands, goes on after failures and returns 0 exactly when all went well; a stopped job is continued before TERM or HUP; nothing is sent when an option, the signal or the usage is wrong. kill -l shows each signal once with number, name and message, and the name for a number or exit status. trap sets or resets exactly the conditions named before the first wrong one, and what trap lists sets the same traps again.", "quantifier": "all argument lists, all job lists, all answers of the kernel, all signal messages, all sets of traps, all terminal widths", "why_tests_cant": "The words that name a signal, the argument lists and the states of the jobs are unbounded, and failures of kill(2) depend on other processes.", "anchors": ["trap.c:gettrap", "trap.c:inittraps", "c_ksh.c:c_kill", "c_ksh.c:kill_fmt_entry", "jobs.c:j_kill", "jobs.c:kill_job", "jobs.c:j_lookup", "c_sh.c:c_trap"]}
{"id": "C76", "title": "The select command", "statement": "The menu of select shows each word exactly once after its number, with the numbers right-aligned and nothing cut off, within the width of the terminal if the longest entry fits. It is printed before the first question, after an empty answer and when REPLY is empty; PS3 is printed before every question. A line is read into REPLY as by read -r; an answer that is the number of a word gives the variable that word, any other answer that is not empty gives it the empty string, and then the list is executed; an empty answer is asked again without executing it. The loop ends exactly with break (status 0), the end of the input, a signal or a read-only REPLY (status 1), or what leaves the list otherwise.", "quantifier": "all lists of fewer than 2^31-1 words, all inputs (bytes, ends, signals), values of IFS, REPLY and PS3, all behaviours of variables and of the list, terminal widths", "why_tests_cant": "dialogues are unbounded sequences of answers, and the list may change the variables and read from the same input", "anchors": ["exec.c:execute", "exec.c:do_selectargs", "exec.c:pr_menu", "exec.c:select_fmt_entry"]}
{"id": "C77", "title": "What whence, type and command -v say", "statement": "For every name the long form (type, whence -v, command -V, which are the same) prints one line that says what the name means: a reserved word, an alias (with its quoted value), a builtin, a function (with its attributes and the file it is loaded from), a file, a tracked alias or nothing; the meaning is the one the name has as a command, a name has only one, and the status is 0 exactly if all names mean something. The short form (whence, command -v) prints the name, the alias or the file and ends at the first name that means nothing, with status 1. whence -p looks for files only, command -p along the standard path. No null pointer is used.", "quantifier": "all names, keyword, alias and function tables, tracked aliases, PATH values, files and directories, options", "why_tests_cant": "the answer depends on all tables and all files at once, and on tracked aliases left by earlier lookups", "anchors": ["c_ksh.c:c_whence", "c_ksh.c:c_command", "c_ksh.c:c_type", "exec.c:findcom"]}
{"id": "C78", "title": "alias and unalias", "statement": "After any commands alias and unalias: name=value gives the name exactly that value (with -t no value), -x and +x mark it, -t name gives it the file the search finds, a name alone is shown, and every other alias keeps its value and mark; the status is 0 exactly if no alias to be shown is missing. Without arguments each alias with a value (with -x: each marked one) is listed once, in the order of the names. unalias removes exactly the names given (-a: all), with status 0 exactly if all were in the table; alias -t -r forgets all. No value is freed twice or read after it is freed, and none is lost: the blocks in use are exactly the values of the aliases. A line that is listed is read back as the same argument if the name has no special character and the value is one that C21 covers.", "quantifier": "all sequences of commands, names, values, options and results of the search", "why_tests_cant": "tables and histories are unbounded; a double free or a leak shows only in certain orders of setting, marking and removing", "anchors": ["c_ksh.c:c_alias", "c_ksh.c:c_unalias", "table.c:ktenter", "table.c:ktsort"]}
{"id": "C79", "title": "times and time", "statement": "times prints the user and system time of the shell and of its children; time prints, for a command, the real time that passed and the user and system time used by the shell for it and by the job waited for, and without a command the sums for the shell and its children. Every duration is printed exactly, cut to hundredths of a second: minutes, two digits of seconds and two of hundredths, or with -p seconds and two digits of hundredths, right-justified in five places for time; carries and borrows between seconds and fractions are right, a duration has only one text, and nothing is undefined. Of the words after time the options are taken off: -p is known iff it was given, an unknown option ends the command with a message naming it, the words that follow the options are what is executed, and the others are freed, each once, with no access outside the vector.", "quantifier": "all clock values below 2^60 seconds whose fractions are in range, clocks that do not go backwards; all lists of words", "why_tests_cant": "carries, borrows and widths depend on the exact clock values, which tests cannot choose", "anchors": ["c_sh.c:p_tv", "c_sh.c:p_ts", "c_sh.c:c_times", "c_sh.c:timex", "shf.c:shf_vfprintf", "c_sh.c:timex_hook"]}
