{"id": "C01", "title": "Unescaped character search finds the first live occurrence", "statement": "Looking for a character in a command line returns the first position holding that character that is not neutralised by '^' (an occurrence is neutralised exactly when a left-to-right reading of the line, where each '^' protects the next character, protects it), and reports 'none' exactly when there is no such position.", "quantifier": "every byte string, every searched character other than '^'", "why_tests_cant": "Runs of '^' of arbitrary length, matches after failed matches and matches at the ends form an unbounded input space.", "anchors": ["libpbat/cmdlib/pBat_String.c: pBat_SearchChar"]}
{"id": "C02", "title": "Unescaped set search finds the first live occurrence", "statement": "Looking for any character out of a set returns the first position holding a member of the set that is not protected by '^', or 'none' if no such position exists; and 'last' variant returns the last such position.", "quantifier": "every byte string, every set of characters not containing '^'", "why_tests_cant": "Same unbounded space, multiplied by the choice of set.", "anchors": ["libpbat/cmdlib/pBat_String.c: pBat_SearchToken, pBat_SearchLastToken, pBat_SearchLastChar"]}
{"id": "C03", "title": "Removing escapes inverts adding escapes", "statement": "Unescaping removes exactly one protecting '^' per protected character: for any text, putting a '^' in front of any chosen subset of characters that includes every '^' and then unescaping gives the text back; text without '^' is unchanged; the result is never longer than the input.", "quantifier": "every text and every choice of characters to protect", "why_tests_cant": "Round trip over all texts and all escape choices.", "anchors": ["libpbat/cmdlib/pBat_String.c: pBat_UnEscape, pBat_GetNextNonEscaped"]}
{"id": "C04", "title": "Searches outside quotes never report a quoted or escaped position", "statement": "Looking for a character or set outside quotes returns the first position that is unescaped and lies after an even number of unescaped double quotes, or 'none' if there is none.", "quantifier": "every byte string, every searched set not containing '\"' or '^'", "why_tests_cant": "Arbitrary interleavings of quotes, escapes and candidates.", "anchors": ["libpbat/cmdlib/pBat_String.c: pBat_SearchChar_OutQuotes, pBat_SearchToken_OutQuotes, pBat_SearchToken_Hybrid"]}
{"id": "C05", "title": "Growable strings never overrun their buffer", "statement": "After any sequence of copy, bounded copy, concatenate, bounded concatenate and replace operations on a growable string, the text (with its terminator) fits in the recorded capacity, each operation writes only inside the capacity in force when it writes, and the text equals the one produced by the same operations on ideal unbounded strings.", "quantifier": "every finite sequence of string operations with arbitrary operands", "why_tests_cant": "Buffer growth depends on the accumulated history of lengths; tests sample a few lengths.", "anchors": ["libpbat/estr/pBat_Estr.c: pBat_EsInit, pBat_EsCpy, pBat_EsCpyN, pBat_EsCat, pBat_EsCatN, pBat_EsCpyE, pBat_EsCatE, __fast_compute_size"]}
{"id": "C06", "title": "Replace-all replaces every non-overlapping occurrence, left to right", "statement": "Replacing a non-empty pattern in a string rewrites exactly the leftmost non-overlapping occurrences, never rescans inserted text and terminates; with an empty pattern the operation never terminates (so '%v:=x%' hangs the interpreter).", "quantifier": "every string, pattern and replacement", "why_tests_cant": "Self-overlapping patterns and replacements containing the pattern; non-termination cannot be observed by a finite test.", "anchors": ["libpbat/estr/pBat_Estr.c: pBat_EsReplace", "pbat/core/pBat_Var.c: pBat_GetVar"]}
{"id": "C07", "title": "Line reading delivers each input line once, whatever its length", "statement": "Reading lines from a stream returns, in order, each line of the stream up to and including its line feed (line endings normalised to a single line feed), whatever the line length compared with the buffer capacity, and then reports end of file; no byte is lost or duplicated between successive reads.", "quantifier": "every byte stream without NUL and every initial capacity", "why_tests_cant": "Line lengths around every power-of-two capacity boundary; whole histories of reads.", "anchors": ["libpbat/estr/pBat_Estr.c: pBat_EsGet"]}
{"id": "C08", "title": "String cache never hands out a buffer that is in use", "statement": "For any interleaving of acquire and release requests by an instance, two buffers held at the same time are distinct, a released pool slot becomes available again, an acquired buffer starts out empty, and when all pool slots are busy a fresh buffer is returned.", "quantifier": "every finite history of acquire/release in which only held buffers are released", "why_tests_cant": "The bitmap state space is 2^128 and depends on history.", "anchors": ["pbat/core/pBat_EsCache.c: pBat_EsCacheBuild, pBat_EsCacheInit, pBat_EsCacheFree"]}
{"id": "C09", "title": "Command table: every registered command is found, whatever was registered before", "statement": "After registering any sequence of commands (first registration of a name wins, later ones with the same name ignoring case change nothing), looking up any line terminates without reading out of bounds and only selects a command whose name starts the line, ignoring case, followed by a delimiter if the command needs one. A registered name followed by a delimiter is found whenever the delimiter sorts before the next character of every longer registered name; all built-in commands are found before every delimiter, except 'GOTO;label'. Registering a command never changes a lookup that succeeded.", "quantifier": "every registration sequence, every command line", "why_tests_cant": "Tree shape depends on registration order; prefix-related names interact.", "anchors": ["libpbat/cmdlist/pBat_CmdList.c: pBat_AddCommandDynamic, pBat_GetCommandProc"]}
{"id": "C10", "title": "Rebuilding the command table preserves it", "statement": "Rebuilding (rebalancing) the command table after a definition keeps exactly the same set of commands with the same actions, and the rebuilt table is a search tree; tables of two or three commands are the exception (they are dropped entirely).", "quantifier": "every command table", "why_tests_cant": "Midpoint recursion must visit each index exactly once for every size.", "anchors": ["libpbat/cmdlist/pBat_CmdList.c: pBat_ReMapCommandInfo, pBat_MapCommandInfo, _pBat_PutSeed, _pBat_FillInfoFromList"]}
{"id": "C11", "title": "Wildcards: a match is always justified", "statement": "If the wildcard matcher accepts a name then the name matches the pattern in the usual sense ('?' one character, '*' any run), provided no '?' directly follows '*' in the pattern and, in UTF-8 mode, the pattern is ASCII. Without the first proviso the matcher accepts wrong names; without the second it compares only the first byte of a character. Matching always ends.", "quantifier": "every pattern and every name", "why_tests_cant": "All patterns against all names.", "anchors": ["libpbat/dir/pBat_Dir.c: pBat_RegExpMatch, pBat_RegExpCaseMatch, pBat_SeekPattern, pBat_EndWithPattern"]}
{"id": "C12", "title": "Wildcards: which matches are found", "statement": "For patterns in which no '?' occurs after a '*', the matcher accepts exactly the names that match in the usual sense, except that a trailing '*' must stand for at least one character. For patterns with '?' after '*' it can miss valid matches.", "quantifier": "every pattern without '?' after '*' and every name", "why_tests_cant": "Completeness of a greedy algorithm over all inputs.", "anchors": ["libpbat/dir/pBat_Dir.c: pBat_RegExpMatch, pBat_RegExpCaseMatch"]}
{"id": "C13", "title": "Splitting a file list by attributes is a partition", "statement": "Splitting a file list by an attribute test yields the matching files and the non-matching files, each in original order, with every file in exactly one of the two lists.", "quantifier": "every file list and attribute mask", "why_tests_cant": "In-place pointer relinking over lists of any length and any match pattern.", "anchors": ["libpbat/dir/pBat_Attr.c: pBat_AttributesSplitFileList, pBat_CheckFileAttributes, pBat_MakeFileAttributes"]}
{"id": "C14", "title": "Substring expansion gives the exact slice, cut at character boundaries", "statement": "If %v% expands to a text of N UTF-8 characters, '%v:~b,l%' expands to the characters from b (N+b if b is negative) up to b+l (N+l if l is zero or negative, or missing) when both ends lie in the text and the start is not after the end, and to nothing otherwise. There is no clipping: a length reaching past the end gives nothing. One documented case is not honoured: with b negative, l positive and N+b < l the result is empty although the slice exists. Lengths such that start plus length overflows an int are undefined.", "quantifier": "every variable, value not starting in the middle of a character, begin and length whose arithmetic does not overflow int", "why_tests_cant": "All value lengths, byte patterns and signed offsets.", "anchors": ["pbat/core/pBat_Var.c: pBat_GetVar, pBat_CountU8Chars, pBat_SkipU8Chars"]}
{"id": "C15", "title": "Variable expansion leaves the environment unchanged", "statement": "Expanding a variable reference in any form (plain, replace, substring, default) never changes the stored value of any variable nor the current directory.", "quantifier": "every environment and every reference text", "why_tests_cant": "The value is edited in place during substring extraction; must be restored on every path.", "anchors": ["pbat/core/pBat_Var.c: pBat_GetVar"]}
{"id": "C16", "title": "The environment is a case-insensitive map", "statement": "After any sequence of assignments and removals, reading a variable by name (any letter case) returns the most recent value assigned to it, or nothing if never assigned, assigned empty, or removed since; operations on one name never affect another; blanks after the name are ignored when a value is assigned. Two exceptions are proved: an empty assignment to a name followed by a blank removes nothing, and once a variable was removed a lookup can miss a variable that exists if the memory addresses of the names do not all have the same bit 31.", "quantifier": "every history of set/unset/get, every starting table, all name addresses of one sign", "why_tests_cant": "Sorted-array insertion, slot reuse and growth depend on the entire history.", "anchors": ["pbat/core/pBat_Env.c: pBat_SetEnvEx, pBat_SetEnv, pBat_UnSetEnv, pBat_GetEnv, pBat_AllocEnvVar"]}
{"id": "C17", "title": "The environment table stays sorted and duplicate free", "statement": "The table of variables is strictly sorted ignoring case, never contains two entries for one name, and its count never exceeds its capacity: at the start (when the process environment has no two names equal ignoring case), after any sequence of assignments and removals, in the copy made by SETLOCAL, and through any nesting of procedure calls. With name addresses of both signs the comparison is cyclic and no such order exists (proved).", "quantifier": "every history of environment operations", "why_tests_cant": "Invariant over histories.", "anchors": ["pbat/core/pBat_Env.c: pBat_SetEnvEx, pBat_UnSetEnv, pBat_ReAllocEnvBuf"]}
{"id": "C18", "title": "SETLOCAL/ENDLOCAL restore the variables", "statement": "Whatever happens between SETLOCAL and the matching ENDLOCAL (assignments, removals, procedure calls, nested pairs), the environment after ENDLOCAL is the one before SETLOCAL; SETLOCAL itself changes no variable; ENDLOCAL without SETLOCAL changes nothing; leaving a script without ENDLOCAL undoes all of them.", "quantifier": "every balanced history of environment operations", "why_tests_cant": "Arbitrary nesting and arbitrary operations in between.", "anchors": ["pbat/core/pBat_EnvStack.c: pBat_PushEnvStack, pBat_PopEnvStack", "pbat/command/pBat_Setlocal.c: pBat_CmdSetLocal, pBat_CmdEndLocal", "pbat/core/pBat_Env.c: pBat_EnvDup"]}
{"id": "C19", "title": "SETLOCAL options and ENDLOCAL", "statement": "After ENDLOCAL the delayed-expansion and compatibility switches are those in force just after the options of the matching SETLOCAL were obeyed: they are restored when that SETLOCAL had no such option, whatever was done in between, but the options of a SETLOCAL are not undone by its ENDLOCAL (a violation of the documented behaviour, proved).", "quantifier": "every option list and every prior state", "why_tests_cant": "Requires relating two states over an arbitrary history in between.", "anchors": ["pbat/command/pBat_Setlocal.c: pBat_CmdSetLocal", "pbat/core/pBat_EnvStack.c: pBat_PushEnvStack, pBat_PopEnvStack"]}
{"id": "C20", "title": "Procedure-local variables are restored on procedure exit", "statement": "When a DEF procedure returns, every '_'-prefixed variable has the value it had at the call unless it was marked inherited with 'set /x' (then it has the value the procedure left), new '_' variables are gone, and other variables keep the values the procedure gave them, at any depth of nested calls. This holds when all variable names start with '_', a capital letter or a byte above 127; the code violates it in the other cases, after a marked variable was removed, and when SETLOCAL/ENDLOCAL pairs straddle a procedure boundary (each proved).", "quantifier": "every environment, every sequence of operations in the procedure, every nesting depth", "why_tests_cant": "Depends on shadow chains built by nested calls.", "anchors": ["pbat/core/pBat_Env.c: pBat_PushEnvLocals, pBat_PopEnvLocals, pBat_EnvCompLocal", "pbat/core/pBat_Run.c: pBat_RunCommand"]}
{"id": "C21", "title": "Parameter splitting always progresses and loses nothing", "statement": "Every line is either blank (blanks are space, tab, comma, semicolon and newline), and then has no parameter, or is a run of blanks, a nonempty parameter that reaches to the first unescaped separator outside quotes (or to the end), and a rest that is returned untouched; the parameter loses the quotes around it and is expanded. A lone ^ at the end of the line is no parameter. Reading parameters written one after the other with blanks between them gives them in order, splitting ends, and the buffer version truncates to the buffer size. Exceptions: lists of parameters are expanded twice (an escaped ^ is lost), a protected quote before a separator is removed, and with separators that are no blanks a parameter can be empty without progress.", "quantifier": "every line, set of separators, state of variables and buffer size", "why_tests_cant": "Quotes and escapes in any combination.", "anchors": ["pbat/core/pBat_Args.c: pBat_GetParameterPointers, pBat_GetNextParameter, pBat_GetNextParameterEsD"]}
{"id": "C22", "title": "Quoting protects a parameter", "statement": "A value written between double quotes is read back as a single parameter equal to the value whatever separators it contains; quotes, ^ and expansion signs in it need a ^ before them. Without quotes, separators need a ^ too. So every text, with a ^ before each character, can be passed as one parameter in every state.", "quantifier": "every value, way of writing it, text around it and state of variables, delayed expansion on or off", "why_tests_cant": "Round trip over all values.", "anchors": ["pbat/core/pBat_Args.c: pBat_GetNextParameterEsD, pBat_GetParameterPointers"]}
{"id": "C23", "title": "Command separators are recognised only outside quotes and blocks", "statement": "Splitting a line at '&', '&&', '|' and '||' either reports malformed blocks or only cuts it: putting each connective back before its command gives the line back, whatever the line. Commands joined by operators are found again, in order, each with its connective; operators between quotes, escaped or inside a parenthesised block do not count, nor does the '&' of a redirection such as 2>&1. Exceptions: once the line had a block every parenthesis outside quotes counts as a block, also behind ECHO; and a '&' behind an escaped '>' is no operator.", "quantifier": "every line; every list of commands, with and without blocks, and every choice of operators", "why_tests_cant": "All nestings of quotes, escapes, blocks and operators.", "anchors": ["pbat/core/pBat_Parse.c: pBat_ParseOperators, pBat_ParseLine"]}
{"id": "C24", "title": "Conditional chains run exactly the right commands", "statement": "In a line of ordinary commands joined by '&', '&&', '||' and '|', a pipeline after '&&' runs iff the previous outcome was success, after '||' iff it was failure, after '&' always; skipped pipelines start nothing and leave the outcome unchanged; the left sides of a pipe are started in order, each reading from the one before, and the last command reads from the last pipe; each command gets the streams its redirections ask for; the outcome is that of the last command run; after a command that abandons the line (GOTO, EXIT) no command runs. The code violates it in these cases: after IF or FOR the outcome is success whatever they ran; IF on the right of a pipe never runs its command; left sides of a following pipe are started after GOTO; an IF repeated by FOR loses its condition once it has been true.", "quantifier": "every line, every command outcome, every nesting of streams around it", "why_tests_cant": "All chain lengths, operator sequences and outcomes.", "anchors": ["pbat/core/pBat_Run.c: pBat_ExecOperators, pBat_RunParsedLine, pBat_RunCommand, pBat_RunLine", "pbat/command/pBat_If.c: pBat_CmdIf"]}
{"id": "C25", "title": "Redirections are undone after the command", "statement": "A command with any combination of redirections has its streams where they say (a file that cannot be opened changes nothing); after it has run, the three standard streams refer to what they referred to before, and every duplicated descriptor has been closed. The same holds after any line, with blocks, IF, FOR and pipes nested in any way. Inside a block redirected by '2>&1' the code does not do what redirections say: '> f' also sends the errors to f.", "quantifier": "every nesting of redirections, including redirections that fail to open, every command behaviour", "why_tests_cant": "Arbitrary nesting and failure points.", "anchors": ["pbat/core/pBat_Stream.c: pBat_OpenOutput, pBat_OpenOutputD, pBat_PopStreamStack, pBat_PopStreamStackUntilLock", "pbat/core/pBat_Run.c: pBat_ExecOutput, pBat_RunParsedLine, pBat_RunBlock"]}
{"id": "C26", "title": "FOR /L visits start, start+step, ... up to end", "statement": "For every FOR /L with at most three numbers in its list (decimal, octal or hexadecimal, signed; missing ones are 0): with a positive step the body is run for start, start+step, ... while not beyond the end, in order, each time with the variable set to the decimal text, until a turn leaves; then the variable is forgotten, the streams are those of before and the exit code is 0. With start beyond the end nothing is run, whatever the step (so counting down is not supported). With a step of 0 or below and start not beyond the end, or when the number after the last value is above the range of int, the loop does not end unless the body leaves. With more than three numbers nothing is run and the exit code is 24.", "quantifier": "every start, step, end, body, state and outcome of the commands", "why_tests_cant": "All integer triples and bodies; non-termination is not observable by tests.", "anchors": ["pbat/command/pBat_For.c: pBat_CmdForL", "pbat/command/pBat_For.c: pBat_CmdFor"]}
{"id": "C27", "title": "FOR /F selects the requested words", "statement": "For every option text made of tokens= (items n, n-m, n.m, n.*, n* and *, numbers in decimal, octal or hexadecimal, blanks allowed), delims=, eol=, skip= and usebackq, FOR /F understands the options in order, and gives to successive variables the words of the line that were asked for, words being the maximal runs of characters that are not delimiters; a range that passes the last word goes to the end of the line; other variables keep their values; more than 96 ranges and texts that are no options are errors. Two exceptions: even numbers of the first range are raised by one (tokens=2 gives the third word), and variables that wrap around after DEL are not forgotten after the loop.", "quantifier": "every line, delimiter set, option text and starting variable", "why_tests_cant": "All specifications against all lines.", "anchors": ["pbat/command/pBat_For.c: pBat_ForMakeInfo, pBat_ForGetSpecifier, pBat_ForMakeTokens, pBat_ForSplitTokens, pBat_ForGetToken, pBat_ForVarUnassign"]}
{"id": "C28", "title": "GOTO finds the first matching label", "statement": "GOTO looks for the name it is given, with or without ':', in the running script or in the file of /F. It goes on with the commands behind the first label that starts with that name, in any case, followed by a blank or the end of the line; ':EOF' ends the script. In another file, a missing label is an error and changes nothing. Exceptions: a label missing from the running script frees an uninitialised structure; names of files that differ by case only are taken for one; with CMDLYCORRECT indented labels are not found (others are).", "quantifier": "every script, state, option list and label name", "why_tests_cant": "All scripts, all positions and all spellings of names.", "anchors": ["pbat/core/pBat_Jump.c: pBat_JumpToLabel, pBat_JumpToLabel_Cmdly", "pbat/command/pBat_Goto.c: pBat_CmdGoto", "pbat/core/pBat_ReadScript.c: pBat_LoadBatchScript"]}
{"id": "C29", "title": "Script loading keeps commands and labels in order", "statement": "Loading a script yields its lines in order without leading blanks, without blank lines, comments ('::'), a first '#!' line and labels; each label is attached to the place between the commands that surround it. This holds from the bytes of the file on, whatever the line lengths.", "quantifier": "every file without NUL", "why_tests_cant": "All scripts.", "anchors": ["pbat/core/pBat_ReadScript.c: pBat_LoadBatchScript"]}
{"id": "C30", "title": "Parameters of scripts: passing and SHIFT", "statement": "A script, or a label, that is called gets the parameters of the line in order: %1 ... %9 and the others in %+, whatever blanks and quotes they contain. 'SHIFT /n /d:k' removes k parameters at position n from the whole list, everything behind moves up, surplus parameters fill the freed positions in order, positions without parameter are empty, and nothing else changes; so repeated SHIFT visits all parameters, however many. With any other option nothing changes and the error level is 4. Exceptions, proved: at most 10-n parameters are removed ('/5 /d:9' removes five); '/7' is documented but refused; surplus parameters which are empty are lost and '^' in them is lost when they are shifted in.", "quantifier": "every list of parameters, line, start and displacement", "why_tests_cant": "All combinations of parameter lists of any length, contents, start, displacement and repeated shifts.", "anchors": ["pbat/command/pBat_Shift.c: pBat_CmdShift", "pbat/command/pBat_Call.c: pBat_CmdCallFile", "pbat/init/pBat_Init.c: pBat_AssignCommandLine, pBat_GetParameters"]}
{"id": "C31", "title": "EXIT returns the requested code", "statement": "'EXIT /B n' with nothing behind it ends the current level with the code n, for every int, and without n keeps the error level; 'EXIT' ends the interpreter with the error level. The code violates what is documented in two ways, proved for all n: 'EXIT n' ends the interpreter with code 0, and 'EXIT /B n' followed by a blank (as in 'exit /b 1 & ...' or '(exit /b 1 )') is an error that does not end the level.", "quantifier": "every integer n, all blanks, both forms", "why_tests_cant": "All n, both forms, all spacings.", "anchors": ["pbat/command/pBat_Exit.c: pBat_CmdExit"]}
{"id": "C32", "title": "IF expressions follow boolean logic", "statement": "A bracketed IF expression has the boolean value of its tests combined by AND and OR (AND binds less than OR, brackets group, case of the words is free), whatever the switches /i and NOT before it; the tests have the values that IF gives to them without brackets; what follows the closing bracket is run or skipped accordingly. Exception: as soon as the left side of an AND is true, the result is read from a variable that was never set. Expressions without operand may read freed memory.", "quantifier": "every expression tree, valuation of tests, state of the variables", "why_tests_cant": "All expression trees.", "anchors": ["pbat/command/pBat_IfExp.c: pBat_IfExp_Compute, pBat_IfExp_ParseLine, pBat_IfExp_Parse, pBat_IfExp_Cut, pBat_IfExp_SuppressBrackets, pBat_IfExp_Evaluate, pBat_IfExp_ExecuteTest", "pbat/command/pBat_If.c: pBat_CmdIf"]}
{"id": "C33", "title": "IF NOT negates", "statement": "'IF NOT cond' runs its branch exactly when 'IF cond' would not, when the condition is EXIST, DEFINED, ERRORLEVEL or a==b, with or without /i. For the comparisons EQU, NEQ, LSS, LEQ, GTR, GEQ and for expressions between brackets the code ignores NOT.", "quantifier": "every condition and state of the variables", "why_tests_cant": "All conditions.", "anchors": ["pbat/command/pBat_If.c: pBat_CmdIf, pBat_PerformExtendedTest"]}
{"id": "C34", "title": "Splitting a path and gluing it back", "statement": "Splitting a path without drive into directory, name and extension gives parts whose concatenation is the path: the directory ends with the last path separator (slash or backslash) not protected by '^', the extension starts at the last unprotected dot of the rest. With a drive letter the separator after the drive belongs to no part; a path of 4096 characters or more overruns the fixed buffers' terminator.", "quantifier": "every path within the size limits", "why_tests_cant": "All paths.", "anchors": ["pbat/core/pBat_SplitPath.c: pBat_SplitPath"]}
{"id": "C35", "title": "Directory canonicalisation", "statement": "Changing to an existing directory leaves a current directory without empty, '.' and '..' components or trailing separator, whose components are those got by walking the path (from the current directory if it is relative). It can be empty instead of the root ('/a/..'), and '..' at the root drops everything after it. A failing change leaves the current directory alone and only happens if the directory does not exist; but a missing absolute directory is looked for in the current directory too.", "quantifier": "every current directory, path and set of existing directories", "why_tests_cant": "All component sequences.", "anchors": ["pbat/command/pBat_Cd.c: pBat_Canonicalize, pBat_SetCurrentDir"]}
{"id": "C36", "title": "PUSHD/POPD restore directories in reverse order", "statement": "A PUSHD, any sequence of directory changes and nested PUSHD/POPD blocks, and a POPD give back the initial current directory and stack if that directory is in normal form and exists; the stack is given back in any case; POPD on an empty stack changes nothing. From the empty current directory which CD .. can leave, POPD does not restore it.", "quantifier": "every balanced history with existing directories", "why_tests_cant": "Arbitrary nesting.", "anchors": ["pbat/core/pBat_DirStack.c: pBat_PushDir, pBat_PopDir", "pbat/command/pBat_Pushd.c: pBat_CmdPushd, pBat_CmdPopd"]}
{"id": "C37", "title": "Program lookup order", "statement": "Resolving a program name tries, for the name seen from the current directory and then (names without a separator only) for its join to each PATH entry in order, each PATHEXT extension in order and then the bare name, and gives the first existing file, cut to the size of the buffer. A last empty PATH entry does not count.", "quantifier": "every PATH, PATHEXT, name and file system", "why_tests_cant": "All search paths and file systems.", "anchors": ["pbat/core/pBat_FilePath.c: pBat_GetFilePath, pBat_GetPathNextPart, pBat_MakePath"]}
{"id": "C38", "title": "WC counts exactly, however the reads cut the text", "statement": "For every text and every way in which successive reads deliver it, WC counts the number of line feeds, bytes, UTF-8 characters and words (modulo 2^64) of the text; with file names it prints one row per readable file in order, and the sums in a row \"Total\" when more than one file is named, and returns an error if some file cannot be read; when only bytes are wanted it prints the sizes of the files; an unknown option or a name that matches nothing makes it print no counts and fail. Exceptions: a last word that no separator follows is never counted, and WC without options or names prints an empty line in place of the bytes of its input.", "quantifier": "every byte stream, every chunking, every list of files and options", "why_tests_cant": "All chunk boundaries, all contents and all parameter lists.", "anchors": ["pbat/command/pBat_Wc.c: pBat_CmdWc, pBat_FileCounts, pBat_AddCounts, pBat_PrintCounts"]}
{"id": "C39", "title": "Prompt strings", "statement": "Printing a prompt copies text outside of '$' codes verbatim and replaces each '$' code, in any case, by what it stands for ('$P' the current directory, '$+' one '+' for each pushed directory, '$Xbf;' the escape sequence that sets the colours, '$$' a '$', ...); unknown codes and a lone trailing '$' print nothing; PECHO prints its expanded text that way with a new line; PROMPT stores its text, or \"$P$G\" if there is none. Exceptions: a colour code without ';' swallows the character behind '$X', even the '$' of the next code, and PECHO with nothing behind it reads past the end of the line.", "quantifier": "every prompt string, every state of the interpreter", "why_tests_cant": "All strings in all states.", "anchors": ["pbat/core/pBat_Prompt.c: pBat_OutputPromptString, pBat_OutputPrompt", "pbat/command/pBat_Pecho.c: pBat_CmdPecho", "pbat/command/pBat_Pecho.c: pBat_CmdPrompt"]}
{"id": "C40", "title": "Device names", "statement": "NUL, CON, PRN, LPTn and COMn (any case, n from 1 to 11) are mapped to the corresponding device; names not starting like a device, port numbers from 0 to INT_MAX out of that range and names with any character that cannot be in a number after LPT or COM are left untouched. Numbers beyond the range of int are cut: COM4294967297 is the first port.", "quantifier": "every name", "why_tests_cant": "All names.", "anchors": ["pbat/core/pBat_OsStream.c: _pBat_GetOsStreamName"]}
{"id": "C41", "title": "Trimming removes exactly the blanks", "statement": "Trimming the end (resp. the beginning) of a line removes the longest run of blanks there and nothing else: what is removed consists only of blanks and what remains does not end (resp. start) with a blank.", "quantifier": "every byte string", "why_tests_cant": "Unbounded set of strings mixing blanks and text in every arrangement.", "anchors": ["libpbat/cmdlib/pBat_String.c: pBat_StripEndDelims", "libpbat/cmdlib/pBat_String.c: pBat_SkipBlanks"]}
{"id": "C42", "title": "Case-insensitive replace-all rewrites the occurrences of the pattern", "statement": "Replacing a pattern ignoring case (as the pbatize converter does for every command and switch) should rewrite exactly the occurrences of the pattern. The code violates this: it keeps the first character of the occurrence, swallows one character after it, and can read past the end of the text so that the result depends on stale memory.", "quantifier": "every string, pattern and replacement", "why_tests_cant": "The wrong result depends on the position of the match relative to the end of the text and on memory contents left by earlier operations.", "anchors": ["libpbat/estr/pBat_Estr.c: stristr", "libpbat/estr/pBat_Estr.c: pBat_EsReplaceI", "pbatize/pbatize.c: main"]}
{"id": "C44", "title": "DEF /f redefines the command it names and no other", "statement": "Redefining a command changes at most one command of the table, one whose name is a prefix of the given name; it is exactly the named one when no other registered name is a prefix of it. Otherwise the wrong command can be overwritten: DEF /f SETLOCAL=... overwrites SET, after which SET lines are not recognised or are read past their end.", "quantifier": "every command table and every redefined name", "why_tests_cant": "Which of two prefix-related names is met first depends on the shape of the search tree.", "anchors": ["libpbat/cmdlist/pBat_CmdList.c: pBat_ReplaceCommand, pBat_GetCommandProc", "pbat/command/pBat_Def.c: pBat_CmdDef", "pbat/command/pBat_CommandInfo.c: lpCmdInfo"]}
{"id": "C43", "title": "pbatize considers every pair of switches exactly once", "statement": "For each command with at least one switch, the converter's loop ends, never reads outside the switch list, and visits each (command, switch) pair and each ordered pair of distinct switches exactly once, replacing the two put side by side with the same two separated by a space.", "quantifier": "every non-empty switch list", "why_tests_cant": "The skip over the diagonal and the row changes must be right for every list length.", "anchors": ["pbatize/pairs.c: pair_start, pair_next, pair_replace_exps", "pbatize/pbatize.c: main"]}
{"id": "C45", "title": "Attribute strings select the documented files", "statement": "A file is selected by an attribute string (as in DIR /A:d-r) exactly when it has every attribute named and none of the attributes refused with '-'. The code honours this for all strings naming neither I (empty) nor S, and for all strings refusing none of H, I, S; it violates it otherwise: '-I' selects the empty files and 'I-H' rejects them.", "quantifier": "every attribute string and every file", "why_tests_cant": "All strings, including repeated and contradictory letters, against all combinations of file properties.", "anchors": ["libpbat/dir/pBat_Attr.c: pBat_MakeFileAttributes, pBat_CheckFileAttributes"]}
{"id": "C46", "title": "The initial environment is that of the process", "statement": "At start every variable of the process environment can be read under any letter case with its value stripped of the blanks at its end, and no other variable exists (so a value ending in a blank is not preserved, proved).", "quantifier": "every process environment without two names equal ignoring case", "why_tests_cant": "Quantifies over all environments, sizes and orders.", "anchors": ["pbat/core/pBat_Env.c: pBat_InitEnv, pBat_AdjustVarName"]}
{"id": "C47", "title": "The environment block of child processes is exact", "statement": "The block built for a child process consists of name=value followed by a NUL for every variable in table order, then one more NUL; its size is exact, every byte of it is written and no byte outside of it.", "quantifier": "every environment table, with any removed entries", "why_tests_cant": "Buffer exactness for all tables.", "anchors": ["pbat/core/pBat_Env.c: pBat_GetEnvBlock"]}
{"id": "C48", "title": "Plain, replacing and default references", "statement": "%v% expands to the value of the variable (in any case), except that CD, ERRORLEVEL, =EXITCODEASCII, RANDOM, DATE and TIME are computed and hide variables of these names; %v:a=b% expands to the value with the leftmost non-overlapping occurrences of a replaced by b; %v:text% expands to the value, or to text if v is undefined; replace and substring forms of an undefined variable are undefined. Replacing the empty text never ends, and %=EXITCODEASCII% is undefined when the exit code has no zero byte.", "quantifier": "every environment, name, pattern, replacement and default text", "why_tests_cant": "All texts of reference and value.", "anchors": ["pbat/core/pBat_Var.c: pBat_GetVar"]}
{"id": "C49", "title": "Full paths", "statement": "The full path of a name that is no device is the name itself if it starts with exactly one separator and otherwise the current directory, a separator and the name; the string, buffer and in-place ways of computing it agree while the result fits, and completing a full path again does not change it (except below the root directory, where the result starts with two separators and is taken for relative). Completing in place a string that has to grow reads freed memory.", "quantifier": "every current directory, name, buffer size and capacity", "why_tests_cant": "All names and capacities; the misuse of freed memory often goes unnoticed at run time.", "anchors": ["pbat/core/pBat_FilePath.c: pBat_MakeFullPath, pBat_MakeFullPathEs, pBat_FullPathDup, pBat_EsToFullPath", "pbat/core/libpBat.h: PBAT_TEST_ABSOLUTE_PATH"]}
{"id": "C50", "title": "One-letter variables and their modifiers", "statement": "%c gives the text last assigned to the one-letter variable c (printable ASCII but the blank; other names are ignored), unchanged; %~c gives it without the quotes around it (what follows the last quote is dropped); %~flags c, read with as many modifier letters (fdnpxzta, at most 16) as leave a defined variable, gives the texts of these modifiers about the file named by the unquoted text (the running script for 0), in order, d p n x adjacent without separator and all others separated by tabulations; nothing is read if no reading exists. Asking for the size, time or attributes of a missing file, or a full path that outgrows the string, is undefined.", "quantifier": "every block of variables, text after the %, current directory, script path, file system and string capacity", "why_tests_cant": "All combinations of modifiers, names and values; undefined behaviour goes unnoticed in tests.", "anchors": ["pbat/core/pBat_Var.c: pBat_GetLocalVar, pBat_SetLocalVar, pBat_GetLocalVarPointer, pBat_TestLocalVarName, pBat_DuplicateLocalVar"]}
{"id": "C51", "title": "%-expansion of a line", "statement": "A line is expanded from left to right and once only: text without unprotected % stays as it is, %% becomes %, parameters and %references% become their values (nothing if undefined), which are never expanded again nor changed, a % that starts nothing is removed, and the environment is not changed. Expansion ends for every line without ':=', and does not end for an edit of the empty text.", "quantifier": "every line, environment, parameters and modifiers", "why_tests_cant": "All lines; termination.", "anchors": ["pbat/core/pBat_Expand.c: pBat_ReplaceVars, pBat_ExpandVar"]}
{"id": "C52", "title": "Late expansion of parameters", "statement": "Late expansion replaces one-letter FOR variables by their values; then, without delayed expansion, the result loses one level of ^; with delayed expansion, its !references! become their values, verbatim, !! becomes ! and the other text loses one level of ^. So the values of FOR variables are not verbatim: they lose their ^, and their !references! are expanded too.", "quantifier": "every text, FOR variables, environment and state of delayed expansion", "why_tests_cant": "All texts and values.", "anchors": ["pbat/core/pBat_Expand.c: pBat_DelayedExpand, pBat_ExpandSpecialVar, pBat_ExpandVar"]}
{"id": "C53", "title": "Blocks of commands end at their own parenthesis", "statement": "For every well formed block, however deeply blocks are nested and whatever text follows, the end found is the block's own closing parenthesis; a command line ends at the first end of line or operator outside its blocks and quotes; the first block of a text is found behind any number of commands without a block. On any text at all the searches stop and answer a place inside the text: '(' for a beginning, ')' for an end. Exception: two blocks side by side without a separator inside a block are not matched.", "quantifier": "every nesting of blocks, every command text with quotes and escapes, every following text; every string for totality", "why_tests_cant": "The nesting depth, the texts with quotes and escapes and what follows are unbounded; the two mutually recursive scanners can only be related to the grammar by induction.", "anchors": ["pbat/core/pBat_ParseBlock.c: pBat_GetBlockLineEndEx", "pbat/core/pBat_ParseBlock.c: pBat_GetNextBlockEnd", "pbat/core/pBat_ParseBlock.c: pBat_GetNextBlockBeginEx"]}
{"id": "C54", "title": "Redirections are taken out of a command and say where streams go", "statement": "Redirections written in a command (>, >>, 1>, 1>>, 2>, 2>>, < with a file name, 2>&1, 1>&2) are removed from its text, and nothing else is; output, error and input go to the full name of the file given, truncated or not as asked. Digits alone, characters between quotes or escaped, and whatever is inside a block stay in place. Asking twice for the same stream is reported as an error, as is a missing file name. Reading the redirections of any line ends without touching memory outside of it (unless the expansion of a name does). A whole line is the list of its commands with their operators and redirections. Exceptions: 2>&2 sends standard output to standard error, and >&2 without a digit takes an empty file name.", "quantifier": "every command line and directory, every state of the variables", "why_tests_cant": "All combinations of redirections, quotes, escapes and blocks.", "anchors": ["pbat/core/pBat_Parse.c: pBat_ParseOutput, pBat_ParseLine"]}
{"id": "C55", "title": "IF compares numbers by value and other texts in dictionary order", "statement": "In IF a op b (op among EQU, NEQ, LSS, LEQ, GTR, GEQ in any case) and IF a==b, when both sides are numbers (decimal, octal or hexadecimal integers with sign and surrounding blanks, floating point numbers read by the C library, or blank texts which count as 0) they are compared by value, otherwise character by character, /i folding case. EQU and NEQ are always opposite, as are the other pairs unless a side is NaN, and exchanging the sides exchanges LSS and GTR, LEQ and GEQ. Other operators are refused. In \"a\"==\"b\" the quotation marks are not compared. Exceptions: integers above 2^53 are rounded, so different ones may be EQU; mixing numbers and texts gives cycles of LSS; nothing before == makes the program read outside its buffer.", "quantifier": "every pair of texts, every operator", "why_tests_cant": "All pairs of texts.", "anchors": ["pbat/command/pBat_If.c: pBat_PerformExtendedTest, pBat_GetCmpValue, pBat_CmdIf"]}
{"id": "C56", "title": "What IF ERRORLEVEL tests", "statement": "IF ERRORLEVEL n is true when the environment variable named ERRORLEVEL has the text n (case folded), and reads a null pointer when there is no such variable. It does not test whether the last command returned at least n, as documented. Any word starting with ERRORLEVEL counts as this keyword.", "quantifier": "every n and state of the variables", "why_tests_cant": "All states of the variables and exit codes.", "anchors": ["pbat/command/pBat_If.h: TEST_ERRORLEVEL", "pbat/command/pBat_If.c: pBat_CmdIf", "pbat/command/pBat_IfExp.c: pBat_IfExp_ExecuteTest"]}
{"id": "C57", "title": "A block runs its lines one after the other, on the streams its redirections give", "statement": "For every block '( ... )' made of lines (commands and nested blocks joined by '&', '&&', '||' and '|', possibly with blank lines), running the block runs exactly its lines, in order, each in the state the previous one left, until a line leaves the block or the script (GOTO, EXIT, BREAK); no later line runs then. The lines run on the streams given by the redirections written behind the block, and when the block ends the streams are those of before. Exception, proved as a refutation: when a line ends with a nested block followed by blanks, as in '((a) <newline> b)', the next line is glued to it and neither of the two is run.", "quantifier": "all blocks of any number of lines and depth of nesting, all redirections, all outcomes of the commands, all states", "why_tests_cant": "The statement is about unbounded sequences of lines with arbitrary commands and abandoning points; tests run a few scripts.", "anchors": ["pbat/core/pBat_Run.c:pBat_RunBlock", "pbat/core/pBat_Run.c:pBat_RunLine", "pbat/command/pBat_Block.c:pBat_CmdBlock", "pbat/core/pBat_Args.c:pBat_GetNextBlock"]}
{"id": "C58", "title": "IF runs the block the condition selects, and only it", "statement": "For every IF whose condition can be evaluated: if it holds and there is no ELSE, the line behaves as if the block (or the command put between parentheses) stood in the place of IF, with the operator before it, its redirections and the commands behind it; if it does not hold and there is an ELSE with a block, the same with the block of ELSE; if it holds and there is an ELSE, the first block alone is run; if it does not hold and there is no ELSE, nothing of the line is run. In all these cases the exit code is then 0 and the streams are those of before. Deviations proved as refutations: with ELSE the redirections and the commands behind are honoured only when the condition does not hold; a command with a ')' in it, as in 'if 1==1 echo :)', is not run at all.", "quantifier": "all conditions, blocks, lines behind IF, redirections, states and outcomes of the commands", "why_tests_cant": "Equivalence with another line for all bodies, all continuations and all command outcomes; tests check a few instances.", "anchors": ["pbat/command/pBat_If.c:pBat_CmdIf", "pbat/core/pBat_Run.c:pBat_RunParsedLine", "pbat/core/pBat_Run.c:pBat_LookAHeadMakeParsedLine"]}
{"id": "C59", "title": "FOR runs its body for each word of the list", "statement": "For every FOR with a list of words separated by blanks, ',' or ';' (quoted words may contain them): the body is run for each word in order with the variable set to it, quotes included; for a word with '*' or '?', for each file it stands for, evaluated when its turn comes; a turn that leaves is the last one; then the variable is forgotten, the streams are those of before and the exit code is 0. Deviation proved: if the list contains a ':' outside quotes the loop never ends by itself -- the body is run for ever with an empty value.", "quantifier": "all lists, bodies, states and outcomes of the commands, all contents of directories", "why_tests_cant": "Equivalence for all lists and bodies; non-termination is not observable by tests.", "anchors": ["pbat/command/pBat_For.c: pBat_CmdFor, pBat_CmdForSimple"]}
{"id": "C60", "title": "FOR /F runs its body for each line of its input", "statement": "For every FOR /F over a quoted text, the output of a command or a list of files: the command is started first; the body is run once for each line in order, with the variables set to the words the options ask for, except for the first lines to skip and lines that start with a character of eol (empty ones too when eol is not empty), and blank lines in the mode that follows CMD; several files are read one after the other; a turn that leaves is the last one; then the variables are forgotten, the streams are those of before and the exit code is 0. Deviations proved: if a file other than the first cannot be opened the behaviour is undefined; FOR /R without a directory looks from the root.", "quantifier": "all option texts, inputs, bodies, states, file contents and outcomes of the commands", "why_tests_cant": "Equivalence for all inputs and bodies, with files changing during the loop.", "anchors": ["pbat/command/pBat_For.c: pBat_CmdForF, pBat_ForMakeInputInfo, pBat_ForGetInputNextLine, pBat_CmdForDeprecatedWrapper"]}
{"id": "C61", "title": "Lines of a script are joined into complete commands", "statement": "The next thing a script runs is the fewest next lines, variables replaced, in which every opened block is closed; the text is handed over without its final end of line and the script is then at the line behind. A block that is never closed ends the script without running any of it. The check for completeness terminates on every text, and adding text never makes a complete text incomplete.", "quantifier": "every script, position and variables", "why_tests_cant": "All nestings of blocks over all numbers of lines.", "anchors": ["pbat/core/pBat_Read.c: pBat_GetLine, pBat_CheckBlocks, pBat_RmTrailingNl"]}
{"id": "C62", "title": "A script runs its commands in order, from label to label", "statement": "Running a script that nobody changes runs its commands one after the other from the first; after a GOTO, those behind the label; it stops at the end, at a block never closed or when a command ends the script. The result does not depend on anything else.", "quantifier": "every script and initial state for which the run ends", "why_tests_cant": "All scripts and all histories of jumps.", "anchors": ["pbat/core/pBat_Run.c: pBat_RunBatch", "pbat/core/pBat_Read.c: pBat_GetLine, pBat_UpdateScript"]}
{"id": "C63", "title": "A script changed while running is read again", "statement": "If the size of the running script changes, it is loaded again and goes on with the command of the same number. Exceptions: if there is no such command any more it starts again from the beginning instead of ending; a change that keeps the size is not seen; on Linux whether a change is seen depends on an uninitialised variable.", "quantifier": "every history of changes of the file", "why_tests_cant": "Changes at any moment of a run.", "anchors": ["pbat/core/pBat_ReadScript.c: pBat_ReloadBatchScript, pBat_CheckBatchScriptChanges, pBat_GetScriptSize", "pbat/core/pBat_Read.c: pBat_UpdateScript"]}
{"id": "C64", "title": "Colour codes", "statement": "COLOR followed by two hexadecimal digits, in any case, sets background and text colour to these (and on a terminal prints the escape sequences that set them and clear the screen); twice the same digit is refused and changes nothing; without parameter the default colours come back; '.' keeps a colour; anything else leaves the colours as they were. Exceptions: a single digit does not keep the background (it becomes black, or default if it had red in it) and gives the default text colour if the background had green in it; default colours count as black in the test for equal colours.", "quantifier": "every state of the colours, every parameter", "why_tests_cant": "All states times all codes, and the exact bits of each.", "anchors": ["pbat/command/pBat_Color.c: pBat_CmdColor, pBat_GetColorCode", "libpbat/console/pBat_ConsoleANSI.c: pBat_SetConsoleColor, pBat_SetConsoleTextColor"]}
{"id": "C65", "title": "ECHO prints what follows it", "statement": "ECHO and a blank, or ECHO and a punctuation character, print the expansion of everything behind that character, blanks included, and a new line; except that after a blank a single parameter on or off (any case) sets the state of echo and prints nothing, \"/?\" shows the help and nothing shows the state; any other character behind ECHO is an error. Text in which each special character is protected by '^' is printed as it was meant.", "quantifier": "every text, every state", "why_tests_cant": "All texts: quotes, escapes, blanks and orders interact.", "anchors": ["pbat/command/pBat_Echo.c: pBat_CmdEcho"]}
{"id": "C66", "title": "SET assigns, lists and reads variables", "statement": "\"SET name=value\", where the whole may be between a double quote at the beginning and the last double quote of the line, gives the variable name (blanks behind the name dropped, any case) exactly the expanded text behind the first '=' up to the end, removes it when that text is empty, and changes nothing else; \"SET /x\" does the same and lets the value outlive the running procedure. \"SET text\" prints exactly the variables whose names start with the text, in any case, sorted by name, and is an error if there are none; SET alone prints all of them, unless a variable has been removed before, in which case the behaviour is undefined. \"SET /p name=text\" prints the text and assigns the line that is read without its end, with error level 1 if it is empty; without '=' it is an error and changes nothing.", "quantifier": "every line, every well-formed environment, every input", "why_tests_cant": "All texts (quotes, several '=', escapes, blanks) over all environments and histories that leave unused entries in the table.", "anchors": ["pbat/command/pBat_Set.c: pBat_CmdSet, pBat_CmdSetS, pBat_CmdSetP", "pbat/core/pBat_Env.c: pBat_SetEnvEx"]}
{"id": "C67", "title": "SET /A computes integer expressions exactly and assigns what it computed", "statement": "SET /A splits its line at commas outside double quotes and evaluates each part from left to right, stopping at the first that fails. A part `name=expr`, where expr is any text of the documented grammar (decimal, octal and hexadecimal numbers, variables, parentheses, unary - and ~, the binary operators with their levels, left grouping and nested assignments), gives the variable the integer value of expr as long as the intermediate results fit, performs the nested assignments, prints the value when no script runs, has error level 0 and changes no other variable. `name op= expr` applies the operation to the value of the variable. Expressions with floating point numbers, constants and functions give the floating point value written with 14 digits, also with `name op= expr` for any number the variable holds; & | and ^ leave out the fractions. A part without text or without '=' changes nothing and gives its error code. Exceptions: a syntax error silently stores NAN; an integer division by zero or a too large shift is undefined; `x<<=1` sets `x<<`; `x&&=1` and `x||=1` read a variable `x&` or `x|`; '!' is part of names; 09 is 0; && binds like & and || and ^ like |; a variable with a fraction is cut off to an integer where no other number has a point, and one that holds inf or nan is undefined there.", "quantifier": "for every expression tree, every text of it with any spacing and parentheses, every environment and values of variables, every floating point implementation in which whole numbers up to 2^53 are exact", "why_tests_cant": "expressions nest without bound and their value depends on the environment; a test fixes one expression and one set of values", "anchors": ["pbat/command/pBat_Set.c: pBat_CmdSetA, pBat_CmdSetEval, _pBat_SetGetVar, _pBat_SetSetVar", "libfasteval/lib/scanner.l", "libfasteval/lib/parser.y", "libfasteval/lib/fasteval.c: fasteval_evaluate"]}
{"id": "C68", "title": "CALL runs a script, a label or a program and gives the caller its own state back", "statement": "CALL :label runs the commands behind the first such label of the running script; CALL file looks the file up as programs are looked up and runs it from its first command when its extension is .bat or .cmd in any case, or as a command line after one more expansion otherwise; CALL /E with a file and a label, in either order, runs that file from the label. The called script sees %0, %1.. and %* of its call and no loop variables. Whatever it does, afterwards the caller goes on at the same command, with its own parameters, loop variables and script name, and the environment, current directory and error level that the called script left. A call without a target, of a missing program, file or label of another file, or /E under CMDLYCORRECT has its error code and changes nothing. Exceptions: calling a label the running script does not have is undefined; a script that calls itself by file continues after the CALL instead of starting over; /? after the target shows help instead of being passed; CALL /E file arg loses arg when no label is given.", "quantifier": "for every script, label, parameters, state of the interpreter and every behaviour of the called script or program", "why_tests_cant": "what the called script does to the interpreter's state is arbitrary; a test runs particular scripts only", "anchors": ["pbat/command/pBat_Call.c: pBat_CmdCall, pBat_CmdCallFile, pBat_CmdCallExternal", "pbat/core/pBat_FilePath.c: pBat_GetFileFullPath"]}
{"id": "C69", "title": "FIND prints exactly the lines that contain the text", "statement": "FIND [/V] [/C] [/N] [/I] [/E] text [names] prints, in order and once each, exactly the lines that contain the text (/I: up to case; /E: that the expression describes; /V: the other ones), /N with their numbers, /C only how many there are. The options may stand anywhere and in any case, the last of /C and /N counts. Without names the standard input is searched, with names the files they stand for but not directories, and for several files each result stands under the name of its file. The error level is 0 when something was found, in all the files, and 1 otherwise. Without a text, with a name that stands for nothing, or with directories only, nothing is searched and the error level is 8, 42 or 43. Exceptions: a file that cannot be opened is undefined behaviour; a text spelled like an option cannot be searched for, even in quotes; no line contains the empty text.", "quantifier": "for every command line, every text, every list of files with any lines (fewer than 2^31 lines each) and every state of the interpreter", "why_tests_cant": "lines, texts, expressions and the order of options are unbounded; a test fixes some of them", "anchors": ["pbat/command/pBat_Find.c: pBat_CmdFind, pBat_FileFind, pBat_strcasestr", "pbat/core/pBat_Read.c: pBat_RmTrailingNl"]}
{"id": "C70", "title": "DEF defines procedures, and a line that names one runs its text with the parameters filled in", "statement": "DEF name=text (up to the first '=' that is not escaped) adds a procedure and leaves every other command as it is; if a command already answers to the name, nothing changes and the error level is 37, unless /F is given, which changes the text of the command that has the name. DEF /L lists exactly the procedures, each once, whose names start with what follows, up to case. A line without '=' sets the error level 4, /? changes nothing. A line that starts with the name runs the text with $* replaced by the rest of the line, $1 to $9 and $: by its ten first parameters, and the ones that are missing by nothing; all references are filled in at once as long as no parameter contains a dollar sign. The text runs without the variables of FOR loops and with the underscore variables saved, and both are as before when it ends. Exceptions: text filled in can itself be taken for a reference; DEF /L followed by a blank lists nothing.", "quantifier": "for every table of commands, name, text, command line, list of parameters and state of the interpreter, and whatever the text of the procedure does", "why_tests_cant": "texts, parameters and tables are unbounded, and what a procedure does to the variables is arbitrary", "anchors": ["pbat/command/pBat_Def.c: pBat_CmdDef, pBat_ListDefs", "pbat/core/pBat_ExpandDef.c: pBat_ExpandDef", "pbat/core/pBat_Run.c: pBat_RunCommand (451-471)"]}
{"id": "C71", "title": "A question takes one line of the input and gives the answer that the line spells", "statement": "When a command asks a question, the answer is yes, no or (if it is offered) all, when the next line of the standard input is that word or its first letter in any case, and the default when the line is empty; exactly that line is taken from the input. Exceptions: after any other line the command reads a variable that was never set, and at the end of the input a character that was never read.", "quantifier": "for every line, input, default and set of answers offered", "why_tests_cant": "lines are unbounded, and reading an uninitialised variable usually goes unnoticed in a test run", "anchors": ["pbat/command/pBat_Ask.c: pBat_AskConfirmation, pBat_AskConfirmationRead"]}
{"id": "C72", "title": "Copying a file gives the destination the same content, however the reads and writes are cut", "statement": "When the copy of a file to another place reports success, the destination has exactly the content of the source; appending adds the content of the source after that of the destination. When it fails, the destination is as before or has a first part of the content, and without failing calls it succeeds wherever a file can be made. No other file changes, the source included. This holds when failures last (a call fails and all later ones do). Exceptions: a file copied onto itself is emptied with status 0; a file appended to itself makes the command run without end; a write that fails once after a part was written gives a wrong content with status 0; a copy that fails has already emptied the destination.", "quantifier": "for every file system, content, size of each read and write, and set of failing system calls", "why_tests_cant": "how reads and writes are cut and which calls fail is decided by the kernel and cannot be enumerated", "anchors": ["pbat/command/pBat_Copy.c: pBat_CopyFile, pBat_CatFile"]}
{"id": "C73", "title": "Moving a file never leaves two copies, and keeps the content unless the rename fails", "statement": "When a move reports success, the source is gone, the destination has its content, and every other file is as before. When it fails, the source is still there. Exceptions: the destination is removed first, so if the rename fails then its former content is lost; a file moved onto itself is deleted.", "quantifier": "for every file system, pair of paths and set of failing system calls", "why_tests_cant": "the failures depend on the state of the system at each call", "anchors": ["pbat/command/pBat_Copy.c: pBat_MoveFile"]}
{"id": "C74", "title": "COPY and MOVE treat each source once, ask before they overwrite, and touch nothing else", "statement": "COPY and MOVE with a directory as the destination put each selected file in it under its own name; with one source and a file, they copy or move it there; COPY with sources joined by +, or with one name for three or more files, or with two names, gives the destination the texts of the sources one after the other. Options are recognised in any case and anywhere on the line. If the destination of a file exists, a question is asked: the file is left alone on no, written on yes, and after all no question is asked any more. A missing name gives status 8, /R with + 9, a name that stands for no file 42 before anything is changed, + with MOVE 4, /? changes nothing. No file changes but those. If calls fail while files go into a directory, the others are tried all the same, each file is at its new place or still at its old one with its text, and error level 0 means that all have arrived. Exceptions, each with a witness: /Y does not silence the questions (/-Y does); two files matched by one pattern overwrite each other when the destination is a file; with + a question is asked for every file after the first even if the destination was not there before; a path that starts with /a is taken for an option.", "quantifier": "for every command line, file system, answers, set of files that the names stand for, set of failing calls, and cut of the reads and writes", "why_tests_cant": "command lines, sets of files and contents are unbounded and interact", "anchors": ["pbat/command/pBat_Copy.c: pBat_CmdCopy, pBat_CmdCopyFile, pBat_GetCopyOpt, pBat_CopyFile, pBat_CatFile, pBat_MoveFile"]}
{"id": "C75", "title": "A path with wildcards stands for exactly the files whose names match it, each once", "statement": "The files that a path stands for are exactly those reached by following its components: a plain component leads to the entry of that name, a component with * or ? to every entry of the directory that matches it in any case. Each file comes once. A recursive search with a wildcard at the end also gives the matching entries of all directories below, what is inside a directory before the directory itself; on a plain directory it gives the whole tree; and in the mode of DEL and DIR a plain directory stands for its entries. Exceptions, each with a witness: a file whose name is literally the pattern hides the others; a plain name after a wildcard component is not searched recursively; without the flag against pseudo directories a star also stands for . and .. .", "quantifier": "for every tree of files, pattern of any depth, and choice of the search options (names shorter than 4096 bytes)", "why_tests_cant": "trees and patterns are unbounded and the search is recursive", "anchors": ["libpbat/dir/pBat_Dir.c: pBat_GetMatchFileList, pBat_GetMatch, pBat_GetNextLevel, pBat_AddMatch"]}
{"id": "C76", "title": "DEL deletes exactly the wanted files that its names stand for and that the user agrees to", "statement": "DEL looks up every name first and deletes nothing if one stands for no file (status 42) or none is given (-1). Otherwise the files it takes are those that the names stand for, which are not directories, and have the attributes asked for, or are not read-only unless /F is given. When a name has a wildcard and /Q is not given, it asks for each: no keeps the file, yes deletes it, all deletes it and all that follow. Whatever system calls fail, nothing but the files agreed to disappears and nothing else changes; status 0 means that they are all gone, and without failures the status is 0. In particular DEL /Q with a pattern removes exactly the matching files. Exceptions, each with a witness: /P never asks without a wildcard; a directory loses all its files without a question; with /A read-only files go without /F; a read-only file that is left gives status 0; a path that starts with /a is taken for an option.", "quantifier": "for every command line, tree of files, permissions, answers and set of failing calls", "why_tests_cant": "trees, patterns and answers are unbounded, and a wrong deletion cannot be undone", "anchors": ["pbat/command/pBat_Del.c: pBat_CmdDel, pBat_CmdDelFile, pBat_DelFile"]}
{"id": "C77", "title": "RD removes a directory only if it is empty, and with /S exactly the tree below it", "statement": "RD with one name removes that directory if it is empty and changes nothing otherwise. With /S, or several names, it takes everything the names stand for, asks for each unless /Q is given, deletes the files agreed to and then the directories, inner ones first; whatever system calls fail, nothing but what was agreed to disappears, and status 0 means that it is all gone. RD /S /Q dir removes the directory, everything below it, and nothing else. Exceptions, each with a witness: RD with one name gives status 0 even if it failed; RD with several names deletes plain files.", "quantifier": "for every command line, tree of files of any depth, answers and set of failing calls", "why_tests_cant": "the depth of the tree and the point of failure are unbounded", "anchors": ["pbat/command/pBat_Rmdir.c: pBat_CmdRmdir, pBat_CmdRmdirFile, pBat_Rmdir", "pbat/command/pBat_Del.c: pBat_CmdDelFile"]}
{"id": "C78", "title": "MD makes the directories named and those above them, and never harms what is there", "statement": "MD takes its names one after the other until one fails or /? is met. Whatever system calls fail, nothing that existed is lost or changed, and all that is new are directories at or above the names. Status 0 means that every directory named, and every one above it, is there; status 13 that one is not. Without failures it succeeds if no file is in the way; if a file is in the way of a name, that name makes no directory at all. Exception, with a witness: MD without a name gives status 0.", "quantifier": "for every command line of names without . and .., tree of files of any depth and set of failing calls", "why_tests_cant": "the depth of the path, the tree and the point of failure are unbounded", "anchors": ["pbat/command/pBat_Mkdir.c: pBat_CmdMkdir, pBat_CmdMakeDirs"]}
{"id": "C79", "title": "REN gives a file or directory another name in its own directory, or changes nothing", "statement": "REN old new renames the file or directory, with everything below it, to new in the same directory: status 0 means that what was at and below the old name is at and below the new one and all else is as it was, status 10 that nothing changed. Without failures it succeeds if old exists and new is free, or both are files, or both are directories and that at new is empty. A missing name (status 8) and a new name with a path separator (status 52) change nothing. Exceptions, each with a witness: a file that has the new name is replaced without a question; a new name that does not fit in the buffer overruns it.", "quantifier": "for every command line, tree of files of any depth, and set of failing calls", "why_tests_cant": "trees and names are unbounded, and what else might change cannot be enumerated", "anchors": ["pbat/command/pBat_Ren.c: pBat_CmdRen"]}
{"id": "C80", "title": "TYPE prints the files it was given, byte for byte, and reports those it could not open", "statement": "TYPE with one name prints the file exactly; without a name it prints the standard input exactly. If the names stand for several files, each file is preceded by a line with its path; directories are left out. A file that cannot be opened is skipped and gives error level 1, the others are printed all the same. A name that stands for nothing gives error level 42 and only directories give 43, and then nothing is printed; /? gives the help. Whatever reads fail, what is printed of a file is a beginning of it. Exceptions, each with a witness: of three or more names only the first path of the first one and the paths of the last one are looked at; a file that cannot be read to its end gives error level 0.", "quantifier": "for every command line, tree of files, contents of any length, and set of failing calls", "why_tests_cant": "contents, numbers of files and points of failure are unbounded", "anchors": ["pbat/command/pBat_Type.c: pBat_CmdType, pBat_TypeFile"]}
{"id": "C81", "title": "XARGS hands each line of its input to the command as one parameter", "statement": "XARGS command runs the command line it is given followed by one parameter for each line of the standard input, in their order: the command sees its own parameters and then exactly the lines, even if a line contains blanks, commas or semicolons. This holds for lines that are not empty and contain no quotes, ^, % or !. Without a command, nothing is run and the error level is 8. Exceptions, each with a witness: an empty line is no parameter; a line that starts with a quote is not quoted and may be several parameters; a ^ in a line is lost.", "quantifier": "for every number of lines, lines of any length, and command line", "why_tests_cant": "the number and the form of the lines are unbounded", "anchors": ["pbat/command/pBat_Xargs.c: pBat_CmdXargs"]}
{"id": "C82", "title": "MORE loses nothing of a text when its output is no console: it only cuts lines into rows", "statement": "If the output is not a console, MORE prints each line of its input cut into rows of 79 columns (a tab fills up to the next stop), and a last line without a newline is printed without one; with /S an empty line that follows an empty line is left out; +n leaves out the first n rows. Whatever the input is, in every state, no character of it is lost, added or reordered, other than newlines and blanks of tabs, and no row that is printed is longer than 79 characters if each character takes one column. Exceptions, each with a witness: an empty line below a full row is lost; a character of several bytes in the last column is cut by a newline; a text that ends within a control sequence gets the byte 255 at its end; +n counts rows, not lines of the text; a tab when the size of tabs is zero or negative is undefined.", "quantifier": "for every text, of any length, every set of options and every number of rows to leave out", "why_tests_cant": "texts and places where rows end are unbounded; the losses appear at lengths that are multiples of the width only", "anchors": ["pbat/command/pBat_More.c: pBat_MoreText, pBat_MoreWriteLine"]}
{"id": "C83", "title": "MORE prints the files it was given in turn", "statement": "If the output is not a console, MORE prints the texts of the files that its names stand for, one after the other, as C82 says for the options that were given (/S, /U, /A, /T:n and +n, in any order and mixed with names; /E, /C and /P do nothing); directories are left out. Without a name, it prints the standard input. If all the names stand for directories or a name stands for nothing, the error level is 42, if a number is wrong 44, and nothing is printed. Exceptions, each with a witness: a file that cannot be opened is undefined behaviour (a null stream is closed); a path that begins with /t is taken for an option.", "quantifier": "for every command line, tree of files, and texts of any length", "why_tests_cant": "command lines, trees and texts are unbounded", "anchors": ["pbat/command/pBat_More.c: pBat_CmdMore, pBat_MoreFile"]}
{"id": "C84", "title": "The TAB key completes a name as far as all candidates agree, and never loses text of the line", "statement": "The word before the cursor (between blanks, & and |, or in quotes that close at the cursor) stands for a path; the candidates are exactly the entries of its directory whose names begin with what was typed, in any case, and go on. Without a candidate, TAB leaves the line unchanged. If all candidates agree on more than what was typed, exactly that rest is inserted at the cursor (nothing, if the line would be too long), and nothing else of the line changes. Otherwise the line is unchanged and the names of all candidates are listed in columns of one width, in rows of at most 80 columns (if there are at most 20, or the user agreed). Exceptions, each with a witness: the case of what was typed is kept, so the completed name need not exist; a file whose name is exactly what was typed is no candidate; wildcards in the word can read behind the end of a name; text behind the cursor longer than what is inserted is moved by an overlapping memcpy; a candidate of exactly 80 bytes divides by zero; an unclosed quote does not keep blanks in a word.", "quantifier": "for every line, place of the cursor, tree of files and number of candidates", "why_tests_cant": "lines and trees are unbounded; the exceptions need particular lengths of names and text behind the cursor", "anchors": ["pbat/core/pBat_Completion.c: pBat_CompletionHandler, pBat_GetLongestCommonMatch, pBat_PrintCompletionList", "pbat/linenoise/linenoise.c: completeLine"]}
{"id": "C85", "title": "The line editor does to the line exactly what the keys say, in whole characters", "statement": "While a line is typed at a terminal, each key does to the line what it stands for: a character is put in at the cursor if it fits, LEFT, RIGHT, BACKSPACE and DELETE go by whole characters (a UTF-8 code point and the marks that combine with it), HOME, END, CTRL+U, CTRL+K, CTRL+W, CTRL+T and the keys for the history do their work, other sequences of ESC nothing; and ENTER gives exactly the line that results. Whatever bytes of ASCII arrive, the limits of the line and of the history are kept, and nothing outside of them is touched (unless the input ends within a sequence of ESC). Exceptions, each with a witness: a mark as the first character, and CTRL+T beside a character of several bytes, are undefined; a NUL (CTRL+SPACE) cuts the line silently; a byte that is no UTF-8 enters the line as ENTER does; at the end of the input the unfinished line is entered, and the end itself is never told.", "quantifier": "for every sequence of keys, of any length, every history and every set of marks that combine", "why_tests_cant": "sequences of keys are unbounded, and each key acts on any line and place of the cursor", "anchors": ["pbat/linenoise/linenoise.c: linenoiseEdit, linenoiseEditInsert, linenoiseEditMoveLeft, linenoiseEditMoveRight, linenoiseEditDelete, linenoiseEditBackspace, linenoiseEditDeletePrevWord", "pbat/linenoise/utf8.c: linenoiseUtf8NextCharLen, linenoiseUtf8PrevCharLen, linenoiseUtf8ReadCode", "pbat/linenoise/pBat_LineNoise.c: pBat_LineNoise"]}
{"id": "C86", "title": "Lines that were entered can be found again, and looking at them loses nothing", "statement": "Lines that are entered one after the other are read exactly as they were typed; of those that are not empty and differ from the one before, the last 99 at least are remembered, and never more than 100 lines in all. Pressing UP k times shows the k-th of them, and ENTER then reads it again and keeps the others; pressing UP k times and DOWN k times gives back what was typed, and changes nothing. Exceptions, each with a witness: a line that fills the buffer loses its last byte when it is shown again; a line given up by CTRL+C is remembered if an older one was looked at; what is typed while an older line is shown changes it for good.", "quantifier": "for every sequence of lines of any number, and every k", "why_tests_cant": "the number of lines is unbounded, and the limit is reached after 100 of them only", "anchors": ["pbat/linenoise/linenoise.c: linenoiseHistoryAdd, linenoiseEditHistoryNext, linenoiseEdit", "pbat/linenoise/pBat_LineNoise.c: pBat_LineNoise"]}
{"id": "C87", "title": "A program is run once, and its exit code is told once it ended, whatever else runs at the same time", "statement": "When several threads of the interpreter run programs at the same time (the commands of a pipe), in whatever order the system lets them and their processes go on: a call that waits returns the exit code of its program, after it ended, and a call that need not wait returns 0 once it was started; if the program cannot be run, the call returns an error, and the program is never run, neither before nor later (or the file is given to the script of PBAT_START_SCRIPT, and what that one gives is returned). No program is run twice, no call returns twice. No order of steps goes on forever, and if nothing is left to do but waiting for programs, every call returned or waits for its own program, or for a script that another call started; without scripts, never for another call. Exceptions, each with a witness: a program killed by a signal gives 0; what a script exits with is multiplied by 256; a script started by another thread can keep a call from returning after its program ended; the process of a program that could not be run is never waited for.", "quantifier": "for every number of calls, every order of the steps of the threads and processes, every end of the programs", "why_tests_cant": "the orders of steps of concurrent threads and processes cannot be enumerated by running them, and the harmful ones are rare", "anchors": ["pbat/core/pBat_Exec.c: pBat_ExecuteFile, pBat_RunFile, pBat_StartFile", "pbat/core/pBat_FdInheritance.c: pBat_SetFdInheritance"]}
{"id": "C88", "title": "A chain of pipes gives what its commands give one after the other, and never gets stuck", "statement": "For a line c0 | c1 | ... | cm, in whatever order the threads of the commands go on, however little a pipe can hold, and whichever descriptors the system gives: once the line is done, the output is the one that the chain determines (each command reads what the one before it wrote, in that order, and the end only when that one stopped and all was read); so two runs with the same input write the same. At every moment each command has read a beginning of what the one before wrote, and the output is a beginning of the final one. No call on a descriptor fails, and unless all commands are done one of them can go on: there is no deadlock. Once all are done, the same descriptors are open as before, for the same things; the interpreter has its three streams back as soon as the line is done. Exception, with a witness: the interpreter does not wait for the commands on the left, so the next line can run before they even started.", "quantifier": "for every number of commands, every behaviour of them (as automata that read and write bytes), every order of steps, every capacity of pipes, every choice of descriptors", "why_tests_cant": "the orders of the steps of the threads cannot be enumerated; a descriptor left open in one thread (which would keep the end of a pipe from being seen) shows only in some", "anchors": ["pbat/core/pBat_Run.c: pBat_ExecOperators, pBat_LaunchPipe", "pbat/core/pBat_Clone.c: pBat_CloneInstance, pBat_DuplicateData", "pbat/core/pBat_Stream.c: pBat_OpenOutputD, pBat_PopStreamStack", "pbat/core/pBat_ExitInt.c: pBat_Exit"]}
{"id": "C89", "title": "DIR lists exactly the files that its parameters mean", "statement": "DIR /B writes one line for each file that the search of C75 finds and that has the attributes asked for, in that order: its name from the current directory, or its whole path when an absolute name was given (or with /S when CMD.EXE is followed closely). With no name, in a directory other than the root: each name in that directory once and no other (with /S also those below). DIR without /B writes a title, for each such file its date, its size (or that it is a directory) and its name, and then how many files and directories there were; sizes below 4 GiB are shown by their first digits in the right unit. When nothing is found DIR says so, DIR /B is silent, and neither is an error; /? lists nothing; a second name is an error and lists nothing. Exceptions, with witnesses: in the root directory the first letter of each name is lost; for the name of a device text beyond the end of a string is read; in a directory with a wildcard in its name files of other directories are listed; sizes are shown modulo 4 GiB.", "quantifier": "for every file system, current directory, line of parameters, order of directory entries", "why_tests_cant": "file systems, names and parameters are unbounded, and a name that is cut at the wrong place only shows for some current directories", "anchors": ["pbat/command/pBat_Dir.c: pBat_CmdDir", "libpbat/dir/pBat_Dir.c: pBat_FormatFileSize, pBat_GetMatchFileList"]}
{"id": "C90", "title": "START runs what follows its options, with exactly these parameters", "statement": "START reads options until the first parameter that is none: /WAIT or /W (wait), /B (no window), /D with a directory, the priorities and /NODE or /AFFINITY with a value (ignored), in any case and order; the first parameter in quotes is the title. The first other parameter says what to run, and it and everything behind it are the arguments, even if they look like options: a program is found as C36 says (or else is the name from the current directory); a .bat or .cmd file is run by another interpreter that gets /a:q (with e when echo is off and c when CMD.EXE is followed closely), the name and the arguments; a built-in command by another interpreter with /C, or with /B by a thread of this one; an URI is left as it is. The directory is the one of /D or the current one. With a title alone another interpreter is run. Without anything, with a second /D or with /D at the end: an error and nothing is run. Exceptions, with witnesses: /NODE or /AFFINITY at the end reads through NULL; a file whose name begins with ECHO cannot be started (it is taken for the command); an interpreter in a directory with a blank in its name gets half of it as its first argument.", "quantifier": "for every line of parameters, table of commands, environment and set of existing files", "why_tests_cant": "options, names and arguments can be combined in unboundedly many ways, and what is found depends on the files and variables at the time", "anchors": ["pbat/command/pBat_Start.c: pBat_CmdStart, pBat_StartCommandBackground", "pbat/core/pBat_Args.c: pBat_GetParamList"]}
{"id": "C91", "title": "The interpreter does what its command line says", "statement": "The interpreter reads switches until the first parameter that is none or until //: /A with letters, after a colon or not, in any case (E: echo off, C: follow CMD.EXE closely, V: delayed expansion, which is on anyway, Q: quiet; echo and C stay once asked for, quietness counts for the last /A only), /C @ or /K @ (a command taken from %__PBAT_COMMAND__%). The next parameter is the script, found as C37 says, and everything behind it are its parameters, even if they look like switches: %0 is the path that was found, %1 ... %9, %+ and %* as in C30. A command is run before the script; with /C the interpreter ends after the command, with /K it goes on. /C or /K followed by words runs the words as one line, whose parameters are these words (for words without quotes, ^, %, !, and, if they have no blanks, without commas and semicolons). Without script and command the standard input is run. /C without a command or a second one, or a script that is not found: an error, and nothing is run. Together with C90: START of a batch file makes the new interpreter run that script with the same parameters, echo and mode, and START of a built-in command makes it run that command. Exceptions, with witnesses: a script cannot be given by its absolute name, neither on the command line nor to START: its first letter is taken for a switch, and if there is none such NULL is printed as a string; commas in a word behind /C cut it.", "quantifier": "for every list of parameters, set of existing files and values of PATH, PATHEXT and __PBAT_COMMAND__", "why_tests_cant": "lists of parameters are unbounded; that what START writes is what the interpreter reads must hold for all names and parameters", "anchors": ["pbat/init/pBat_Init.c: pBat_GetParameters, pBat_InitSetModes, pBat_AssignCommandLine", "pbat/pBat.c: main", "pbat/command/pBat_Start.c: pBat_CmdStart"]}
{"id": "C92", "title": "CD goes where its line says, and POPD comes back from PUSHD", "statement": "CD followed by a text, after an optional /D, goes to the directory that the text names: without the blanks around it, and if it starts with a double quote without this quote and the quotes and blanks at its end; variables in it are expanded. If it is an absolute path of a directory this is the new current directory, else the directory below the current one with this path, both without . and .. (C35). If there is none of them, the current directory stays and the error level is that of a missing directory. CD alone prints the current directory (without a line end). PUSHD with several directories goes from one to the next and keeps those it leaves; it stops at the first that is missing, and keeps what it did until then; PUSHD alone prints the kept ones, the last one first. POPD goes to the directory kept last and forgets it, also if it is missing now; without any it fails. POPD after PUSHD is back at a directory that still exists. Exceptions, with witnesses: CD does not go to a directory named /d, and quotes around nothing or around blanks stand for a directory whose name is a quote.", "quantifier": "for every line, set of directories, current directory and stack", "why_tests_cant": "lines, directories and stacks are unbounded", "anchors": ["pbat/command/pBat_Cd.c: pBat_CmdCd_nix, pBat_SetCurrentDir, pBat_Canonicalize", "pbat/command/pBat_Pushd.c: pBat_CmdPushd, pBat_CmdPopd"]}
{"id": "C93", "title": "Instances that run at the same time do not see each other's variables", "statement": "Both sides of a pipe, the command of FOR /F, START /B of a command and a script run without CALL run in an instance of their own. It starts with the same variables, one-letter variables, arguments, kept directories, commands (built in and defined) and settings as the instance that started it. From then on nothing that one instance does to its memory changes what another one can reach: no block of memory can be reached from two instances, after any number of steps of any number of instances in any order, and so an instance that waits knows afterwards what it knew before. Exception, with a witness: what SETLOCAL kept is not copied.", "quantifier": "for all contents of variables, commands and stacks, all numbers of instances, all interleavings of their steps", "why_tests_cant": "schedules are unbounded, and races show up rarely", "anchors": ["pbat/core/pBat_Clone.c: pBat_CloneInstance, pBat_DuplicateData, pBat_CloneTrampoline", "pbat/core/pBat_Env.c: pBat_EnvDup", "libpbat/cmdlist/pBat_CmdList.c: pBat_DuplicateCommandList", "pbat/core/pBat_Var.c: pBat_DuplicateLocalVar", "pbat/core/pBat_DirStack.c: pBat_DirStackCopy"]}
{"id": "C94", "title": "Messages are translated exactly as the catalogue of the language says", "statement": "A message is looked up in the catalogue <directory>/<language>/<category>/<domain>.mo: the directory is the one last bound to the domain, the domain the one chosen last unless one is given, and the language the part of the name of the locale before the first underscore, in lower case, or its two letters if it is a known English name. If the file is a catalogue as msgfmt writes it (texts with their ends, messages sorted, no table at the very end), every message in it gets its own translation and every other one stays as it is; without a file it stays as it is. This holds after any requests before: that catalogues are kept in memory is not seen. Exceptions, with witnesses: files of 20 bytes or more are used whatever their first number is; a catalogue that ends with a table is not used; damaged files lead to reading outside the buffer; Spanish, Kikuyu, Ossetian and Uighur are not known by their English names; and the name of the locale that Linux gives if its categories differ has no language, as it is for the LOCALE command.", "quantifier": "for every catalogue, message, locale name and history of requests", "why_tests_cant": "catalogues, messages and histories are unbounded", "anchors": ["microgettext/microgettext.c: dcgettext, gettext, microgettext_load_mofile, microgettext_make_array, microgettext_get_lang, microgettext_make_domain_path, bindtextdomain, textdomain", "pbat/command/pBat_Locale.c: pBat_LoadLocaleMessages"]}
{"id": "C95", "title": "TIMEOUT waits as long as it is told", "statement": "With one number from 0 to 100000, and perhaps /T and /NOBREAK, TIMEOUT shows the number and then waits that many seconds, up to two milliseconds: all of it if no key is pressed or with /NOBREAK, else until the first of its looks at the keyboard, ten each second, that sees a key. Each number it shows meanwhile is the time left, up to a tenth of a millisecond. With a negative number it waits for a key (for ever with /NOBREAK), without a number it does not wait, and with a text that is no number, or a second number behind one that is not 0, it only sets the error level 4. Exceptions, with witnesses: with 2^52 seconds and with inf the count does not move, so that it never ends; nan does not wait; a second number is taken if the first is 0.", "quantifier": "for every number that a double holds, every line and every sequence of key presses", "why_tests_cant": "there are 2^62 doubles and any sequence of keys; the count adds up rounding errors over a million steps, and a test of long waits takes as long as they do", "anchors": ["pbat/command/pBat_Timeout.c: pBat_CmdTimeout"]}
{"id": "C96", "title": "A line that names a program or a script runs it once, with the words written behind it", "statement": "A command line, leading blanks and @ aside, that begins with the name of an internal command or DEF is taken for it. Else the file that the lookup of programs finds for the first word is run, exactly once: a program in the current directory with the words of the line as its arguments; a .bat or .cmd file as a script whose %0 is that file, whose %1... are the words behind the name, whose %* is the text behind the name, without variables of loops, in a copy of the environment with PBAT_IS_SCRIPT=true added. The error level is what it returns, and nothing else changes for the line's own interpreter. If there is no such file, the line is expanded as a whole and searched once more; if this does not help either, nothing is run, the error level is -1 and the name is complained about. Exceptions: a program found only by that second search is run again and again for ever, and if the expansion leaves nothing of the line (!x! with x undefined) the search never ends.", "quantifier": "for every line, every state of the interpreter, every set of files and everything programs may return", "why_tests_cant": "lines, environments and directories are unbounded; that nothing is run a second time, and that a search never ends, are statements about all later steps", "anchors": ["pbat/core/pBat_Run.c: pBat_RunCommand, pBat_RunExternalCommand, pBat_RunExternalBatch, pBat_LaunchExternalBatch"]}
{"id": "C97", "title": "dump shows every byte of files, with addresses and characters", "statement": "dump takes the options /T (type of the elements) and /H (hexadecimal), in any order and case, the last /T wins. Then it shows the files one after the other, each below a line with its name, or what it reads if no file is named. For the types c, uc, s, us, i, ui and ll: each row has its address in the file, its elements in order, lowest byte first, each as the decimal (with sign) or hexadecimal text of its value and as wide as the widest value, and then the characters of its bytes, those that are no visible ASCII as dots; rows have as many elements as 80 columns have place for, and a last element that is incomplete is filled with zeros. If the last row is shorter, its characters are followed by a dot and by those of the row before. A file that cannot be opened ends dump with status 2. Exceptions: input shorter than one row, read errors, /Tull and /Tf, and any /B are undefined behaviour; /Td shows no numbers; with /H negative numbers of one or two bytes have eight digits; what comes in pieces from a pipe is shown with zeros in between and wrong addresses; absolute paths that begin with /T, /B are taken for options.", "quantifier": "for every list of options and files, and every content of files whose rows are read as a whole", "why_tests_cant": "all contents of all lengths, all values of elements in all types; that nothing is left out or shown twice", "anchors": ["dump/dump.c: main, dump_file, dump_fd, fill_context, get_type, types, GET_CAST", "dump/dump_h_gen.c: main"]}
{"id": "C98", "title": "MOD loads the modules it names, each of them at most once", "statement": "MOD does its words from left to right: /l shows the list of loaded modules and ends it, /? shows the help and ends it, /q makes it pass over modules that are already loaded; any other word is a module, a path from the root or a name in the directory modules of %PBAT_PATH%. A module that does not exist, is already loaded (without /q), cannot be loaded or is incompatible ends MOD with errors 1, 61, 59, 60; what was loaded before it stays. Whatever is asked, no module is loaded twice, none is forgotten, each new one existed and could be loaded, and handlers are called once per new module, in order, and for at most one incompatible module besides. Exceptions: two modules whose paths differ by case only count as one; without PBAT_PATH, names that are no absolute paths are undefined behaviour.", "quantifier": "for every line of words, every list of loaded modules, every set of files and every answer of the modules", "why_tests_cant": "an invariant over all histories of loaded modules, and all mixtures of options, names and failures", "anchors": ["pbat/command/pBat_Mod.c: pBat_CmdMod, pBat_LoadMod, pBat_CheckLoadedMods"]}
{"id": "C99", "title": "Documents of tea are read as they are written", "statement": "The reader of tea's documents (the help pages) ends for every text. It cuts the text into paragraphs, titles {{...}} and code ${...} exactly where the first openers and their closers are (braces in code are paired, '\\' takes the next character as it is) and refuses it if a closer is missing; paragraphs are cut at empty lines, with no visible character lost; {emphasis} and {target|text} are found in them exactly as written, with unclosed braces refused. Dashes at the beginning give a paragraph its level ('@' hides the mark), and code after it has the same. Blanks are shown as one, code keeps all but tabs, lines beginning with # are left out; a document of mere words shows all of them in their order. Exceptions: '\\' does not protect {{ and ${; a title loses the blank after a character taken with '\\'; a paragraph ending in '\\' may show text twice; a byte order mark is dropped from any line.", "quantifier": "for every document", "why_tests_cant": "all texts with all nestings of braces, escapes, blanks and empty lines; in-place rewriting whose errors show for particular lengths only", "anchors": ["tea/src/Tea_Load.c: Tea_PageLoad, Tea_ParseStringBlock, Tea_SeekNextClosingBrace, Tea_BreakParagraph, Tea_SweepSpace, Tea_MakeLevels", "tea/src/Tea_Node.c: Tea_SeekNodeDelim, Tea_ParseStringNode, Tea_SweepSpaceNode"]}
{"id": "C100", "title": "The small commands do what they say and nothing else", "statement": "TITLE makes the expanded text behind it the title (nothing without a word; the help if the first word begins with /?). CLS clears the screen, but with any word it gives the help (/?) or error 4. BREAK, REM and CHCP (as built here) do nothing. VER names the system unless its first word begins with /?. PAUSE followed by something waits for a key, unless that is one character and /?. HELP names each built-in command exactly once, except (, runs one given word with /?, and refuses several with error 4. None of them changes variables or files by itself. Exceptions: LOCALE takes its own name for the directory and refuses any word, so that the directory given is never used; PAUSE alone reads behind the end of its line and may show the help instead of waiting; messages and titles are compared by their first characters only.", "quantifier": "for every line, every environment, and everything the memory behind a line may hold", "why_tests_cant": "all lines with all expansions; what PAUSE does depends on memory that a test does not control", "anchors": ["pbat/command/pBat_Title.c: pBat_CmdTitle", "pbat/command/pBat_Cls.c: pBat_CmdCls", "pbat/command/pBat_Pause.c: pBat_CmdPause", "pbat/command/pBat_Help.c: pBat_CmdHelp", "pbat/command/pBat_Locale.c: pBat_CmdLocale", "pbat/command/pBat_Ver.c: pBat_CmdVer", "pbat/command/pBat_Break.c: pBat_CmdBreak"]}
{"id": "C101", "title": "Tea lays out pages as text without losing, changing or breaking words", "statement": "A title or a piece of code whose words are all shorter than the line is written completely: its ends of lines stay, and otherwise a line ends only where the next word does not fit. A paragraph whose words are all shorter than the line is written completely too: nothing is changed, but behind some blanks a new line with its margin begins, even where a word is made of several parts (emphasis, links). No line is longer than the width, and the number of steps is bounded by the length of the text. Margins without place end the program. Exceptions: a word of a title or of code as long as the line makes the loop run for ever; in paragraphs a long word that fills its last line exactly, or that is spread over several parts, or an end of line that ends a part, makes the program use NULL or read behind the end of a part.", "quantifier": "for every text, every list of parts, every width and every margin", "why_tests_cant": "all texts and widths; the loop that does not end, and the reads behind the end, depend on exact lengths of words", "anchors": ["tea/src/Tea_Output.c: Tea_OutputLine, Tea_OutputLineT, Tea_OutputWord, Tea_GetWordLengthT", "tea/src/out/tea_text_out.c: Tea_TextOutputStaticBlock, Tea_TextOutputParagraph"]}
{"id": "C102", "title": "Tea writes well-formed HTML with all of the text", "statement": "Each & < and > of a document is written as an entity, so that no tag comes from its text and different texts stay different. For every document without double quotes the body that is written is HTML: every element is closed, in the right order, lists have only items, and at the end no list is open. Without its tags it is the text of the blocks. Each block is an element of its kind (the first title is the only h1), behind the text of the blocks before, in as many lists as its level says and a title in none. A link gets .html unless the name behind the last slash has a dot, the target begins with http://, https:// or mail://, or /C:MD is used. Exceptions: quotes in the target of a link are not written as entities and end the attribute; a dash at the beginning of a paragraph is left out even if it was written \\-.", "quantifier": "for every document, every list of blocks with any levels, and both flavours", "why_tests_cant": "nesting must be right for all sequences of levels and all texts", "anchors": ["tea/src/out/tea_html_out.c: Tea_HtmlOutputHandler, Tea_HtmlOutputParagraph, Tea_HtmlEscapeChar"]}
{"id": "C103", "title": "BATBOX does its words in order", "statement": "The words of BATBOX are done one after the other, whatever the case of the letter of an option: /a writes the character of a number, /d a text, /n goes to the next line, /o x y sets an offset that is kept for later commands, /g x y goes to the place behind the offset, /h, /w and /c change the cursor, wait and set the colour (red and blue exchanged for terminals, foreground and background independent, other bits ignored). A number is a word that is one, else the content of the variable of that name, else 0. /k and /l wait for a key and end the command with it as status (an extended key as 224 plus the second code); with _ they go on if there is none. /m and /y ask the mouse and set three variables if three names follow, else write x:y:type. Other words are skipped; an option without its operand ends the command. Exceptions: the documented name behind /k and /l is never used, so that no variable is set and the words behind are dropped; /Y and /M_ wait for a click unlike /y and /m_; places are kept in 16 bits, so that /g 40000 0 goes to a negative column; sums beyond the integers are undefined and excluded.", "quantifier": "for every line of words, every state of variables, every offset and place, every keyboard and mouse", "why_tests_cant": "the effect of a word depends on all words before it, on the variables and on what keyboard and mouse answer", "anchors": ["modules/batbox/batbox.c: batbox, args_get_number, fast_switch_cmp, fast_noswitch_check, PORTABLE_COLOR"]}
{"id": "C104", "title": "Text stays text in the Markdown of tea", "statement": "What tea writes for a text as Markdown is read as exactly that text, with its blanks squeezed, whatever characters of Markdown (_ * [ ] ( ) | ~ #) are in it and whether they were written with a backslash or not; emphasis is written between ** and a link as [text](target), each with its text protected in the same way; this holds for all nodes of a paragraph one after the other. Exceptions: a backslash of the text itself is not protected, so that the character behind it becomes markup; titles are not protected at all; a paragraph whose first character is a dash written \\- begins with * and becomes an item of a list.", "quantifier": "for every text, every list of nodes, and every state of blanks before", "why_tests_cant": "the protection is put in before the backslashes of the document are taken out; that the two steps give the right text must hold for every sequence of characters and backslashes", "anchors": ["tea/src/out/tea_md_out.c: Tea_MDEscape, Tea_MDParseHandler, Tea_MDOutputHandler", "tea/src/Tea_Node.c: Tea_PurifyNode, Tea_SweepSpaceNode"]}
{"id": "C105", "title": "Tea shows paragraphs with the colours of their parts", "statement": "When tea shows a paragraph for a terminal, its parts are shown one after the other, emphasis in cyan and links in blue, plain text in no colour; each colour ends with its part, and all that can be seen of a part is shown within its colour. If every word fits in a line, the paragraph is shown, in lines that are not longer than the width, broken only behind blanks. Margins that leave no place end the program. Exception: a paragraph that begins with a word too long for a line is never finished: tea writes empty lines for ever.", "quantifier": "for every list of parts, every width and all margins", "why_tests_cant": "the colours must be right wherever lines are broken, for all texts; that the program does not end cannot be tested", "anchors": ["tea/src/out/tea_ansi_out.c: Tea_TextAnsiOutputParagraph", "tea/src/Tea_Output.c: Tea_OutputLineT"]}
{"id": "C106", "title": "Errors are reported in full, and the colour comes back", "statement": "When a command reports an error, the message of that error is shown on a line of its own in red, with the text, number or letter it is about in the place the message has for it, whatever that text contains and whatever the translation; on a terminal the reason the system gave follows if it is asked for; then the usual colour is set again. An error that ends the program says so, waits for a key and ends with the number of the error. Without a translation each error but five can be given any text, and those five are about a number or a letter. Exceptions: if errors do not go to a terminal, the reason is always that of a stream that is no terminal; numbers just behind the last error are looked up behind the table; at least two errors are reported with a complement of the wrong kind.", "quantifier": "for every error, complement, translation, reason and kind of stream", "why_tests_cant": "there are arbitrarily many complements and translations, and reading behind the table may look right in a test", "anchors": ["pbat/errors/pBat_Errors.c: pBat_ShowErrorMessage", "pbat/errors/pBat_Errors.c: pBat_LoadErrors", "libpbat/console/pBat_ConsoleANSI.c: pBat_SetConsoleTextColor"]}
