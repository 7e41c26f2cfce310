# Design

Formal model of darkbatcher/picobat (C) in Rocq/Coq 8.16.1. The source was read as text in
/repo; nothing was built or run.

## Trusted base

* **Coq's kernel** (8.16.1), without any switched-off check.
* **Axioms: none, but for C95.** Each property theorem is followed by `Print Assumptions`; each answers
  "Closed under the global context", except the theorems of C95 (TIMEOUT). Their arithmetic of doubles is Flocq's,
  on the real numbers of the standard library, so they list its axioms (and no others):
  `ClassicalDedekindReals.sig_not_dec`, `ClassicalDedekindReals.sig_forall_dec`,
  `FunctionalExtensionality.functional_extensionality_dep` and `Classical_Prop.classic`.
* **The reading of the C code.** Each definition of a `*_Model.v` file cites the file and
  lines that it models and says where it simplifies. That the Gallina text means the same as
  the C text is not proved; it is what a reviewer has to check.
* **The C library.** `strchr`, `strstr`, `strpbrk`, `strcasecmp`, `strncasecmp`, `strtol`,
  `atoi`, `bsearch`, `fgets`, `printf` of integers, `dup`/`dup2`/`close` ... are Gallina functions
  written from their standard description (C locale, UTF-8 mode of picobat, Linux build:
  `WIN32` undefined, 64-bit `size_t`, 32-bit `int`, FILENAME_MAX = 4096).
* **Oracles.** What the outside world answers is a variable of a section, hence universally
  quantified in the theorems; nothing is assumed about an oracle unless a hypothesis says so.

| oracle | stands for | used by |
|---|---|---|
| `strtod` | the conversion of decimal numbers (its text length and value) | IF comparisons (C32, C33, C55) |
| `exists_file`, `exists_dir` | `access`/`stat` at that moment (may depend on the history of events) | C32-C37, C58, PUSHD, program lookup |
| `leaf` | running a simple command, internal or external: new error level, new state, whether it aborts the script; depends on the whole history | C23-C26, C57-C62 |
| `can_open` | whether a file of a redirection can be opened, given the history | C25, C54, C57 |
| `forio` | files found by a mask, lines of files and of pipes for FOR | C26, C59, C60 |
| `scriptio` | contents and size of script files at each moment; the uninitialised `err` of `pBat_CheckBatchScriptChanges` | C62, C63 |
| `jumped` | which label the last command of a history looks for | C62 |
| `stat`, `cap` | metadata of a file for `%~a..` modifiers; capacity of the growable string | C50 |
| `search`, `wf_reads`, `ff_lines` | files found by a name, what successive `read`s return, the lines of a file | C38, C69 |
| `vw_rand`, `vw_date`, `vw_time`, `vw_cd` | dynamic variables | C48, C39 |
| `fp` | floating point operations, `strtod`, `atof` and printf of doubles; C67 assumes that whole numbers up to 2^53 are exact (`exact`) where it says so | C67 |
| `run`, `block` | what running the called script, or a command line, does to the state (any function) | C68, C70 |
| `fails`, `chunk` | which system calls on files fail, and how many bytes each read or write moves at most | C72-C74 |
| `search`, `recursive` of COPY | the files a name or pattern stands for in a given file system; COPY /R | C74 |
| `perm`, `dsize` | the permissions of files and the sizes of directories | C76, C77 |
| `addr`, `ka` | addresses of names in memory (the environment comparator subtracts pointers) | C15-C20 |

## Modelling conventions

* A `char` is an `ascii`; a C string is a `list ascii` without its terminator. A pointer into
  a string is an index or the suffix that starts there; NULL is `None`.
* `malloc`/`realloc` succeed (the code aborts otherwise). `Estr_Model` models growable strings down
  to the bytes of the buffer; the other files use ideal strings, which C05 justifies.
* `outcome A := Ret a | Undef | OutOfFuel`. Undefined behaviour (out-of-bounds access, uninitialised
  or freed memory, signed overflow, division by zero, `fclose(NULL)`) is `Undef`; loops that are
  not structural take fuel and answer `OutOfFuel` when it runs out. Theorems exclude both or
  characterise exactly when they happen; neither is ever an ordinary value.
* `int` arithmetic is on `Z` with an explicit overflow test wherever an overflow can occur.
* Code under `#ifdef WIN32`, messages and help texts, translation, and allocation failure are
  not modelled.
* Each subject has four files: `X_Model.v` (the code), `X_Spec.v` (what it should do, inductive
  relations or plain lists, readable without the model), `X_Proofs.v` and `X_Props.v` (property theorems
  `Cnn_name`, an example `Cnn_ex` showing that the hypotheses can be met, and `Print Assumptions`).
* When the documented statement is false of the faithful model, the property states the exact truth,
  and the violation is a theorem `Cnn_..._refuted`.

## What is modelled

| files | code |
|---|---|
| StrLib | libpbat/cmdlib/pBat_String.c: escape-aware searches, unescaping, trimming |
| Estr | libpbat/estr/pBat_Estr.c: growable strings to the byte, reading lines |
| EsCache | pbat/core/pBat_EsCache.c: pool of buffers |
| CmdList | libpbat/cmdlist/pBat_CmdList.c, command/pBat_Def.c (registration): command table |
| Pairs | pbatize/pairs.c |
| Glob | libpbat/dir/pBat_Dir.c: wildcard matching; libpbat/enc stepping |
| Attr | libpbat/dir/pBat_Attr.c |
| Env, EnvLocal, EnvStack | core/pBat_Env.c, core/pBat_EnvStack.c, command/pBat_Setlocal.c |
| Num | C integers |
| Var | core/pBat_Var.c: `%v%`, `%v:a=b%`, `%v:~n,m%`, dynamic variables |
| Path | core/pBat_SplitPath.c, pBat_FilePath.c, pBat_OsStream.c, command/pBat_Cd.c (canonicalisation), pBat_DirStack.c, pBat_Pushd.c, program lookup |
| LocalVar | core/pBat_Var.c: `%0`-`%9`, `%*`, `%+`, FOR variables and modifiers |
| Expand | core/pBat_Expand.c |
| Args | core/pBat_Args.c |
| Block | core/pBat_ParseBlock.c |
| Parse | core/pBat_Parse.c: operators, redirections |
| If | command/pBat_If.c, pBat_IfExp.c: conditions |
| Stream | core/pBat_Stream.c, redirection part of core/pBat_Run.c: descriptors |
| Run, RunBlock, Body | core/pBat_Run.c, command/pBat_Block.c, bodies of IF and FOR |
| ForTok, For | command/pBat_For.c |
| Script | core/pBat_ReadScript.c, pBat_Read.c, pBat_Jump.c, command/pBat_Goto.c |
| Params | command/pBat_Shift.c, pBat_Exit.c, parameters in pBat_Call.c and init/pBat_Init.c |
| Wc | command/pBat_Wc.c |
| Prompt | core/pBat_Prompt.c, command/pBat_Color.c, pBat_Echo.c, pBat_Pecho.c, libpbat/console/pBat_ConsoleANSI.c |
| Set | command/pBat_Set.c: SET without /a |
| SetA | command/pBat_Set.c SET /A; libfasteval scanner.l, parser.y, fasteval.c |
| Call | command/pBat_Call.c; core/pBat_FilePath.c GetFileFullPath |
| Find | command/pBat_Find.c; core/pBat_Read.c RmTrailingNl |
| Def | command/pBat_Def.c; core/pBat_ExpandDef.c; core/pBat_Run.c 451-471 |
| Fs | system calls on files as the commands see them; command/pBat_Ask.c; libpbat file existence tests |
| Copy | command/pBat_Copy.c without pBat_CmdCopyRecursive |
| Search | libpbat/dir/pBat_Dir.c 40-565: pBat_GetMatchFileList and what it calls; links are not modelled, entries come in the order of the file system map |
| Del | command/pBat_Del.c, command/pBat_Rmdir.c |
| Mkdir | command/pBat_Mkdir.c, command/pBat_Ren.c |
| Type | command/pBat_Type.c |
| Xargs | command/pBat_Xargs.c |
| CopyFail | (more about command/pBat_Copy.c) |
| More | command/pBat_More.c (output that is no console) |
| MoreCmd | (more about command/pBat_More.c) |
| Complete | core/pBat_Completion.c, linenoise/linenoise.c:461-582 |
| Edit | linenoise/linenoise.c:870-1304,1341-1368, linenoise/utf8.c:388-507, linenoise/pBat_LineNoise.c |
| EditHist | (more about linenoise/linenoise.c) |
| Exec | core/pBat_Exec.c (all but the Windows code), as a system of concurrent threads and processes |
| Pipe | core/pBat_Run.c:105-243, core/pBat_Clone.c (streams), core/pBat_Stream.c pBat_OpenOutputD/pBat_PopStreamStack, core/pBat_ExitInt.c, as a system of concurrent threads |
| Dir | pbat/command/pBat_Dir.c (all but the help and the buffering), libpbat/dir/pBat_Dir.c:828-844 |
| Start | pbat/command/pBat_Start.c (all but messages, the help and what the thread does, which is C87 and C88) |
| Main | pbat/init/pBat_Init.c:203-403, pbat/pBat.c:145-199 (not pBat_Auto.bat) |
| Cd | pbat/command/pBat_Cd.c:219-311, pbat/command/pBat_Pushd.c:51-123 |
| Clone | pbat/core/pBat_Clone.c:41-154, pbat/core/pBat_Env.c:80-135, libpbat/cmdlist/pBat_CmdList.c:348-412, pbat/core/pBat_Var.c:600-624, pbat/core/pBat_DirStack.c:96-137 |
| Gettext | microgettext/microgettext.c:53-681 (without microgettext_filelen and microgettext_loadfile, which read a file, and memory that runs out) |
| Timeout | pbat/command/pBat_Timeout.c:56-151 (without messages and help; strtod and pBat_Kbhit are parameters) |
| Extern | pbat/core/pBat_Run.c:386-486, 582-752, 755-795 (internal commands are found, not run; programs and scripts are parameters) |
| Dump | dump/dump.c:47-137, 171-305, 307-420, dump/dump_h_gen.c:26-56 (help, messages and set_bin_mode not) |
| Mod | pbat/command/pBat_Mod.c:224-386 (the functions that modules may call, 34-205, and pBat_ListMods' text are not) |
| Tea | tea/src/Tea_Load.c:33-178, 236-581, tea/src/Tea_Node.c:57-287 (the output of pages, Tea_Output.c, and the conversion of encodings are not) |
| Small | pbat/command/pBat_Pause.c:43-58, pBat_Title.c:47-72, pBat_Cls.c:43-66, pBat_Break.c:50-62, pBat_Ver.c:36-77, pBat_Rem.c:43-57, pBat_Chcp.c:131-134, pBat_Locale.c:66-97, pBat_Help.c:51-91 |
| Layout | tea/src/Tea_Output.c:26-211, tea/src/out/tea_text_out.c:78-215 |
| Html | tea/src/out/tea_html_out.c:218-318, 340-425 |
| Batbox | modules/batbox/batbox.c:37-58, 104-317 |
| Md | tea/src/out/tea_md_out.c:54-65, 83-166 |
| Ansi | tea/src/out/tea_ansi_out.c:85-156 |
| Errmsg | pbat/errors/pBat_Errors.c:38-290; libpbat/console/pBat_ConsoleANSI.c:69-74 |

## Plan per property

* **C01** Unescaped character search finds the first live occurrence: model `pBat_SearchChar` as an index scan counting carets backwards; spec: left-to-right protected-position predicate; proof by induction on the scan position. Theorems: `SearchChar_first_live`, `search_terminates`.
* **C02** Unescaped set search finds the first live occurrence: same for the set variants and the 'last' variants. Theorems: `SearchToken_first_live`, `SearchLastToken_last_live`, `SearchLastChar_last_live`, `SearchLastChar_caret_refuted`.
* **C03** Removing escapes inverts adding escapes: model `pBat_UnEscape` (strchr/memmove loop); spec: structural function on lists + relation 'escaped form of'; induction. Theorems: `UnEscape_inverts`, `UnEscape_total`, `UnEscape_plain`, `UnEscape_length`.
* **C04** Searches outside quotes never report a quoted or escaped position: model the quote-parity loops on suffixes with fuel; spec: positional predicate (even number of live quotes before); invariant on the scan. Theorems: `SearchToken_OutQuotes`, `SearchChar_OutQuotes`, `OutQuotes_terminates`, `Hybrid`.
* **C05** Growable strings never overrun their buffer: state machine over (buffer capacity, text) with every write checked against the capacity (out-of-bounds = distinct outcome); invariant by induction on operation lists, refinement to ideal strings. Theorems: `history_refines`, `call_refines`, `holds_capacity`.
* **C06** Replace-all replaces every non-overlapping occurrence, left to right: fuelled loop over strstr; spec: inductive relation of leftmost replacement; fuel shown sufficient for non-empty pattern, never sufficient for empty pattern. Theorems: `replace_all`, `replaced_total_unique`, `empty_pattern_never_returns`.
* **C07** Line reading delivers each input line once, whatever its length: fgets/realloc loop over a byte stream with explicit capacity; spec: split after line feed, normalise. Theorems: `read_lines`, `read_one_line`, `lines_exist`, `normalised_unix`, `normalised_dos`.
* **C08** String cache never hands out a buffer that is in use: bitmap as four 32-bit words, pool as slots; invariant: held slots = set bits, distinct; induction on histories. Theorems: `acquire_disjoint`, `held_distinct`, `fallback`.
* **C09** Command table: every registered command is found, whatever was registered before: every registered command is found, whatever was registered before: binary tree with strcasecmp/strncasecmp; BST invariant; lookup correctness under the ordering guard; refutation outside of the guard. Theorems: `lookup_sound`, `register_all`, `register_twice`, `register_unaffected`, `lookup_complete`, `lookup_alone`, `builtin_found`, `goto_semicolon_refuted`.
* **C10** Rebuilding the command table preserves it: `PutSeed` midpoint recursion on a sorted array; proof that the visited indices are a permutation; refutation for sizes 2 and 3. Theorems: `rebuild`, `build`, `small_tables_refuted`, `duplicate`, `define`.
* **C100** The small commands do what they say and nothing else: Small_Model has one function per command over its whole line, with the events that can be seen. The words of a line are given by Params_Spec.written. Proof: the next parameter of a written line is its first word; induction over the words for HELP. Theorems: `_title`, `_cls`, `_nothing`, `_ver`, `_pause`, `_help`, `_locale`, `_locale_refuted`, `_pause_refuted`, `_cut_refuted`.
* **C101** Tea lays out pages as text without losing, changing or breaking words: Layout_Model follows the two loops over lines. Layout_Spec says what laid out lines are (laid, filled, fits) without the program. Proof: a line and its rest make the text, a short word always gives a line that is not empty; induction over the steps. The endless loop is shown for any number of steps. Theorems: `_static`, `_forever_refuted`, `_paragraph`, `_exact_refuted`, `_parts_refuted`, `_null_refuted`, `_margins`.
* **C102** Tea writes well-formed HTML with all of the text: Html_Model writes the body as a string. Html_Spec has a grammar of HTML and reads a string back (strip, tags). Proof: what follows a point in n lists closes n lists (induction over the blocks); the reading of documents keeps the set of characters, so that no tag is in a text. Theorems: `_escape`, `_document`, `_page`, `_levels`, `_link`, `_quote_refuted`, `_dash_refuted`.
* **C103** BATBOX does its words in order: Batbox_Model has the loop as a function with fuel. Batbox_Spec has a relation over the list of words with one rule for each option, written without the functions of the model. Proof by induction over the fuel, which the length of the line bounds. Theorems: `_words`, `_key`, `_offset`, `_name_refuted`, `_case_refuted`, `_wrap_refuted`.
* **C104** Text stays text in the Markdown of tea: Md_Model applies the handler to a node and then the sweep of C99. Md_Spec reads Markdown: a character that can be markup must be behind a backslash. Proof: escaping a text that stands for l gives one that stands for l with backslashes (induction over the reading), then C99's lemma about the sweep. Theorems: `_text`, `_node`, `_paragraph`, `_backslash_refuted`, `_title_refuted`, `_dash_refuted`.
* **C105** Tea shows paragraphs with the colours of their parts: Ansi_Model has the loop with fuel over the functions of Layout_Model and writes text and sequences as events. Ansi_Spec says which events the parts may give. Proof of the colours by induction over the fuel for every run that ends; of the lines as for C101. Theorems: `_colours`, `_lines`, `_forever_refuted`, `_margins`.
* **C106** Errors are reported in full, and the colour comes back: Errmsg_Model has the table of messages, printf with one argument (a complement of the wrong kind is Undef) and the report as events, with errno as state. Errmsg_Spec says what a report is and what a message with a place says. Proof by splitting messages at their special sign; the table is checked by computation and a proved checker. Theorems: `_report`, `_reason_refuted`, `_english`, `_beyond_refuted`, `_kind_refuted`.
* **C11** Wildcards: a match is always justified: matcher as loop on suffixes; spec: inductive wildcard relation; soundness by induction on the fuel; refutations for `*?` and UTF-8. Theorems: `match_sound`, `case_match_sound`, `star_question_refuted`, `utf8_refuted`.
* **C12** Wildcards: which matches are found: which matches are found: completeness of leftmost-greedy segment matching. Theorems: `match_exact`, `case_match_exact`, `trailing_star_refuted`, `no_backtrack_refuted`.
* **C13** Splitting a file list by attributes is a partition: linked list relinking as a store of next pointers; partition = filter; refutations for the SYSTEM/VOID negation flags. Theorems: `split_partition`.
* **C14** Substring expansion gives the exact slice, cut at character boundaries: UTF-8 counting/skipping on bytes, int arithmetic with overflow as a distinct outcome; spec on lists of characters. Theorems: `substring`, `documented`, `tail`, `characters`, `negative_start_refuted`, `overflow_refuted`.
* **C15** Variable expansion leaves the environment unchanged: content buffer threaded through GetVar, including the temporary NUL; equality of stored environment on each path. Theorems: `unchanged`.
* **C16** The environment is a case-insensitive map: array of slots with binary search (glibc bsearch) and insertion; refinement to a finite map keyed by lower-cased names; induction over histories. Theorems: `history`, `any_case`, `trailing_blank_refuted`, `address_refuted`.
* **C17** The environment table stays sorted and duplicate free: same model, invariant part. Theorems: `initial`, `history`, `copy`, `procedures`, `order_refuted`.
* **C18** SETLOCAL/ENDLOCAL restore the variables: stack of environments; balanced histories; simulation. Theorems: `restored`, `same_values`, `lone_endlocal`, `free`, `not_saved`.
* **C19** SETLOCAL options and ENDLOCAL: refutation on the same model + what does hold (setting and restoring without options). Theorems: `switches`, `plain`, `options_refuted`.
* **C20** Procedure-local variables are restored on procedure exit: previous/inherit chains; theorem for environments in which the local search works, refutation for the reversed comparator and stale inherit flag. Theorems: `scoping`, `restored`, `exported`, `global`, `lowercase_refuted`, `stale_mark_refuted`, `setlocal_refuted`.
* **C21** Parameter splitting always progresses and loses nothing: model GetParameterPointers on suffixes. Theorems: `next`, `next_delims`, `list`, `ends`, `buffer`, `once_refuted`, `exact_refuted`.
* **C22** Quoting protects a parameter: round trip on the model of GetNextParameterEsD. Theorems: `quoted`, `word`, `any`.
* **C23** Command separators are recognised only outside quotes and blocks: model of ParseOperators; spec: positions at depth 0 outside quotes. Theorems: `lossless`, `operators`, `alike_refuted`.
* **C24** Conditional chains run exactly the right commands: ExecOperators as a fold over nodes with an oracle of command outcomes; spec: small evaluator. Theorems: `chain`, `line`, `if_refuted`, `pipe_if_refuted`, `abandon_refuted`, `for_refuted`.
* **C25** Redirections are undone after the command: descriptor table + stack of saved descriptors; LIFO restore by induction; failure of open included. Theorems: `redirect`, `run`, `nested_refuted`.
* **C26** FOR /L visits start, start+step, ... up to end: loop over int32 with overflow outcome; spec arithmetic progression. Theorems: `steps`, `too_many`, `progression`, `none`, `forever`, `overflow`, `handled`.
* **C27** FOR /F selects the requested words: parser of tokens= and splitter; refutation + guarded theorem. Theorems: `words`, `options`, `overflow`, `bad`, `unassign`, `even_refuted`, `leak_refuted`.
* **C28** GOTO finds the first matching label: label list scan; spec find. Theorems: `jump`, `file`, `file_missing`, `missing_undefined`, `case_refuted`, `cmdly`, `cmdly_refuted`, `goto`, `goto_bare`.
* **C29** Script loading keeps commands and labels in order: line-by-line loader; spec filter. Theorems: `load`, `any`, `bytes`.
* **C30** Parameters of scripts: passing and SHIFT: argument block as function of digits; spec shift on lists. Theorems: `shift`, `refused`, `shifts`, `call`, `argv`, `seven_refuted`, `far_refuted`, `surplus_refuted`.
* **C31** EXIT returns the requested code: model of argument handling with atoi; refutation. Theorems: `level`, `end`, `end_refuted`, `blank_refuted`.
* **C32** IF expressions follow boolean logic: expression trees with uninitialised results as a distinct outcome. Theorems: `if`, `or`, `compare`, `object`, `and_refuted`, `malformed_refuted`.
* **C33** IF NOT negates: decision part of CmdIf; refutation + positive cases. Theorems: `not`, `compare_refuted`.
* **C34** Splitting a path and gluing it back: model of the splitter; concatenation theorem + refutation for drive letters. Theorems: `split`, `drive`, `roundtrip_refuted`.
* **C35** Directory canonicalisation: in-place canonicalisation on lists; spec: component walk. Theorems: `absolute`, `relative`, `usual_meaning`, `failure`, `stable`, `refuted`.
* **C36** PUSHD/POPD restore directories in reverse order: stack machine with directory-existence oracle. Theorems: `restored`, `stack`, `lifo`, `empty_refuted`.
* **C37** Program lookup order: candidate enumeration; spec: first existing of the product list. Theorems: `order`.
* **C38** WC counts exactly, however the reads cut the text: state machine over chunks; chunking independence by fold_left_app; refutation for the last word. Theorems: `counts`, `chunking`, `stdin`, `files`, `sizes`, `refused`, `last_refuted`, `default_refuted`.
* **C39** Prompt strings: loop on suffixes; spec on tokens. Theorems: `prompt`, `variable`, `text`, `pecho`, `set`, `pecho_refuted`, `broken_refuted`.
* **C40** Device names: name table with strtol. Theorems: `named`, `ports`, `untouched`, `exact_refuted`.
* **C41** Trimming removes exactly the blanks: trimming functions; spec: the text is blanks, core, blanks. Theorems: `StripEndDelims`, `SkipBlanks`.
* **C42** Case-insensitive replace-all rewrites the occurrences of the pattern: byte-level model of the case-insensitive replacement; refuted by computation. Theorems: `replace_nocase_refuted`, `replace_nocase_reads_stale_refuted`.
* **C43** pbatize considers every pair of switches exactly once: enumeration of pairs; spec: each pair i<j exactly once; induction. Theorems: `pairs`, `expressions`, `empty_refuted`.
* **C44** DEF /f redefines the command it names and no other: replacement in the command tree; exact effect on look-ups; refutation. Theorems: `replace_one`, `replace_right_one`, `setlocal_refuted`.
* **C45** Attribute strings select the documented files: attribute strings as masks of bits; exact meaning of each letter; refutations. Theorems: `check_exact`, `check_positive`, `not_void_refuted`, `hidden_void_refuted`.
* **C46** The initial environment is that of the process: initial table built from the process environment; insertion sort invariant. Theorems: `initial_values`, `value_refuted`.
* **C47** The environment block of child processes is exact: block of "name=value" strings; exact list in table order. Theorems: `block`.
* **C48** Plain, replacing and default references: GetVar on each syntactic form; spec: value, replacement, default. Theorems: `plain`, `dynamic`, `replace`, `default`, `undefined`, `total_refuted`.
* **C49** Full paths: full path = current directory + name, components canonicalised; idempotence. Theorems: `full_path`, `idempotent`, `in_place_refuted`.
* **C50** One-letter variables and their modifiers: one-letter blocks and modifiers; spec by parts of paths. Theorems: `plain`, `unquoted`, `modifiers`, `undefined`, `assignments`, `total_refuted`.
* **C51** %-expansion of a line: expansion of a line; spec: sequence of pieces; induction on pieces, fuel sufficient. Theorems: `pieces`, `lone`, `ends`, `total_refuted`.
* **C52** Late expansion of parameters: late expansion with `!`; composition with C51. Theorems: `delayed_off`, `delayed_on`, `no_locals`, `verbatim_refuted`.
* **C53** Blocks of commands end at their own parenthesis: block parser; spec: grammar of balanced blocks with quotes and escapes; induction on the grammar. Theorems: `block`, `line`, `begin`, `flat`, `total`, `adjacent_refuted`.
* **C54** Redirections are taken out of a command and say where streams go: redirection parser; spec: list of redirections taken out in order. Theorems: `redirections`, `missing`, `total`, `line`, `dup_refuted`.
* **C55** IF compares numbers by value and other texts in dictionary order: comparison of tokens with `strtod` oracle, integers exactly and dyadic values; case analysis. Theorems: `numbers`, `text`, `cases`, `opposite`, `converse`, `unknown`, `equal`, `equal_quoted`, `equal_refuted`, `order_refuted`, `exact_refuted`, `nan_refuted`, `left_refuted`.
* **C56** What IF ERRORLEVEL tests: IF ERRORLEVEL over the stored level; refutation of the documented meaning. Theorems: `errorlevel`, `level_refuted`.
* **C57** A block runs its lines one after the other, on the streams its redirections give: block command: lines of the block run in order on the streams of its redirections; both directions (same_runs). Theorems: `lines`, `block`, `handled`, `blank_refuted`.
* **C58** IF runs the block the condition selects, and only it: IF: relation between the line and the selected block; both directions. Theorems: `then`, `else`, `both`, `skip`, `lines`, `paren_refuted`, `rest_refuted`.
* **C59** FOR runs its body for each word of the list: FOR: relation between the line and one turn per word; both directions. Theorems: `words`, `plain`, `colon_refuted`.
* **C60** FOR /F runs its body for each line of its input: FOR /F: one turn per line of input; both directions. Theorems: `lines`, `later_file_refuted`, `recursive_refuted`.
* **C61** Lines of a script are joined into complete commands: joining of lines; spec: the grammar of complete groups of lines. Theorems: `group`, `unclosed`, `check`.
* **C62** A script runs its commands in order, from label to label: script loop; spec: big-step relation on command numbers and labels; induction both on fuel and on runs. Theorems: `runs`.
* **C63** A script changed while running is read again: reload after change; spec by sizes and contents at each moment. Theorems: `reload`, `unchanged`, `shorter_refuted`, `seen_refuted`.
* **C64** Colour codes: colour words as bits; spec by hues; finite case analysis on bits plus induction-free composition. Theorems: `digits`, `colors`, `one_refuted`, `default_refuted`.
* **C65** ECHO prints what follows it: ECHO on the parameter model; spec by `written` parameters and the expansion of the text. Theorems: `punctuation`, `text`, `state`, `error`, `escaped`.
* **C66** SET assigns, lists and reads variables: SET on the environment model and the parameter model; spec: text of the assignment, sorted listing by names; uses the invariants of C16/C17. Theorems: `assign`, `exported`, `list`, `bare`, `bare_refuted`, `prompt`, `prompt_error`.
* **C67** SET /A computes integer expressions exactly and assigns what it computed: Scanner and parser (precedence climbing that evaluates eagerly, as the bison tables do) modelled over an abstract floating point record. A grammar of texts (spells) and a meaning of expressions in Z are given independently; the scanner yields tokens of the text, the parser's result is the value of the tree (induction on the token grammar), and the value agrees with the meaning when whole numbers up to 2^53 are exact. Theorems: `sequence`, `integer`, `compound`, `float`, `float_compound`, `fraction_refuted`, `errors`, `syntax_refuted`, `zero_refuted`, `shift_refuted`, `chain`, `shift_assign_refuted`, `logical_assign_refuted`, `words_refuted`, `precedence_refuted`, `blank_refuted`.
* **C68** CALL runs a script, a label or a program and gives the caller its own state back: CALL modelled with the run of the called script as an arbitrary function of input and state. The option loop is related to a specification of lines (asks), and the start and end of a call to begins/resumes, using C28 for labels, C30 for parameters and C36 for the lookup. Theorems: `label`, `label_missing_refuted`, `file`, `extended`, `program`, `errors`, `help_refuted`, `lost_refuted`, `self_refuted`.
* **C69** FIND prints exactly the lines that contain the text: The option loop is related to a specification of parameter lists (asks) through C30's written lines; the search of one file is proved by induction on its lines, with strcasestr/strstr related to containment and the matcher of expressions proved total by the length of the expression. Theorems: `stdin`, `file`, `files`, `determined`, `errors`, `help`, `unreadable_refuted`, `option_text_refuted`.
* **C70** DEF defines procedures, and a line that names one runs its text with the parameters filled in: A text is split into literal characters and references (template); ten replacements one after the other are proved equal to filling in all at once by induction on the references still to come. Definition and lookup reuse the table theorems C09, C10 and C44; the call reuses C20's balance of saved variables. Theorems: `expand`, `template`, `injection_refuted`, `define`, `found`, `redefine`, `list`, `error`, `help`, `call`, `list_blank_refuted`.
* **C71** A question takes one line of the input and gives the answer that the line spells: Case analysis on the line; the specification lists the answers (answers). Theorems: `answer`, `end_refuted`.
* **C72** Copying a file gives the destination the same content, however the reads and writes are cut: The file system is a finite map with system calls that may fail and that read or write as little as one byte (fails, chunk). The write loop is proved by induction on the bytes left, the read loop by induction on the content left; fuel is bounded by the content. Theorems: `copy`, `append`, `self_refuted`, `endless_refuted`, `transient_refuted`, `destroyed_refuted`.
* **C73** Moving a file never leaves two copies, and keeps the content unless the rename fails: Case analysis on remove and rename over the model of the file system. Theorems: `move`, `lost_refuted`, `self_refuted`.
* **C74** COPY and MOVE treat each source once, ask before they overwrite, and touch nothing else: The line is written by a grammar (written, asked); parameters are proved by induction on it; each file is one trip with its answer, and lists of trips are composed by induction. Theorems: `into`, `file`, `concat`, `errors`, `help`, `move_plus`, `answer`, `yes_refuted`, `two_refuted`, `plus_asks_refuted`, `path_refuted`, `failures`.
* **C75** A path with wildcards stands for exactly the files whose names match it, each once: The search is modelled over the tree of Fs_Model with fuel bounded by the depth of the tree; the specification reach follows the components; soundness, completeness, absence of duplicates and order are proved together by induction on the components and on the depth left. Theorems: `pattern`, `name`, `directory`, `star_name_refuted`, `plain_end_refuted`, `pseudo_refuted`, `star_refuted`.
* **C76** DEL deletes exactly the wanted files that its names stand for and that the user agrees to: The answers are a relation (decided); the loop with questions is reduced to a list of deletions, proved by induction; composed with C75 for patterns. Theorems: `delete`, `pattern`, `nothing`, `prompt_refuted`, `directory_refuted`, `readonly_refuted`, `path_refuted`.
* **C77** RD removes a directory only if it is empty, and with /S exactly the tree below it: As C76; that every directory is empty when its turn comes follows from the order of the search (inner_first, C75). Theorems: `one`, `several`, `tree`, `nothing`, `status_refuted`, `files_refuted`.
* **C78** MD makes the directories named and those above them, and never harms what is there: Induction over the path with the invariant that nothing is lost (grown) and over the names; success and failure decided by the final look-up. Theorems: `one`, `command`, `no_name_refuted`.
* **C79** REN gives a file or directory another name in its own directory, or changes nothing: Through the specification of rename (C71) and the place of dir/name; overrun of the buffer is Undef and excluded by an explicit bound. Theorems: `rename`, `errors`, `replaces_refuted`, `overflow_refuted`.
* **C80** TYPE prints the files it was given, byte for byte, and reports those it could not open: Induction over the read loop (what was printed is a prefix of the file), over the parameters (which paths are kept) and over the files. Theorems: `files`, `file`, `input`, `errors`, `names_refuted`, `unread_refuted`.
* **C81** XARGS hands each line of its input to the command as one parameter: The text that is built is shown to be written in the sense of C29 (each line is one parameter of it), by cases on whether a line is put in quotes. Theorems: `lines`, `nothing`, `line_refuted`.
* **C82** MORE loses nothing of a text when its output is no console: it only cuts lines into rows: Induction over the input with the state of the machine (column, rows to skip, escape mode); the rows are specified by relations on lines (cut, kept), the conservation of characters by filters of the output. Theorems: `rows`, `ink`, `width`, `blank_refuted`, `utf8_refuted`, `escape_refuted`, `skip_refuted`, `tab_refuted`.
* **C83** MORE prints the files it was given in turn: Induction over the parameters (relation wishes) and over the files; C82_rows gives the usual case. Theorems: `files`, `file`, `input`, `errors`, `unreadable_refuted`, `path_refuted`.
* **C84** The TAB key completes a name as far as all candidates agree, and never loses text of the line: Complete_Model uses the real search of C75; candidates by the reachability relation of Search_Spec, longest common beginning by induction over the candidates, rows of the list by induction with the column as the state. Theorems: `candidates`, `list`, `tab`, `case_refuted`, `exact_refuted`, `wild_refuted`, `middle_refuted`, `width_refuted`, `quote_refuted`.
* **C85** The line editor does to the line exactly what the keys say, in whole characters: A relation (Edit_Spec.does) says what each key does to a zipper of code points; Edit_Proofs.act shows that each operation on the buffer of bytes refines it; induction over the keys. For ASCII, an invariant of the state of the editor. Theorems: `edit`, `ascii`, `mark_refuted`, `swap_refuted`, `nul_refuted`, `invalid_refuted`, `eof_refuted`.
* **C86** Lines that were entered can be found again, and looking at them loses nothing: From C85: typing and browsing are sequences of keys; induction over the lines with the remembered ones as invariant (holds), induction over k for browsing. Theorems: `history`, `recall`, `back`, `cut_refuted`, `cancel_refuted`, `edited_refuted`.
* **C87** A program is run once, and its exit code is told once it ended, whatever else runs at the same time: A transition system of n threads and their processes; a step is a call of the system (fork, close, read, exec ...), any order. Exec_Spec says what a trace of visible events may look like. Proof: an inductive invariant (Exec_Proofs.ok) that ties the state of each call to the trace; a measure for termination; case analysis of states in which only programs can end. Theorems: `told`, `code`, `once`, `ends`, `alone`, `blocked_refuted`, `signal_refuted`, `script_refuted`, `zombie_refuted`.
* **C88** A chain of pipes gives what its commands give one after the other, and never gets stuck: A transition system of m + 1 threads with one table of descriptors and m pipes of bounded capacity; a step is a call of the system, any order. Pipe_Spec defines what a chain of commands can have read and written. Proof: an ownership invariant (each open descriptor belongs to one thread, and is known from its place: Pipe_Proofs.ainv), then one on the bytes (dinv); no deadlock by going down the chain from a full pipe and up from an empty one; uniqueness by comparing two runs of a command on inputs that are beginnings of one another. Theorems: `output`, `same`, `prefix`, `order`, `no_deadlock`, `restored`, `back`, `unfinished_refuted`.
* **C89** DIR lists exactly the files that its parameters mean: Dir_Model follows pBat_CmdDir: the parameters, then the search (Search_Model), the filter of attributes, and what is written. Dir_Spec says what is asked (dir_asked), for which path a name stands (meant_by), how a size (size_shown) and a line (shown) look. Proof: what is found extends the path from which it was looked for (match_ext, found_below), so that cutting off the current directory gives back the name; C89_here by C75_pattern. Theorems: `bare`, `long`, `none`, `here`, `size`, `size_refuted`, `root_refuted`, `device_refuted`, `wild_refuted`.
* **C90** START runs what follows its options, with exactly these parameters: Start_Model follows pBat_CmdStart up to the call of pBat_ExecuteFile (C87) or of the thread. Start_Spec says what the options ask for (start_asked), what is a title and what a program, and what is given to it (gives). Proof: induction over the options (asked_ok); the texts put together for the interpreter are read back as the expected parameters (written_interpreter). Theorems: `program`, `script`, `builtin`, `thread`, `uri`, `nothing`, `errors`, `name_refuted`, `blank_refuted`.
* **C91** The interpreter does what its command line says: Main_Model follows pBat_GetParameters and main up to the running of the line and of the script. Main_Spec says what the switches ask for (told), what names the script, and in which order things are run (tasks). Proof: induction over the switches (told_ok); the parameters by the lemmas of C30; the composition with C90 by showing that what START writes is read as the same request (told_state). Theorems: `script`, `missing`, `prompt`, `command`, `errors`, `started_script`, `started_command`, `absolute_refuted`, `started_absolute_refuted`, `comma_refuted`.
* **C92** CD goes where its line says, and POPD comes back from PUSHD: Cd_Model follows the lines of CD, PUSHD and POPD and uses pBat_SetCurrentDir of Path_Model. Cd_Spec says what a text names (names), where a path leads (arrives, by walking components) and what PUSHD does (pushes). Proof: the cut at the end by induction, the walk by C35's lemmas, generalised to all current directories that the interpreter can have, PUSHD by induction over its parameters. Theorems: `cd`, `print`, `pushd`, `kept`, `popd`, `back`, `d_refuted`, `quotes_refuted`.
* **C93** Instances that run at the same time do not see each other's variables: Clone_Model has a memory with pointers, the functions that copy an instance, and a system of instances whose steps interleave. Clone_Spec says what an instance knows and what it can reach. Proof: every copy is made of new blocks that point to new blocks only, and says the same; every block has an owner, which steps keep; what is known depends only on blocks that can be reached. Theorems: `copy`, `isolated`, `disjoint`, `waits`, `setlocal_refuted`.
* **C94** Messages are translated exactly as the catalogue of the language says: Gettext_Model follows microgettext.c on the bytes of the file, with reads outside as undefined behaviour, and the binary search of the C library. Gettext_Spec has the format of catalogues, the order of texts and the place of the file. Proof: comparison of texts is the order, binary search finds what is in a sorted list, the tables are read as they are, and the kept catalogues are those of the files (invariant over histories). Theorems: `translated`, `missing`, `path`, `domain`, `magic_refuted`, `end_refuted`, `damaged_refuted`, `spanish_refuted`, `locale_refuted`.
* **C95** TIMEOUT waits as long as it is told: Timeout_Model follows pBat_CmdTimeout with IEEE doubles (Flocq's binary64, to nearest). Timeout_Spec has the parameters, the time slept and the first look that sees a key. Proof: each subtraction of 0.1 errs by 2^-36 at most below 131072, so the errors of the count, by induction over the number of steps, stay below a tenth of a millisecond; the last sleep is cut to milliseconds. Theorems: `waits`, `key`, `for_ever`, `none`, `rejected`, `help`, `count_refuted`, `second_refuted`, `nan_refuted`.
* **C96** A line that names a program or a script runs it once, with the words written behind it: Extern_Model follows pBat_RunCommand (its rounds with fuel; running out is a visible ending), pBat_RunExternalCommand and the preparation of a script's instance; it gives the list of what was run. Extern_Spec has the words of a line and the state in which a script begins. Proof: one lemma per kind of round; the endless searches by induction over the number of rounds. Theorems: `program`, `script`, `internal`, `unknown`, `later`, `again_refuted`, `empty_refuted`.
* **C97** dump shows every byte of files, with addresses and characters: Dump_Model follows dump.c; memory that was not written is None, so printing it is Undef; printf with an argument of the wrong kind is Undef. Dump_Spec says which text is the number of some bytes, what a row is, what a file's rows are, and which options choose what. Proof: digits by induction over the number, one lemma for each type (all 7 x 2 formats), rows by induction over the reads with the buffer of characters as invariant. Theorems: `files`, `input`, `missing`, `short_refuted`, `pipe_refuted`, `error_refuted`, `wide_refuted`, `kinds_refuted`, `double_refuted`, `names_refuted`.
* **C98** MOD loads the modules it names, each of them at most once: Mod_Model follows pBat_CmdMod with PBAT_USE_MODULES. Mod_Spec has the steps as a relation over the words of the line. Proof: the model finds one derivation, derivations are unique; invariants by induction over derivations. Theorems: `words`, `once`, `all`, `case_refuted`, `home_refuted`.
* **C99** Documents of tea are read as they are written: Tea_Model follows Tea_Load.c and Tea_Node.c from the lines of the file to the nodes of each paragraph. Tea_Spec has grammars as inductive relations: documents, paired braces, paragraphs, inline text, characters read, marks. Proof: the searches find first occurrences; parsing is sound and complete for the grammars; words are preserved through every step. Theorems: `blocks`, `paragraphs`, `inline`, `shown`, `titles`, `code`, `words`, `ends`, `escape_refuted`, `titles_refuted`, `twice_refuted`, `comments`, `mark_refuted`.

## Not modelled

* Windows code and libcu8 beyond character stepping (its files are for Windows).
* libpbat: pBat_Console.c (keys and mouse of a terminal), pBat_Thread.c, pBat_Sleep.c, pBat_Stack.c, pBat_UnicodeDir.c, pBat_GetExePath in
  pBat_StdFile.c. Where a modelled function calls these, the model has a parameter or an event.
* pbat: the texts of messages and of the help (pBat_Lang.c, pBat_ShowHelp.c, pBat_ShowIntro.c, pBat_CommandInfo.c),
  pBat_FdInheritance.c, pBat_Debug.c, pBat_CmdCopyRecursive, MORE on a console, what modules may call (pBat_Mod.c:34-205, modules/lib,
  modules/sample).
* libfasteval: xmath.c (the functions on floating point numbers).
* tea: the options of the program (tea.c), the conversion of encodings, the head of HTML pages, the layout of Markdown pages beyond
  that of text.
* pbatize.c (pairs.c is modelled), tests, build files, scripts.
* Everywhere: memory that runs out, unless a property says otherwise.

`leaf` covers running any command of a line: C23-C26, C57-C62 hold whatever it does.

## Findings

Deviations from the documentation or from sane behaviour that the model shows; those with a theorem are
marked by its name.

*Undefined behaviour*
* GOTO to a missing label frees an uninitialised structure (C28_missing_undefined).
* `[ and` in an IF expression uses freed memory, a lone `[` frees twice, `res2` is read uninitialised (C32_malformed_refuted).
* `if ==x` reads the character before the token.
* `%v:~n,m%` with numbers near INT_MAX overflows (C14_overflow_refuted).
* FOR /L overflows when a step passes INT_MAX (C26_overflow). FOR /F with a second file that cannot be opened calls `fclose(NULL)` (C60_later_file_refuted).
* `pBat_EsToFullPath` reads memory after `realloc` (C49_in_place_refuted).
* PECHO with nothing behind it reads past the end of the line (C39_pecho_refuted).
* ENDLOCAL passes NULL to `setenv`; a bare SET dereferences NULL on an empty environment.
* Case-insensitive replacement reads stale memory (C42_replace_nocase_reads_stale_refuted).

*Never returns*
* `%v:=x%` (C06_empty_pattern_never_returns), `for %%a in (a:b)` (C59_colon_refuted), FOR /L with step 0 (C26_forever).

*Wrong results*
* C02_SearchLastChar_caret_refuted: the last '^' cannot be searched.
* C09_goto_semicolon_refuted, C10_small_tables_refuted (tables of 2 or 3 commands lose one), C44_setlocal_refuted (DEF /f SETLOCAL replaces SET).
* C11/C12: `*?`, trailing `*`, no backtracking, UTF-8.
* C14_negative_start_refuted: `%v:~-3,2%`.
* C16_address_refuted, C17_order_refuted: the comparator of the environment compares addresses; C16_trailing_blank_refuted: `set a =`.
* C19_options_refuted: ENDLOCAL does not undo options. C20_*: procedure-local variables.
* C21_once_refuted: parameters may be expanded twice.
* C23/C24: `if 1==1 echo :)`, AND binds looser than OR, `a | if ...` never runs its body, redirections behind ELSE.
* C25_nested_refuted: `2>&1` inside redirected blocks. C54_dup_refuted: `>&2` makes an empty file name, `2>&2`.
* C27: even token numbers, leaking wrapped variables. C26: FOR /L reports 24 for a fourth number.
* C28_case_refuted: GOTO /F takes files whose names differ by case only for one; C28_cmdly_refuted.
* C30: SHIFT /7 is refused; SHIFT beyond the tenth parameter; surplus parameters with '^', new lines or nothing in them.
* C31: `EXIT n` ignores n; `EXIT /B n` and a blank is an error and does not leave; the interpreter's own exit status is always 0.
* C32_and_refuted, C33_compare_refuted (IF NOT a LSS b ignores NOT), C55 (`1==01` is true; `.`/NaN order), C56_level_refuted.
* C34_roundtrip_refuted, C35_refuted (`/../x`), C36_empty_refuted (POPD to ""), C40_exact_refuted (COM4294967297).
* C38: a last word is not counted; no default for the standard input. C39_broken_refuted: a broken `$x` swallows a character.
* C43_empty_refuted, C45 (`-V`, `-I`), C46_value_refuted, C48_total_refuted, C50-C52 refutations (carets, `%~a`).
* C53_adjacent_refuted: `((a)(b))`. C58_paren_refuted, C58_rest_refuted. C60_recursive_refuted.
* C63: a script that shrinks starts again; a change of the same size is not seen.
* C64: one-digit colours shift the background; default counts as black.
* C66_bare_refuted: SET alone after a variable was removed prints a NULL name.
* SET /A with a syntax error (`x=1+`) sets the variable to nan and reports no error (C67_syntax_refuted).
* SET /A `x=1/0` divides integers by zero, undefined, even in `1/0+2.5` (C67_zero_refuted); `1<<32` is undefined (C67_shift_refuted).
* SET /A `x<<=1` and `x>>=1` set variables named `x<<` and `x>>` (C67_shift_assign_refuted); `x&&=1` reads the variable `x&` (C67_logical_assign_refuted).
* SET /A: the levels of `&`, `^`, `|`, `&&`, `||` are not those of the manual (C67_precedence_refuted); `!` is no operator though the manual lists it, 09 is 0 (C67_words_refuted).
* CALL of a label that the running script does not have frees an uninitialised structure (C68_label_missing_refuted).
* A script that calls itself by file (CALL %0) is not restarted: the inner run goes on behind the CALL because the loaded script and its position are reused (C68_self_refuted).
* CALL /E file arg: the first parameter is dropped when no label is given (C68_lost_refuted).
* CALL script /? shows the help of CALL (C68_help_refuted).
* FIND with a file that cannot be opened calls fclose(NULL) (C69_unreadable_refuted).
* FIND cannot search for a text that is spelled like one of its options, even quoted (C69_option_text_refuted).
* Text that a parameter brings into a procedure is scanned for references again, so a parameter `$2` is replaced, and `$` in front of a parameter joins with it (C70_injection_refuted).
* The tenth parameter of a procedure is spelled `$:`, so a `$:` in a text never stays (pBat_ExpandDef.c:44, C70_expand).
* `DEF /L` followed by a blank lists nothing (C70_list_blank_refuted).
* SET /A reads a variable as an int where no other number has a point: with y=2.5, `x=y` sets x to 2, and with y=inf it is undefined (C67_fraction_refuted).
* An invalid answer to a question leads to the read of `iRet`, which is not set (pBat_Ask.c:200); at the end of the input `c` is read although nothing was read into it (pBat_Ask.c:66; C71_answer, C71_end_refuted).
* `COPY a a` empties the file with status 0; appending a file to itself never ends; a write that fails once after a part was written repeats a byte with status 0; a failing copy has already emptied its destination (C72_*_refuted).
* MOVE removes the destination before the rename, so a rename that fails (for instance across file systems) loses it; `MOVE a a` deletes the file (C73_lost_refuted, C73_self_refuted).
* `/Y` does not suppress the questions of COPY, `/-Y` does; man/en_US/copy.tea says the opposite (C74_yes_refuted).
* A pattern that stands for two files, copied to a file, leaves only the last one, and MOVE loses the first; the manual says they are concatenated (C74_two_refuted).
* With `+`, a question is asked for each file after the first although the destination was made by the command itself, and its default is no (C74_plus_asks_refuted).
* A path that starts with `/a` is taken for the option /A (C74_path_refuted).
* A file literally named with a wildcard hides the others that its name means: with `/a/x*` present, the pattern `/a/x*` stands for that file only (C75_star_name_refuted).
* A recursive search whose last name is plain after a wildcard component (`/*/y`) does not look inside the directories found, although `/a/y` does (C75_plain_end_refuted).
* Without PBAT_SEARCH_NO_PSEUDO_DIR (COPY, TYPE, FIND, FOR, WC, MORE) a star in the middle of a path also stands for `.` and `..` (C75_pseudo_refuted).
* Wildcard components match in any case, plain components only exactly; a trailing `*` needs at least one character (spec meant in Search_Spec.v).
* pBat_DirExists uses stat, so a recursive search, and with it RD /S, follows symbolic links to directories (read from the source, links are outside the model).
* DEL /P has no effect unless a name has a wildcard, when DEL asks anyway (C76_prompt_refuted); the manual says it asks before every deletion.
* `DEL dir` deletes all files of the directory without any question, while `DEL dir/*` asks (C76_directory_refuted).
* PBAT_FILE_READONLY is 0 on Linux, so `DEL /A:-d f` deletes a read-only file without /F; `DEL f` on a read-only file leaves it with status 0 and no message (C76_readonly_refuted).
* DEL takes a path that starts with /a for the option /A (C76_path_refuted).
* RD drops the status of the removal when one name is given: removing a directory that is not empty, or does not exist, sets error level 0 (C77_status_refuted).
* `RD a b` (or RD with /S) deletes plain files too (C77_files_refuted).
* `MD` without a name sets error level 0: the test for a missing name reads the name of the command (C78_no_name_refuted).
* REN replaces an existing file of the new name without a question (C79_replaces_refuted).
* The strncat of pBat_Ren.c:106 is given the room left without the final NUL, so a new name that does not fit writes past the end of the buffer (C79_overflow_refuted).
* TYPE forgets files: pBat_Type.c:144-147 never moves the end of its list, so `TYPE a b c` does not print b (C80_names_refuted).
* TYPE gives error level 0 for a file that could not be read to its end (C80_unread_refuted).
* XARGS passes lines that start with a quote as they are, even if something follows the quoted part, and does not protect ^ (C81_line_refuted).
* MORE loses an empty line that follows a line of 79, 158, ... columns (C82_blank_refuted), cuts multi-byte characters in the last column (C82_utf8_refuted), prints byte 255 if the text ends within a control sequence (C82_escape_refuted), and /T:0 (or /T alone) divides by zero (C82_tab_refuted).
* MORE closes a null stream if a file cannot be opened (C83_unreadable_refuted), and takes every path that begins with /t, such as /tmp/x, for the option /T (C83_path_refuted).
* The TAB key keeps the case of what was typed, so that the completed name need not exist (C84_case_refuted); a file whose name was typed in full is no candidate, so that TAB changes it to a longer one (C84_exact_refuted); wildcards in the word make it read behind the end of a name (C84_wild_refuted); it moves text by an overlapping memcpy (C84_middle_refuted); names of 80 bytes divide by zero (C84_width_refuted); an unclosed quote does not keep blanks in a word (C84_quote_refuted).
* The line editor: a combining mark as the first character hangs or reads uninitialised data (C85_mark_refuted); CTRL+T swaps bytes and so breaks UTF-8 (C85_swap_refuted); CTRL+SPACE puts a NUL into the line, and what is behind is silently not executed (C85_nul_refuted); a byte that is no UTF-8 executes the line (C85_invalid_refuted); at the end of the input (a terminal that hangs up) the unfinished line is executed, and then empty lines forever (C85_eof_refuted).
* The history: a line of 4095 bytes loses its last byte when recalled (C86_cut_refuted); CTRL+C remembers the cancelled line (C86_cancel_refuted); browsing edits the history (C86_edited_refuted).
* Running programs: a program killed by a signal gives the error level 0 (C87_signal_refuted: WEXITSTATUS without WIFEXITED); START /WAIT through the script gives the raw status, 256 times the code (C87_script_refuted); pBat_StartFile closes no descriptors, so a script started while another thread is between pipe and close keeps that thread waiting until the script ends (C87_blocked_refuted); a process whose exec failed stays a zombie (C87_zombie_refuted). By reading: pBat_RunFile ignores that chdir failed.
* Pipes: the threads of the left commands are never waited for (pBat_CloseThread right after the clone), so a line can be done, and the next one run, before the left command started (C88_unfinished_refuted).
* DIR in the root directory loses the first letter of each name: it skips strlen(lpCurrentDir) + 1 characters, but the root is one slash (C89_root_refuted).
* DIR NUL (or CON, COM1, ...) skips strlen(lpCurrentDir) + 1 characters of the path of the device, which can be shorter: a read beyond the end of the string (C89_device_refuted).
* DIR in a directory that has a wildcard in its name lists files of other directories (C89_wild_refuted).
* DIR shows sizes modulo 4 GiB: pBat_FormatFileSize takes an unsigned int (C89_size_refuted).
* START /NODE or /AFFINITY as the last parameter: the next parameter is read from NULL (C90_errors, last part).
* START of a file whose name begins with ECHO (echotool) runs the command ECHO (C90_name_refuted); so does START of a relative path whose first directory has the name of a command (more/x).
* START puts the path of the interpreter in front of the line without quotes: with a blank in it, the interpreter gets half of its own path as script (C90_blank_refuted).
* START /D dir with a relative name of a batch file: it is found from the current directory, but its name is given as written to an interpreter that starts in dir (C90_script).
* On Linux the interpreter cannot be given a script by its absolute path: /usr/a.bat is read as a switch, and the message for it prints NULL with %s (C91_absolute_refuted, C91_errors); /c/a.bat is read as /C. Therefore START of a batch file by its absolute path does not run it (C91_started_absolute_refuted).
* The mode /A:V does nothing: delayed expansion is on from the start (pBat_Globals.c:56), and no switch turns it off. A second /A without Q undoes the quietness that the first asked for.
* Words behind /C are quoted only if they have blanks, so commas and semicolons in them are separators (C91_comma_refuted).
* CD takes a directory named /d for the switch (C92_d_refuted). pBat_CmdCd_nix does not reset lpNext before it looks for the end of the text, so that nothing is cut off if there are only quotes and blanks: CD "" looks for a directory named by a quote (C92_quotes_refuted). CD prints the current directory without a line end.
* An absolute path that is missing is then looked for below the current directory: CD /x goes to ./x (C35_refuted, C92_ex).
* A clone has no SETLOCAL stack (lpesEnv is not copied), so ENDLOCAL does nothing in a pipe, in the command of FOR /F or in a script run without CALL (C93_setlocal_refuted).
* microgettext_load_mofile rejects a file only if it is too short and has a wrong magic number (&& instead of ||): anything else is taken as a catalogue, and short files are read beyond their end (C94_magic_refuted, C94_damaged_refuted). Offsets of -1 and tables at negative offsets pass the test of bounds, and texts without an end are read beyond the file (C94_damaged_refuted). Catalogues of the other byte order are accepted but not converted.
* microgettext_check_bounds wants one byte more than needed behind a table (C94_end_refuted).
* The table of languages has spanish;, kikuyu;, ossetian; and uighur; with semicolons (C94_spanish_refuted).
* After the start LC_NUMERIC is C; on Linux setlocale(LC_ALL, NULL) then lists all categories, and the language becomes lc: LOCALE never finds a translation unless the locale is C (C94_locale_refuted).
* microgettext_filelen calls fseek with its last two arguments exchanged, which works only because both are 0.
* TIMEOUT counts down by subtracting 0.1 from a double: above 2^50 seconds, and with inf, the count does not move and TIMEOUT never ends unless a key is pressed (C95_count_refuted). With nan it does not wait at all (C95_nan_refuted).
* TIMEOUT tells that it already has a number by its not being 0, so TIMEOUT 0 5 waits 5 seconds (C95_second_refuted).
* pBat_RunCommand does not reset its count of errors: when the first search for a program fails and the second, after the expansion of the whole line, finds one (delayed expansion, x set to ls -l, line !x! /tmp), the program is run over and over, for ever (C96_again_refuted).
* With delayed expansion, a line that expands to nothing (!x! with x undefined) hangs the interpreter: the search for a command is repeated for ever (C96_empty_refuted).
* dump: the table of types has UINT and LONGLONG both as 5, so unsigned long long is read as float (undefined for printf's %llu), float as double (reads behind the buffer), and double is not shown at all (C97_kinds_refuted, C97_double_refuted).
* dump: input that lacks at least one element of the first row is shown with memory that was never written, up to some NUL: the end of the string in the buffer of characters is replaced by a dot as well (C97_short_refuted). In a later short row the characters of the row before remain visible.
* dump: read() is taken to fill whole rows; pieces from a pipe give zeros in the middle and wrong addresses (C97_pipe_refuted), and an error gives memcpy(..., -1) (C97_error_refuted).
* dump: the loop for /B tests the pointer instead of the character and runs past its argument; dump /bin/ls does it as well, dump /tmp/x complains about a type (C97_names_refuted).
* dump /H shows negative bytes and shorts with eight digits (C97_wide_refuted).
* MOD compares paths of modules without regard to case, also where files differ by case: /m/b.so cannot be loaded once /m/B.so is (C98_case_refuted).
* MOD name with PBAT_PATH unset passes NULL to pBat_MakePath (C98_home_refuted). The buffer that MOD allocates is never freed: its pointer is overwritten.
* tea: a backslash does not keep {{ and ${ from opening a block, though it does for { (C99_escape_refuted).
* tea: Tea_SweepSpace and Tea_SweepSpaceNode return at a final backslash without ending the text they rewrote in place, so that some of it is shown twice (C99_twice_refuted); Tea_SweepSpace does not note that a character taken with a backslash ends a group of blanks (C99_titles_refuted).
* tea: iFirstline is cleared only by a byte order mark, so the first mark of the file is dropped wherever it is (C99_mark_refuted). iEscapeFound is never cleared, without effect on what is shown (C99_shown holds for both values).
* LOCALE never passes over its own name: it loads messages from ./LOCALE and refuses the directory it is given, and /? too (C100_locale, C100_locale_refuted).
* PAUSE looks for /? at the seventh character of its line, which is behind the end for PAUSE alone; a longer line that was in the same string (BREAK /? for one) makes it show the help and not wait (C100_pause_refuted).
* CLS and TITLE compare with a buffer of 3 or 2 characters: messages are cut, TITLE /?x shows the help (C100_cut_refuted).
* tea as text: a word of code or of a title as long as the line (71 characters for code) is never written, and empty lines are written for ever (C101_forever_refuted).
* tea as text: a word of a paragraph that fills its last line exactly (75 characters) ends its part and gives pBat_GetNextChar(NULL) (C101_exact_refuted); a long word spread over parts is split by counting characters that are not in this part (C101_parts_refuted); a part that ends with an end of line gives NULL as well (C101_null_refuted).
* tea as HTML: double quotes in the target of a link are not escaped, so that a document can add attributes to its links (C102_quote_refuted).
* tea as HTML: a dash at the beginning of a paragraph is left out even if it was escaped (C102_dash_refuted).
* BATBOX /k NAME and /l NAME never set the variable: the test of the next parameter is for NULL, where the name would have to be there; the key becomes the error level and the rest of the line is dropped (C103_name_refuted, C103_key).
* BATBOX /Y and /M_ wait for a click though /y and /m_ do not (C103_case_refuted).
* BATBOX keeps places in 16 bits without a check: /g 40000 0 goes to column -25536 (C103_wrap_refuted).
* tea as Markdown: a backslash of the text is not escaped: \\_ in a document is written \\_, where _ is markup (C104_backslash_refuted).
* tea as Markdown: titles are written without escapes (C104_title_refuted).
* tea as Markdown: a paragraph that begins with \- becomes an item of a list (C104_dash_refuted).
* tea for terminals: a paragraph that begins with a word too long for a line makes the program write empty lines for ever (C105_forever_refuted).
* Error messages: the reason is read from errno after the colour has been set, and setting the colour asks isatty; if errors do not go to a terminal, the reason shown is that of ENOTTY whatever happened (C106_reason_refuted). The number is compared with the size of the table in bytes (C106_beyond_refuted). The error about duplicated files is given a text for its %d in pBat_Clone.c, a bad option gives NULL for a %s in pBat_Init.c (C106_kind_refuted).
