# Formal model of snower/syncany-sql in Rocq (Coq 8.16.1)

## Trusted base

* Coq 8.16.1's kernel and `vm_compute` (part of the kernel). No axioms are declared. `Print Assumptions` was run for every
  theorem named in `MANIFEST.json` (and stands below each property theorem in its `*_Props.v` file). It answers
  "Closed under the global context" for all of them except those that go through Coq's real numbers:
  `arithmetic_floats_rounded`, `datediff_reversed`, `decimal_text_nearest`, `division_exact`, `division_integers_rounded`, `math_function`, `month_add_documented`, `month_add_exact`, `month_sub_documented`, `month_sub_exact`, `ntile_even`, `round_beyond`, `round_double`, `round_integer`, `sec_time_roundtrip`, `sqrt_correct`, `sqrt_square`, `timestampdiff_calendar_units`, `timestampdiff_fixed_units`.
  For these it lists exactly the standard library's `ClassicalDedekindReals.sig_not_dec`,
  `ClassicalDedekindReals.sig_forall_dec`, `FunctionalExtensionality.functional_extensionality_dep` and
  `Classical_Prop.classic`. Flocq (no axioms of its own) supplies the correctness of binary64 rounding. The other axioms a build
  log shows (`Rdefinitions`, `ssrunder`) are fields of the standard library's sealed modules that Flocq loads; no theorem here depends on them.
* The reading of `/repo` as text: the code cannot be run here, so each definition cites the file and lines it models.
* The *dependencies* `syncany` (loaders, pipelines, partition driver, sorting, reading of compiled joins) and `sqlglot`
  (parser) are not in `/repo`. Where they matter they are an explicit argument of the model ("oracle"), an explicit hypothesis of
  the theorem, or a reading written down in the header of the model file ("trusted reading"); never an axiom. Python's own `re`,
  `json`, `datetime`, `codecs` are modelled where a property needs them (integers exact, doubles by Flocq, `datetime` as
  proleptic Gregorian calendar) and arguments otherwise.

## Conventions

* Area `X` has up to four files: `X_Model.v` (functions mirroring the code branch by branch, each with a `/repo` citation),
  `X_Spec.v` (the small specification, not importing the model), `X_Proofs.v`, and `X_Props.v` (the property
  theorems, with `Print Assumptions`, and `Example`s showing hypotheses are met).
* Exceptions are values (`Ok`/`Err`). Text is a list of code points (`N`). Integers are `Z` (Python ints are unbounded).
  Python slices, including negative indices, are modelled exactly.
* When the unchanged code violates a property: `<name>_refuted` gives a witness, and a positive theorem
  characterises what the code does, or the exact inputs for which the property holds. The claim is then `partial`
  in `MANIFEST.json` with a note.
* `seeded/LOG.jsonl` logs the wrong programs the theorems were tested against.

## Which code is modelled

| file of `/repo/syncanysql` | modelled | not modelled |
|---|---|---|
| `parser.py` | all | |
| `utils.py` | all | |
| `config.py` | loading and inclusion of files, merging, setting, sessions, `CONST_CONFIG_KEYS` | parsing of JSON and YAML, logging set-up |
| `executor.py`, `__init__.py` | statement queue, raw SQL blocks, contexts, variables and where they come from (environment, command line), memory data | database objects, network |
| `prompt.py` | completeness check, history file | terminal |
| `main.py` | choice and order of scripts, exit codes | logging, signals |
| `compiler.py` | interpolation, constants, literals, names and options of tables, file tables, INSERT, DELETE, UNION, WITH, subqueries, WHERE, HAVING, joins and their rewrites, ORDER BY, LIMIT, DISTINCT, GROUP BY with aggregates at any depth of the items, types of pushed conditions, CAST of columns, window functions, kinds of statements, whole statements and queries over one table each, whole SELECTs with or without aggregates over joins, whole queries made of all these kinds of SELECTs, LIMIT tokens, logical expressions | see the notes of C33-C37, C54-C62; dispatch of commands, the conversions of CAST |
| `taskers/query.py` | reduce tasks, temporary memory, start and arguments, aggregates, scheduling of statements and subqueries | progress output, statistics |
| `taskers/into.py`, `set.py`, `explain.py`, `delete.py`, `use.py`, `show.py` | all but formatting | layout of what is printed |
| `calculaters/*.py` | aggregate, window, env variables, query tasker calculater, mysql dispatch | `pyeval`, `generate` |
| `calculaters/mysql_funcs/*.py` | logical, number, string, regexp, json, date, encoding functions named in the properties | `NOW()`, random, what the math library computes (except roots) |

## Plan per property

For each property: the files, what is modelled, how it is proved. What is missing from a partial one is in the note of `MANIFEST.json`.

| id | status | files | modelled | proof |
|---|---|---|---|---|
| C01 Script splitting yields exact statements in order | proved | Parser | `parser.py` as an index machine on text | induction on the rest of the text; refinement to a declarative tokeniser (`Parser_Spec`) |
| C02 Separators in string literals and quoted names never split; join/split round trip | proved | Parser | same | round trip by induction over the pieces |
| C03 A quoted part ends at the first unescaped quote, otherwise the script is rejected | proved | Parser | same | induction on the text, iff-characterisation of rejection |
| C04 Comments between statements | proved | Parser | same | simulation between the text with and without comments; refutations where comment marks interact with quotes |
| C05 Prompt completeness | proved | Parser | `prompt.py` completeness check | case analysis on the tokeniser's result |
| C06 Quoted-name placeholders round trip | proved | Parser, Mapping | `parse_mapping`, `to_sql` | invariant: placeholders are distinct and absent from the text |
| C07 Variable interpolation ${name:default} | proved | Interp | `compile_variable`; the regular expression as a scanner | induction on the text, declarative grammar |
| C08 Variable scoping | proved | Env | `EnvVariables` chain | state machine over set/get, induction over histories |
| C09 Coercion to numbers | proved | Utils | `utils.py` number coercion | induction on text, maximality of the prefix |
| C10 SET literals are parsed to the value they denote | proved | Stmt | `SET` values: literals and expressions | case analysis on the kinds of literals, and on their absence |
| C11 Comparison operators and NULL | proved | Calc | comparison functions of `logical_funcs.py` | case analysis over value types |
| C12 IN follows three-valued logic | proved | Calc | IN / NOT IN | induction over the list |
| C13 SQL functions never abort a query | proved | Calc | `mysql_calculater` dispatch and its exception handling | case analysis on every function; refuted ones by witness |
| C14 Arithmetic: NULL propagation, division by zero, exact integers | proved | Calc, Float | arithmetic functions; binary64 by Flocq | Z arithmetic, Flocq's rounding theorems |
| C15 Bit operations on integers | proved | Calc | bit functions | Z bitwise lemmas |
| C16 GREATEST / LEAST | proved | Calc | GREATEST, LEAST | induction over arguments |
| C17 SUBSTRING, LEFT, RIGHT, INSERT at positive positions | proved | Str | slices of `string_funcs.py`, negative indices exact | list lemmas |
| C18 CONCAT, REPEAT and REVERSE | proved | Str | CONCAT.. functions | list lemmas, induction |
| C19 FIELD and FIND_IN_SET | proved | Str | ELT, FIELD, FIND_IN_SET, SUBSTRING_INDEX | induction over pieces |
| C20 LIKE with a pattern that ends in % | proved | Regexp | LIKE translation and matching | declarative matcher, induction on pattern |
| C21 Aggregates do not depend on batching | proved | Agg | `aggregate_calculater.py` | homomorphism over list append |
| C22 COUNT, COUNT DISTINCT, MIN, MAX and integer SUM do not depend on row order | proved | Agg | same | Permutation induction |
| C23 Streaming GROUP BY equals one-shot GROUP BY | proved | Reduce | `ReduceHooker` / reduce tasks of `taskers/query.py` | invariant over batches |
| C24 Window functions: row numbers and neighbours | proved | Window, Float | `window_calculater.py` | induction over the partition |
| C25 JSON path: writing then reading | proved | Json | path parser and JSON_SET.. on trees | structural induction |
| C26 JSON_REMOVE of members and elements | proved | Json | JSON_REMOVE | structural induction |
| C27 Date arithmetic with months and years | proved | Date, Float | `calculate_datetime` on proleptic Gregorian dates | Z arithmetic |
| C28 Date arithmetic with fixed units is invertible | proved | Date | same | Z arithmetic |
| C29 Configuration updates | proved | Config | `config.py` merge and set | induction on trees of settings |
| C30 Session configuration overlays the global one | proved | Config | `SessionConfig` | state machine, invariants over histories |
| C31 Each submitted statement is started and run exactly once, in submission order | proved | Exec | `executor.py`, `__init__.py` | state machine over histories |
| C32 LIMIT and OFFSET | proved | Select | the LIMIT parts of `compiler.py`, of `taskers/query.py` and the two-task split | equational reasoning on row lists |
| C33 WHERE pushdown preserves the result | proved | Where | `compile_where_condition` and the push-down | induction over conditions |
| C34 Boolean and conditional expressions as in SQL | proved | Expr | `compile_calculate` of logical forms | induction over expressions with three-valued semantics |
| C35 ORDER BY | proved | Select | `compile_order` | stable-sort lemmas |
| C36 UNION ALL | proved | Union | `compile_union` | induction over the tree of SELECTs |
| C37 Joins of one kind | proved | Joins | join rewrites, join compilation | induction over join lists, relational semantics |
| C38 Temporary tables of subqueries live as long as they are used | proved | Temp | temporary memory manager | invariants over event traces |
| C39 SELECT ... INTO variables | proved | Into | `taskers/into.py` | case analysis |
| C40 DELETE removes only rows matching the whole WHERE clause | proved | Where | `compile_delete` | from C33 |
| C41 Prompt history keeps the most recent entries | proved | Hist | `CliFileHistory` | invariants |
| C42 Execution contexts nest | proved | Exec | context stack | invariants over histories |
| C43 FLOOR, CEIL and SIGN are exact | proved | Calc | FLOOR, CEIL, SIGN | exact rational reading of doubles |
| C44 REPLACE, STRCMP, prefix/suffix/substring tests, TRIM | proved | Str | REPLACE, STRCMP, TRIM ... | list induction |
| C45 REGEXP functions agree on the k-th match | proved | Regexp | REGEXP_* over any matcher | case analysis with the matcher as argument |
| C46 JSON_CONTAINS_PATH one/all | proved | Json | JSON_CONTAINS_PATH | induction over paths |
| C47 JSON_DEPTH, JSON_LENGTH, JSON_KEYS, JSON_OBJECT | proved | Json | JSON_DEPTH, ... | structural induction |
| C48 Time intervals written as text | proved | Date | `TIME_INTERVAL_RE` as a backtracking matcher, ADDTIME, SUBTIME | induction on digit strings |
| C49 TIMESTAMPDIFF in units of fixed length | proved | Date, Float | DATEDIFF, TIMESTAMPDIFF | Z arithmetic, rounding of `/` |
| C50 WEEKDAY and DAYOFYEAR | proved | Date, Float | parts of dates | Z arithmetic |
| C51 SELECT DISTINCT | proved | Select | DISTINCT compilation | row-list reasoning |
| C52 Text literals | proved | Literal | `parse_const` texts | induction on the literal, declarative escape grammar |
| C53 Constants | proved | Literal | `is_const`, `compile_const`, variables | case analysis |
| C54 INSERT ... VALUES | proved | Insert | `compile_insert_into` | induction over columns and tuples |
| C55 The format of a file | proved | Files | `parse_table` for paths | induction over the list of files |
| C56 Compiling a join ends | proved | Joins | `optimize_rewrite_right_join`, `parse_on_condition` | well-founded measure; a diverging run for the refuted ones |
| C57 HAVING keeps the rows satisfying the condition | proved | Having | `compile_having_condition` | induction over conditions |
| C58 HAVING reads only result columns | partial | Having | same | induction over conditions |
| C59 Aggregates over groups | proved | Group, Reduce | `compile_aggregate_*` | induction over rows, invariants on reduce states |
| C60 The groups do not depend on the select list | proved | Group | same | corollary of C59 and witnesses |
| C61 WITH tables | proved | With | `compile_with`, `compile_subquery`, writing of subquery outputs | induction over the nesting of queries |
| C62 Settings reach subqueries unchanged | proved | Args | the dictionary of settings through compile, start and EXPLAIN | induction over the path to the subquery |
| C63 Subqueries in expressions | proved | Subq | `parse_subquery` (splitting of WHERE), `compile_query_condition`, one run for a batch of outer rows | induction over WHERE, equational reasoning on row lists |
| C64 Aggregates in subqueries | proved | Subq, Reduce | same with added GROUP BY | lemma: groups of the rows with one key |
| C65 Scripts given to the command | proved | Cli, Exec | `main.py` over the scheduling model of C31 | case analysis, induction over the scripts |
| C66 Commands of the prompt do not disturb each other | proved | Cli, Exec | the loop of `CliPrompt.run` | induction over the inputs, invariant: empty queue |
| C67 Columns of the result | proved | Cols | `compile_select` loop, star expansion, `compile_select_column`, `compile_select_calculate_column` on the dict of columns | invariant over the entries asked for; specification: first-occurrence order and last-item-wins |
| C68 No select item is lost | partial | Cols | same | counterexamples; induction: once everything, always everything |
| C69 Key of the result | proved | Cols | the primary-key bookkeeping of the same functions and lines 568-580 | same invariant |
| C70 Annotations of columns | proved | Annot | `parse_column` on the text of the name, `compile_column` | splitting lemmas; induction over the filters; independence of the middle filters |
| C71 Memory tables of the engine | proved | Api | the memory-table methods of `ScriptEngine` | induction over the history with the invariant `rows = content of the history` |
| C72 A closed engine stays closed | proved | Api | `setup`, `close` and what follows it | case analysis and induction over the calls before close; counterexamples |
| C73 No separator inside a statement | proved | Parser | as C01 | refinement to the declarative tokeniser for plain comments |
| C74 Variables under both names | partial | Env | as C08 | round trip; counterexample |
| C75 CONCAT_WS | proved | Str | CONCAT_WS | induction; counterexample |
| C76 ELT and SUBSTRING_INDEX | proved | Str | ELT, SUBSTRING_INDEX | induction over pieces; counterexamples |
| C77 NTH_VALUE, RANK without ties, even NTILE | proved | Window, Float | `window_calculater.py` | induction over the partition; counterexamples |
| C78 Scripts as sequences of statements | partial | Exec | as C31 | commutation of independent statements; counterexamples |
| C79 SEC_TO_TIME and TIME_TO_SEC | proved | Date, Float | DAYOFWEEK, SEC_TO_TIME, TIME_TO_SEC | Z arithmetic; refutation for all dates |
| C80 Bit literals and minus signs | partial | Literal | as C53 | case analysis; refutation for all constants |
| C81 Scripts on standard input without arguments | partial | Cli, Exec | as C65 | case analysis; refutation for all scripts |
| C82 Key by which the source is read | partial | Cols | as C69 | invariant; counterexample |
| C83 The API on contexts and as functions | partial | Api | `ExecuterContext`, the module's functions, `get_database`, `terminal`, with the thread-local context | case analysis; counterexamples |
| C84 TO_BASE64 and FROM_BASE64 | proved | Codec | `to_base64`, `from_base64` with UTF-8 and `binascii.a2b_base64` in full | induction three bytes at a time; arithmetic of UTF-8; positional value of the digits |
| C85 HEX and UNHEX of texts | proved | Codec | `hex`, `unhex` on texts | induction over the bytes |
| C86 Digits of BIN, OCT and HEX | proved | Codec | `bin`, `oct`, `hex` of integers | positional numbers; refutations for all integers |
| C87 CHAR, and ASCII and ORD of one character | proved | Codec | `char`, `ord`, `ascii` | induction; refutation for all longer texts |
| C88 IS_IPV4 and IS_IPV6 | proved | Codec | `is_ipv4/6`, `inet4/6_aton` over an arbitrary parser of addresses | case analysis |
| C89 CRC32 and INET_NTOA | partial | Codec | `crc32`, `inet4/6_ntoa` | case analysis; refutation for all values |
| C90 Variables within a script | proved | Vars | `script` = start all statements, then perform what they submitted; `Vars_Spec.sequence` is the sequential meaning, `hoist` the order the code uses | `script_exact` by induction over nested statements; `ordered_alike` by commuting early statements; refutation |
| C91 Variables of statements submitted one at a time | proved | Vars | `one_by_one`: each statement a script of its own | from `ordered_alike` by induction over the sequence |
| C92 An executed file has its own variables | proved | Vars | scopes of executors; `SetGlobal` reaches the last scope | invariant over all statements of nested files (`below`, `quiet`) |
| C93 SET of a variable from its own value | proved | Vars | `put_new` (declaration by IntoTasker.start) | refutation; positive part as C91 |
| C94 Configuration files that extend others | proved | Load | `load`, `load_config` (recursion with fuel), `with_files`, `drop_falsy`; `Load_Spec.chain` is the tree of extended files, `latest` the value given last | `load_chain`: what is loaded is a chain of merges; `merge_step` for every setting |
| C95 The configuration of the working directory overrides that of the home directory | partial | Load | `order`: the iteration order of the Python set of file names, arbitrary | witness of two orders; `agreed_settings_in_any_order` for agreeing files |
| C96 Circular configuration files | proved | Load | graph of files `extends` | `chain_acc`: a loaded file is accessible, so not on or before a circle; `chain_exists` by induction on the finite set of reachable files |
| C97 Initial files | proved | Load | `find_files`; `executes` concatenated by `merge_config` | `merges_items` by induction over the chain |
| C98 Standard databases | proved | Load | `set_databases`: standard databases, redis defaults, formats | exact value of every option of every database (`databases_after_load`) |
| C99 Encoding and formats of one database | partial | Load | `set_formats` | exact characterisation and witness |
| C100 Configuration keys that cannot be set | partial | Config | `set`, `set_config` | witnesses |
| C101 Signed decimals in SET | partial | Stmt | `SET` values: literals and expressions | witnesses of the refuted part of the former C10; positive part where stated |
| C102 Comparison is symmetric | proved | Calc | comparison functions of `logical_funcs.py` | witnesses of the refuted part of the former C11; positive part where stated |
| C103 Functions called with too many arguments | partial | Calc | `mysql_calculater` dispatch and its exception handling | witnesses of the refuted part of the former C13; positive part where stated |
| C104 AVG does not depend on row order | proved | Agg | same | witnesses of the refuted part of the former C22; positive part where stated |
| C105 SELECT ... INTO with no rows, too few columns or a star | partial | Into | `taskers/into.py` | witnesses of the refuted part of the former C39; positive part where stated |
| C106 The loaded history has at most 50 entries | partial | Hist | `CliFileHistory` | witnesses of the refuted part of the former C41; positive part where stated |
| C107 DATEDIFF and TIMESTAMPDIFF in months | partial | Date, Float | DATEDIFF, TIMESTAMPDIFF | witnesses of the refuted part of the former C49; positive part where stated |
| C108 Several files in a statement | partial | Files | `parse_table` for paths | witnesses of the refuted part of the former C55; positive part where stated |
| C109 ASCII and ORD of longer texts | partial | Codec | `char`, `ord`, `ascii` | witnesses of the refuted part of the former C87; positive part where stated |
| C110 Window functions | proved | Winq | `compile_window_column/_key/_order/_value/_calculate`, `parse_windows`, the select-list loop, final values of the second task | compilation lemma over the select list; partition by filter, unique stable sort, position by splitting; aggregates by the fold lemmas of Group |
| C111 Window functions that are refused | proved | Winq | the same | every error of the compiler is CompileError; induction over the items |
| C112 Aggregates over windows with ties | partial | Winq | the same | witness; exact rows by window_query_rows |
| C113 Frames and completed named windows | partial | Winq | the same | the compiled query is invariant under removing frames; witnesses |
| C114 Names in PARTITION BY and ORDER BY of windows | partial | Winq | the same | witness |
| C115 Expressions around window functions | partial | Winq | the same | witnesses; order of columns proved without expressions |
| C116 Unknown statements are refused | proved | Stmt | which tasker a parsed statement becomes | case analysis on the kinds of statements |
| C117 EXPLAIN runs its statement verbosely | proved | Stmt | `ExplainTasker` around a query | both runs computed from the open parts of the machine |
| C118 EXPLAIN changes nothing and works for every statement | partial | Stmt | `ExplainTasker` around other statements | witnesses, for every statement of the kind |
| C119 SET of a literal changes one variable | proved | Stmt | `SetCommandTasker`, variables and global variables | the text cut at its first equals sign; the target of the key; values by C10 |
| C120 SET of any expression and name | partial | Stmt | `SetCommandTasker` | witnesses, for every statement of the kind |
| C121 SHOW DATABASES and SHOW IMPORTS | proved | Stmt | `ShowCommandTasker` | induction on the list of databases; reading the merged configuration again gives the same |
| C122 SHOW of anything else | partial | Stmt | `ShowCommandTasker` | witnesses |
| C123 USE | proved | Stmt | `UseCommandTasker`, entries of configuration sections | splitting at the word as; lemma for setting an entry of a section (C29) |
| C124 USE of source files and AS in capitals | partial | Stmt | `UseCommandTasker` | witnesses |
| C125 LIMIT m, n | proved | Limit | the LIMIT tokens of the dialect | computation on token lists |
| C126 Arguments of functions in placeholders | proved | Utils | `utils.parse_value` | case analysis |
| C127 Raw SQL blocks | proved | Raw | `RAW_SQL_RE`, the block loop of `Executor.run`, view definition by SET | matching of the regular expression on each block, induction on the blocks; replacement touches only the blocks |
| C128 Defining a view keeps the other views | partial | Raw, Config | `merge_config`, `SessionConfig.get` | witness |
| C129 Comments with quotes | partial | Parser | as for C04 | witnesses; the exact behaviour where stated |
| C130 Inserted values are not interpreted again | partial | Interp | as for C07 | witnesses; the exact behaviour where stated |
| C131 SUBSTRING, LEFT, RIGHT at zero and negative positions | partial | Str | as for C17 | witnesses; the exact behaviour where stated |
| C132 LIKE with any pattern | partial | Regexp | as for C20 | witnesses; the exact behaviour where stated |
| C133 AVG with NULLs, SUM of floats and JSON_OBJECTAGG in batches | partial | Agg | as for C21 | witnesses; the exact behaviour where stated |
| C134 Streaming AVG with NULLs | partial | Reduce | as for C23 | witnesses; the exact behaviour where stated |
| C135 JSON_REMOVE through an index | partial | Json | as for C26 | witnesses; the exact behaviour where stated |
| C136 Adding months up to December, negative intervals, leap days | partial | Date, Float | as for C27 | witnesses; the exact behaviour where stated |
| C137 Later changes and defaults of the global configuration | partial | Config | as for C30 | witnesses; the exact behaviour where stated |
| C138 LIMIT with DISTINCT or bare GROUP BY, and LIMIT 0 | partial | Select | as for C32 | witnesses; the exact behaviour where stated |
| C139 WHERE pushdown of reversed comparisons, IN columns and typed columns | partial | Where | as for C33 | witnesses; the exact behaviour where stated |
| C140 AND and OR as values, NOT of unknown conditions, CASE without ELSE | partial | Expr | as for C34 | witnesses; the exact behaviour where stated |
| C141 ORDER BY an alias that hides a column | partial | Select | as for C35 | witnesses; the exact behaviour where stated |
| C142 UNION, EXCEPT, INTERSECT and matching by position | partial | Union | as for C36 | witnesses; the exact behaviour where stated |
| C143 Mixtures of joins | partial | Joins | as for C37 | witnesses; the exact behaviour where stated |
| C144 Temporary tables when results are streamed | partial | Temp | as for C38 | witnesses; the exact behaviour where stated |
| C145 DELETE with reversed comparisons and typed columns | partial | Where | as for C40 | witnesses; the exact behaviour where stated |
| C146 Re-entered and nested contexts | partial | Exec | as for C42 | witnesses; the exact behaviour where stated |
| C147 DISTINCT with GROUP BY or aggregates | partial | Select | as for C51 | witnesses; the exact behaviour where stated |
| C148 Text literals with Latin-1 characters | partial | Literal | as for C52 | witnesses; the exact behaviour where stated |
| C149 INSERT of mixed numbers, without column list, and INSERT ... SELECT with columns | partial | Insert | as for C54 | witnesses; the exact behaviour where stated |
| C150 RIGHT JOIN compared with itself and constants in ON | partial | Joins | as for C56 | witnesses; the exact behaviour where stated |
| C151 HAVING with BETWEEN, IF, LIKE or a bare column | partial | Having | as for C57 | witnesses; the exact behaviour where stated |
| C152 Bare columns around aggregates, and aggregates of an empty table | partial | Group, Reduce | as for C59 | witnesses; the exact behaviour where stated |
| C153 GROUP BY an alias or a position | partial | Group | as for C60 | witnesses; the exact behaviour where stated |
| C154 WITH tables are for one statement | partial | With | as for C61 | witnesses; the exact behaviour where stated |
| C155 Subqueries with LIMIT or a table of the outer query | partial | Subq | as for C63 | witnesses; the exact behaviour where stated |
| C156 Aggregates in subqueries over no rows or with inequalities | partial | Subq, Reduce | as for C64 | witnesses; the exact behaviour where stated |
| C157 Many annotations | partial | Annot | as for C70 | witnesses; the exact behaviour where stated |
| C158 CONCAT_WS with NULL arguments | partial | Str | as for C75 | witnesses; the exact behaviour where stated |
| C159 ELT at the ends and SUBSTRING_INDEX from the right | partial | Str | as for C76 | witnesses; the exact behaviour where stated |
| C160 Ranking with ties | partial | Window, Float | as for C77 | witnesses; the exact behaviour where stated |
| C161 DAYOFWEEK, and times of 24 hours and more | partial | Date, Float | as for C79 | witnesses; the exact behaviour where stated |
| C162 BIN, OCT and HEX as in SQL | partial | Codec | as for C86 | witnesses; the exact behaviour where stated |
| C163 Variables used before a later SET | partial | Vars | as for C90 | witnesses; the exact behaviour where stated |
| C164 SET of a variable of an enclosing scope from its own value | partial | Vars | as for C93 | witnesses; the exact behaviour where stated |
| C165 Comparison of different kinds is symmetric | partial | see C102 | as for C102 | witnesses; the exact behaviour where stated |
| C166 AVG with NULLs and SUM of texts do not depend on row order | partial | see C104 | as for C104 | witnesses; the exact behaviour where stated |
| C167 DATE_FORMAT directives | proved | Fmt | formats as lists of pieces; glibc strftime in the C locale | induction over the pieces; week numbers by arithmetic on ordinals, ISO weeks through the Thursday |
| C168 DATE_FORMAT month and weekday names | partial | Fmt | as C167 | the exact result for every date |
| C169 WEEK counts from the first Sunday | proved | Fmt | strftime U and W, the specification counts day by day | induction over the days of the year |
| C170 WEEK in mode 1 | partial | Fmt | as C169 | exact difference by the weekday of 1 January |
| C171 YEARWEEK from the first Sunday on | proved | Fmt | strftime Y and U | comparison of the Sunday before the day with 1 January |
| C172 YEARWEEK before the first Sunday | partial | Fmt | as C171 | as C171 |
| C173 DAYNAME | proved | Fmt | strftime A | weekday arithmetic |
| C174 MONTHNAME | partial | Fmt | strftime b | twelve cases |
| C175 Date and time of a datetime | proved | Fmt | moments with optional time of day | timedelta addition |
| C176 UNIX_TIMESTAMP inverts FROM_UNIXTIME on a host in UTC | proved | Fmt | zones of constant offset; mktime reads UTC fields as local | arithmetic on stamps |
| C177 UNIX_TIMESTAMP inverts FROM_UNIXTIME on every host | partial | Fmt | as C176 | as C176 |
| C178 HAVING with LIKE and a pattern that ends in % | proved | Having, Tight | as C151 | rendering of the pattern and the matcher for plain patterns |
| C179 Columns of joined tables are read from the tables they name | proved | Scope | compile_join_column_tables, compile_join_column and the depths of the references (count of dollar signs), nested joins evaluated on a stack of rows | invariant of the level walk (each table has its references behind it), induction over the nesting with the stack equal to the environment |
| C180 Values of joined columns do not depend on the order of sets | proved | Scope | as C179 | two orders of joining are connected by swaps of independent LEFT JOINs, which give the same combinations |
| C181 Joins that go round in a circle are refused | proved | Scope | as C179 | along an infinite path every level of the walk is non-empty |
| C182 An ON that ties two columns of its own table is refused | proved | Scope | as C179 | the table refers to itself, so every level contains it |
| C183 ON comparisons with a computed left side | partial | Scope | as C179 | witness |
| C184 Subqueries are complete before they are read | proved | Turns | the generators of run, run_yield and run_tasker as a tree of unfinished taskers; batches, reductions and closings are arbitrary functions of the world | traces of a finished and of a failed statement as inductive shapes; order and counts by induction over them |
| C185 A failed subquery closes the queries that use it, and only them | proved | Turns | as C184 | invariant of one send: the trace ends with the closings up to the root |
| C186 Streaming statements take fair turns | proved | Turns | as C184, with the queue of the executor | two-part queue: the first part has made k batches, the second k+1 |
| C187 Without streaming statements run one after the other | proved | Turns | as C186 | induction over the turns |
| C188 Streaming statements close their subqueries | partial | Turns | as C186 | witness |
| C189 Assignments in a select list | proved | Assign | compile_calculate on expressions with variables and assignments, the calculater of variables on the scopes of Env_Model | simulation by induction over the expression; expressions without assignments leave the scopes as they are |
| C190 Running totals | proved | Assign | as C189 | from C189 by induction over the rows |
| C191 Assignments anywhere are made once, variables anywhere are read when the query runs | partial | Assign | as C189 | witnesses |
| C192 A subquery in an expression is a call | proved | Nested | ExecuteQueryTaskerCalculater with executors, scopes of variables and the tables named by ids; ids are given by any function that avoids those in use | simulation by induction over the program; invariant: tables of ids not in use are empty |
| C193 A failed subquery leaves nothing behind | partial | Nested | as C192 | witness |
| C194 String functions of NULL | proved | Nulls | the functions of Str and Codec | case analysis on the NULL argument |
| C195 NULL lengths and NULL sets | partial | Nulls | as C194 | witness |
| C196 The table a name denotes | proved | Table | parse_table without the file databases (a parameter) | case analysis; the options by the first < and the last > |
| C197 Update type of INSERT with VALUES or SELECT | proved | Table | parse_table, compile_insert_into and the outputs of compile_select as texts | the splits at :: and at use are found by induction over the text |
| C198 Update type of INSERT with UNION | partial | Table | the outputs of compile_union | general theorem of what is written, by induction over the selects |
| C199 Tables named by variables | proved | Table | parse_table with the values of variables; QueryTasker's renaming at run time | case analysis; splitting of the name |
| C200 Tables named by variables when the query runs | partial | Table | as C199 | witnesses |
| C201 Variables given on the command line | proved | Globals | build_global over any environment and argv; reading through the scopes of Env | induction over the arguments; splitting at = |
| C202 Variables given by the environment | proved | Globals | as C201 | induction over environment and arguments |
| C203 Command line arguments with = in the value, quotes or capitals | partial | Globals | as C201 | general theorem of the value kept; witnesses |
| C204 Mathematical functions | proved | Math | the wrappers of number_funcs with the library function as a parameter; coercion of texts | case analysis; grammar of numbers; decimals through Flocq |
| C205 SQRT is correctly rounded | proved | Math | math.sqrt as SFsqrt | Flocq's Bsqrt_correct_aux transferred |
| C206 ROUND of integers | proved | Math | round(int, n) | division with remainder |
| C207 ROUND of doubles | proved | Math | round(float, n) as exact rational rounding and decimal reading | nearest integers of rationals; correct rounding of decimals through Flocq |
| C208 ROUND and LOG with one argument, halves | partial | Math | dispatch with missing arguments | general theorems of NULL; witnesses |
| C209 Aggregates anywhere in an item | proved | Inner | the search for aggregates in an expression, the marks left there, the kinds of items | induction over the parts of expressions; paths identify nodes; reduction to the grouped query theorem |
| C210 Type annotation of pushed conditions | proved | Where_Types | parse_condition_typing_filter over the pushed conditions | contents of the query dictionary as a set of triples; exact characterisation of the renaming loop |
| C211 A whole SELECT statement | proved | Whole | compile_select for one table as a whole: order of the clauses, bookkeeping of known columns, split of WHERE, execution | composition of the theorems on items, WHERE, HAVING, ORDER BY and LIMIT |
| C212 A whole SELECT statement with GROUP BY | proved | Whole | the same with aggregates | composition with the grouped query theorem; sortedness carried over to the groups by equality of keys |
| C213 ORDER BY an alias used in HAVING | partial | Whole | known columns added by HAVING | witness; general theorem of what is sorted |
| C214 Names in WHERE | partial | Whole | compile_where_condition_column | witness |
| C215 CAST in WHERE | partial | Cast, Whole | is_column / parse_column on CAST(column) in parse_condition | the compiler's result equals that of the condition without the CASTs; witness |
| C216 CAST in ORDER BY | partial | Cast, Whole | compile_order on CAST(column) | reduction to C211; witness |
| C217 CAST in GROUP BY | partial | Cast, Group, Whole | compile_aggregate_key on CAST(column) | equality of the compiled keys for both statements; witness |
| C218 FROM_UNIXTIME | proved | Unix, Date | mysql_from_unixtime over the calendar of Date | timestamps as days and microseconds; equivalence with the elapsed time of the specification |
| C219 UNIX_TIMESTAMP of a datetime | partial | Unix, Date | mysql_unix_timestamp, utctimetuple, mktime | exact value; equivalence with loc = 0; witness |
| C220 UNIX_TIMESTAMP of a date or a text | partial | Unix | mysql_unix_timestamp | cases |
| C221 DATE, TIME and DATETIME | proved | Unix | mysql_date, mysql_datetime, mysql_time | case analysis over all values and parsers |
| C222 REGEXP matches at the first character | proved | Regmatch, Regexp | mysql_regexp, mysql_regexplike, mysql_regexp_instr | leftmost search over an arbitrary engine |
| C223 REGEXP matches anywhere | partial | Regmatch | mysql_regexp | witness |
| C224 A whole SELECT statement with GROUP BY and no aggregates | proved | Collapse, Whole | compile_select with compile_group_column, clause by clause, and the execution of the task | reduction to run_select, groups by first appearance, stable sorts |
| C225 A whole SELECT DISTINCT statement | proved | Collapse, Whole | compile_select with compile_distinct_column, clause by clause, and the execution of the task | reduction to run_select, groups by first appearance; keys pairwise different |
| C226 A SELECT statement over a table with or without an alias | proved | Alias, Collapse, Whole | compile_select with table_alias set, all four kinds of task, and their execution | the aliased statement is the statement without ORDER BY/LIMIT followed by a stable sort and a slice; case analysis on the kind |
| C227 Whole queries: subqueries, UNION ALL and WITH | proved | Full, Alias | compile_query, compile_with, compile_subquery, compile_union, the star of a subquery, the order of execution of the dependencies | induction on the query: the compiled task, run in any store whose temporary tables are still empty, returns rows of the query's meaning and only fills its own temporary tables |
| C228 ORDER BY a column that is not selected, with an alias | partial | Full, Alias | compile_order | witness for every table and alias |
| C229 A whole SELECT statement with window functions | proved | Winsel, Winq, Whole, Select | compile_select with window columns: WHERE, HAVING, ORDER BY, LIMIT together, primary_table['columns'], the task and its execution | the two outcomes of compile_order (sorted by the source, or a pipeline on the result), each lifted to pairs of a row and its result; window values over the rows of the source from the theorems of Winq |
| C230 ORDER BY and HAVING on an expression around a window function | partial | Winsel | compile_window_column popping the alias from config['schema'], compile_order, compile_having_condition | witness; for ORDER BY a proof that every such statement is refused |
| C231 Scripts | proved | Script, Full, Insert, Whole | statements compiled and run one after the other over one store: query, INSERT ... SELECT, INSERT ... VALUES, DELETE; temporary tables cleared after each | induction on the script with the invariant that the store agrees with the specified tables outside of temporary tables and used WITH names |
| C232 Names of WITH are local | partial | Script, Full | compile_with, which collections are registered as temporary and emptied | witness; exact characterisation with leftover rows by induction on the WITH list |
| C233 A whole SELECT over LEFT JOINs | proved | Joinsel, Joins, Select | rewrites and joins of Joins; WHERE conjuncts pushed to the loader of the first table; compile_order, compile_limit of Select; the joins the select list and predicate need | joins are a flat_map over the rows of the first table; filter commutes with it, and so does a stable sort by keys of the first table (uniqueness of stable sorting); then order_by_rows and the join theorems of C37 |
| C234 LIMIT over INNER JOINs and comma joins | proved | Joinsel, Joins, Select | as C233, after optimize_rewrite_inner_join / optimize_rewrite_multi_select | the rewritten WHERE keeps a residual conjunct, so the limit is a slice of the result |
| C235 LIMIT over LEFT JOINs | partial | Joinsel | as C233 | witness; positive theorem when the loader gets no limit or joins are one to one |
| C236 ORDER BY a column of a joined table | partial | Joinsel | compile_order sort keys by bare name | witness |
| C237 Joined tables that are not read | partial | Joinsel | compile_join_column_tables: which joins are compiled | witness; equality of the two statements |
| C238 GROUP BY and aggregates over LEFT JOINs | proved | Joingrp, Joinsel, Joins, Group, Inner, Having, Select | compile_aggregate_key/value over joined tables, the joins they need, WHERE as in Joinsel, HAVING, ORDER BY, LIMIT | the joined rows, sorted as the rows of the first table were, are read as one table; then the group theorem of C212 generalised over the row type |
| C239 GROUP BY and aggregates over INNER JOINs and comma joins | proved | as C238 | as C238, after the rewrites | as C238, with the join theorems of C37 for INNER and comma joins |
| C240 Tables that are not in FROM | proved | Joingrp, Joinsel | compile_join_column_tables | the joins are accepted, so the only outcome is the refusal |
| C241 ORDER BY a grouped column of a joined table | partial | Joingrp | compile_order: names of primary columns | witness |
| C242 Queries made of all kinds of SELECTs | proved | Compose (over Alias, Winsel, Joinsel, Joingrp, Joincol) | compile_query, compile_with, compile_subquery, compile_union, sources of compile_select and parse_joins, star of a subquery; execution of the dependencies | induction on the query, generic over what a SELECT returns; the temporary tables are fresh, so each is filled once; then the theorems of the SELECTs |
| C243 SELECT * over calculations with window functions | partial | Compose | config[schema] of an expression around window functions | witness; positive: C242 |
| C244 JSON_CONTAINS compares the part at the path | proved | Jcont (over Json) | json_funcs.py 200-212; Python == of decoded values | induction on the document; same JSON value as an inductive relation; pigeonhole for objects of the same length with distinct names |
| C245 JSON_CONTAINS is containment | partial | Jcont | same | witnesses; equality implies containment by induction |
| C246 JSON_VALID | partial | Jcont | json_funcs.py 314-322 | case analysis; NULL by computation |
| C247 Scripts of queries of all kinds | proved | Session (over Compose and Script) | scripts: compile_query, compile_insert_into, compile_delete, execution one after the other, temporary tables removed | induction on the script: the tables agree with those of the specification except temporary ones and names of WITH; each query by C242's lemmas |
| C248 LEFT JOINs that nothing reads | proved | Joinsel | as C237 | the engine drops these joins (unread_join, induction from the last); in SQL each combination is extended by one entry that no condition, key or item reads |
| C249 GROUP BY without aggregates over joins | proved | Joincol (over Joingrp and Collapse) | compile_select 386-580 with compile_group_column and compile_aggregate_key over joined tables | the rewrites give LEFT JOINs whose rows are those of SQL (C101-C104); the joined rows as one table; then the proof of C224 over any kind of rows |
| C250 SELECT DISTINCT over joins | proved | Joincol (over Joingrp and Collapse) | compile_select 386-580 with compile_distinct_column over joined tables | as C249, with the key made of all items |
| C251 LIMIT of collapsed joins | partial | Joincol | as C249 | corollary of C249 and C250; counterexample by computation |
| C252 Arguments of virtual views | proved | Viewarg | parse_virtual_view_args; the regular expression as a scanner | induction on the pieces of the query, as for C07; the meaning is a relation on pieces |
| C253 Marks and arguments of virtual views | partial | Viewarg | as C252 | induction on the meaning; a text with a percent sign refutes |
| C254 ROW_INDEX and ROW_LAST | proved | Rowfun | RowIndexCalculater and RowLastCalculater; calls, If and IfNull of compile_calculate | the state after any rows is a function of these rows; induction on the expression (nested) and on the rows; the meaning is a function of the rows before, without state |
| C255 ROW_INDEX and ROW_LAST in branches | partial | Rowfun | as C254 | counterexamples by computation |
| C256 YIELD_ARRAY | proved | Yield | GenerateYieldArrayCalculater; the #yield columns of compile_calculate; the loader's lock-step (package) | induction on the longest generator; the meaning is a relation per cell |
| C257 GET_VALUE | proved | Getval | the get_value branch of compile_calculate | induction on the expression and on the keys; the meaning is a relation over an arbitrary reading of paths |
| C258 Tuples of GET_VALUE | partial | Getval | as C257 | counterexample by computation |

Not expressible: real I/O of the data sources, real time (`NOW()`), random functions, the terminal UI.
