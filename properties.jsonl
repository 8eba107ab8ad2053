{"id": "C01", "title": "Script splitting yields exact statements in order", "statement": "Splitting a script into statements returns, in script order, pairwise disjoint verbatim substrings of the script; each begins at a letter and carries the 1-based number of the line on which it starts; otherwise splitting fails with an end-of-file error.", "quantifier": "every script text (any length, any characters, any nesting of quotes and comments)", "why_tests_cant": "The set of scripts is infinite; off-by-one errors show only at particular combinations of quote, escape, comment and newline positions.", "anchors": ["syncanysql/parser.py:SqlParser.split", "syncanysql/parser.py:SqlParser.skip_escape", "syncanysql/parser.py:SqlParser.read_util"]}
{"id": "C02", "title": "Separators in string literals and quoted names never split; join/split round trip", "statement": "If every statement is well formed (starts with a letter, quoted parts closed, no separator or comment opener outside quotes), then joining the statements with ';' and splitting the result returns exactly the statements.", "quantifier": "every list of well-formed statements, any length", "why_tests_cant": "Quantifies over all statement lists and all contents of the literals, including runs of backslashes of any length.", "anchors": ["syncanysql/parser.py:SqlParser.split"]}
{"id": "C03", "title": "A quoted part ends at the first unescaped quote, otherwise the script is rejected", "statement": "A quoted part opened by a quote character is closed by the first later occurrence of that same character that is preceded by an even number of consecutive backslashes; if there is none, splitting fails with an end-of-file error instead of returning a truncated statement.", "quantifier": "every text and every opening quote position", "why_tests_cant": "Runs of backslashes and mixed quotes are unbounded.", "anchors": ["syncanysql/parser.py:SqlParser.skip_escape"]}
{"id": "C04", "title": "Comments between statements", "statement": "Inserting a comment ('#...', '--...' to the end of line, or '/*...*/') that contains no quote and no asterisk (block comments: and no slash) between complete statements never drops, merges or alters the statements around it, whatever else the comment's text contains (semicolons too).", "quantifier": "every comment text and every pair of surrounding scripts", "why_tests_cant": "The comment body ranges over all strings; the failures need particular characters (an apostrophe, '*/*') in it.", "anchors": ["syncanysql/parser.py:SqlParser.split", "syncanysql/parser.py:SqlParser.read_util"]}
{"id": "C05", "title": "Prompt completeness", "statement": "In interactive mode the prompt submits the buffer exactly when a ';' occurs outside every quoted part (backquote, double quote, single quote); otherwise it keeps reading lines.", "quantifier": "every buffer text", "why_tests_cant": "All texts, all quoting combinations.", "anchors": ["syncanysql/prompt.py", "syncanysql/parser.py:SqlParser.read_util_complete"]}
{"id": "C06", "title": "Quoted-name placeholders round trip", "statement": "Replacing the backquoted names of a statement by generated placeholders before parsing and replacing the placeholders back yields the original statement text, for any number of names, provided the generated placeholders do not occur in the text.", "quantifier": "every statement text and every placeholder generator with fresh results", "why_tests_cant": "Sequential replacement is sensitive to names that contain each other; all texts must be covered.", "anchors": ["syncanysql/compiler.py:Compiler.parse_mapping", "syncanysql/compiler.py:Compiler.to_sql"]}
{"id": "C07", "title": "Variable interpolation ${name:default}", "statement": "In statement text each ${name} or ${name:default} with a name of lower case letters, digits and underscores and a default without '}' is replaced by the variable's value rendered as text (or by the default when the variable is unset), and text outside the placeholders is unchanged, provided that the inserted texts contain no '$'.", "quantifier": "every statement text and every variable environment", "why_tests_cant": "Interpolation of values that themselves look like placeholders cannot be enumerated.", "anchors": ["syncanysql/executor.py:Executor.compile_variable"]}
{"id": "C08", "title": "Variable scoping", "statement": "A variable read returns the value of the innermost scope that defines it, or the default when none does; setting a variable in an inner scope never changes what any outer scope or sibling scope reads, and everything not set is unchanged; names are the same to the API with or without '@'.", "quantifier": "every chain of scopes, every sequence of set operations", "why_tests_cant": "History- and depth-quantified.", "anchors": ["syncanysql/executor.py:EnvVariables"]}
{"id": "C09", "title": "Coercion to numbers", "statement": "Coercing text to an integer returns the value of the text if it is an integer literal and otherwise the value of its longest leading run of digits, and fails (NULL in SQL) when there is none; NULL always fails, empty/false values are 0 and existing integers are unchanged; a date, time or datetime becomes the number made of the digits of its text.", "quantifier": "every value", "why_tests_cant": "All strings.", "anchors": ["syncanysql/utils.py:parse_number", "syncanysql/utils.py:ensure_int", "syncanysql/utils.py:ensure_number"]}
{"id": "C10", "title": "SET literals are parsed to the value they denote", "statement": "The value of SET @x = value is: for a quoted text (not containing that quote, without blanks at its ends) its content, for a triple-quoted block its trimmed content, for an optionally signed digit string that integer, for true/false/null (any case) the constant, for unsigned digits.digits that decimal number; any other value not beginning with a quote is an expression, and SET then does what SELECT value INTO @x does and is refused when that is.", "quantifier": "every literal text", "why_tests_cant": "All strings; the signed decimal case needs a particular shape.", "anchors": ["syncanysql/taskers/set.py:SetCommandTasker.parse_value", "syncanysql/taskers/set.py:SetCommandTasker.start", "syncanysql/compiler.py:compile_expression"]}
{"id": "C11", "title": "Comparison operators and NULL", "statement": "=, <>, <, <=, >, >= return NULL exactly when an operand is NULL (or the operands are incomparable, for the order) and 0/1 otherwise; the six operators agree with each other (<> is the negation of =, <= is < or =, ...); on integers they are the mathematical relations and on texts equality and lexicographic order.", "quantifier": "every pair of SQL values", "why_tests_cant": "Pairs of values of every dynamic type.", "anchors": ["syncanysql/calculaters/mysql_funcs/logical_funcs.py"]}
{"id": "C12", "title": "IN follows three-valued logic", "statement": "x IN (y1..yn) is NULL if x is NULL, 1 if some yi equals x, NULL if none equals x but some yi is NULL, and 0 otherwise; IN over an empty set is 0.", "quantifier": "every value x and every list of values", "why_tests_cant": "All lists.", "anchors": ["syncanysql/calculaters/mysql_funcs/logical_funcs.py:mysql_in"]}
{"id": "C13", "title": "SQL functions never abort a query", "statement": "Evaluating a built-in SQL function on any argument values, at most as many as it takes, returns a value: that of the function, missing arguments being NULL, or NULL when it fails.", "quantifier": "every function and every argument list", "why_tests_cant": "All dynamic argument combinations.", "anchors": ["syncanysql/calculaters/mysql_calculater.py"]}
{"id": "C14", "title": "Arithmetic: NULL propagation, division by zero, exact integers", "statement": "+,-,*,/,% return NULL when an operand is NULL, and / and % return NULL when the divisor is 0 (as a number or as text); on integers of any size +,-,* are exact and a % b differs from a by a multiple of b and is smaller than b in magnitude; a / b is the correctly rounded quotient, and on floating-point operands +,-,*,/ are correctly rounded.", "quantifier": "every pair of values", "why_tests_cant": "Unbounded integers.", "anchors": ["syncanysql/calculaters/mysql_funcs/number_funcs.py"]}
{"id": "C15", "title": "Bit operations on integers", "statement": "&,|,^,~,<<,>> return NULL for NULL operands and are the two's complement bit operations on integers of any size; shifts by negative amounts are NULL.", "quantifier": "every pair of values", "why_tests_cant": "Unbounded integers.", "anchors": ["syncanysql/calculaters/mysql_funcs/number_funcs.py"]}
{"id": "C16", "title": "GREATEST / LEAST", "statement": "GREATEST (LEAST) of two or more values is NULL if any is NULL, otherwise one of the values, not smaller (larger) than every other one.", "quantifier": "every list of comparable values", "why_tests_cant": "All lists.", "anchors": ["syncanysql/calculaters/mysql_funcs/number_funcs.py"]}
{"id": "C17", "title": "SUBSTRING, LEFT, RIGHT, INSERT at positive positions", "statement": "SUBSTRING(s,n[,l]) with n >= 1 and l >= 0 is the text of the characters n..n+l-1 (1-based; to the end without l) that s has; LEFT(s,n), n >= 0, and RIGHT(s,n), n >= 1, are the first and last n characters; INSERT(s,n,l,new) replaces these characters; a NULL argument gives NULL.", "quantifier": "every string and all integers n, l", "why_tests_cant": "All lengths and offsets including negative and beyond the ends.", "anchors": ["syncanysql/calculaters/mysql_funcs/string_funcs.py"]}
{"id": "C18", "title": "CONCAT, REPEAT and REVERSE", "statement": "CONCAT is NULL iff an argument is NULL and otherwise the concatenation in order; REVERSE is an involution that mirrors positions; REPEAT(s,n) is n copies (none for n <= 0).", "quantifier": "every argument list", "why_tests_cant": "All strings and list lengths.", "anchors": ["syncanysql/calculaters/mysql_funcs/string_funcs.py"]}
{"id": "C19", "title": "FIELD and FIND_IN_SET", "statement": "FIELD(x,v1..vk) is the first index equal to x or 0; FIND_IN_SET likewise on a comma separated list.", "quantifier": "every string, list and integer", "why_tests_cant": "Off-by-one at list ends for all lengths.", "anchors": ["syncanysql/calculaters/mysql_funcs/string_funcs.py"]}
{"id": "C20", "title": "LIKE with a pattern that ends in %", "statement": "For a pattern that ends in % and has no _ and no two adjacent %, s LIKE p is 1 exactly when the whole of s (without newlines) matches p, where % stands for any sequence and other characters for themselves; NULL operands give NULL.", "quantifier": "every pair of strings", "why_tests_cant": "All strings and patterns.", "anchors": ["syncanysql/calculaters/mysql_funcs/regexp_funcs.py:mysql_like"]}
{"id": "C21", "title": "Aggregates do not depend on batching", "statement": "COUNT, COUNT DISTINCT, SUM over integers, AVG over integers without NULL, MIN and MAX over comparable values, GROUP_CONCAT, GROUP_ARRAY and BIT_AND/OR/XOR are the stated function of the rows of a group, and give the same result whether these are aggregated at once or in any sequence of batches whose partial states are merged.", "quantifier": "every list of rows, every split into batches", "why_tests_cant": "All row lists and all splits.", "anchors": ["syncanysql/calculaters/aggregate_calculater.py"]}
{"id": "C22", "title": "COUNT, COUNT DISTINCT, MIN, MAX and integer SUM do not depend on row order", "statement": "COUNT, COUNT DISTINCT, MIN and MAX (of comparable values) and SUM (of integers and NULLs) of a group are the same for every order in which the rows arrive.", "quantifier": "every list of rows and every permutation of it", "why_tests_cant": "All permutations.", "anchors": ["syncanysql/calculaters/aggregate_calculater.py"]}
{"id": "C23", "title": "Streaming GROUP BY equals one-shot GROUP BY", "statement": "When a source is read in batches, the final table of a GROUP BY query with aggregates that do not depend on batching (COUNT, COUNT DISTINCT, SUM of integers, MIN and MAX of comparable values, AVG of integers without NULL, GROUP_CONCAT, GROUP_ARRAY) equals the table obtained by grouping all the rows at once, however the source splits into batches and whenever partial results are merged.", "quantifier": "every row list, every batch split and every batch size", "why_tests_cant": "All interleavings of batch boundaries and group keys.", "anchors": ["syncanysql/taskers/query.py:ReduceHooker"]}
{"id": "C24", "title": "Window functions: row numbers and neighbours", "statement": "Within a partition in its order: ROW_NUMBER is 1..n; LAG/LEAD(v,k,d) are the value k rows before/after or d (NULL without d, k = 1 without k); FIRST_VALUE and LAST_VALUE are those of the first and last row.", "quantifier": "every partition (any length, any ties)", "why_tests_cant": "All partitions and tie patterns.", "anchors": ["syncanysql/calculaters/window_calculater.py"]}
{"id": "C25", "title": "JSON path: writing then reading", "statement": "Setting a value at an existing JSON path and reading that path returns the value, and every other (disjoint) path reads as before; missing intermediate levels leave the document unchanged.", "quantifier": "every document, path and value", "why_tests_cant": "All trees and paths.", "anchors": ["syncanysql/calculaters/mysql_funcs/json_funcs.py"]}
{"id": "C26", "title": "JSON_REMOVE of members and elements", "statement": "Removing a path of member names that ends in a name removes exactly that member; one that ends in an index removes that element of the array; a path that addresses nothing removes nothing; everything else is unchanged.", "quantifier": "every document and path", "why_tests_cant": "All trees and paths.", "anchors": ["syncanysql/calculaters/mysql_funcs/json_funcs.py"]}
{"id": "C27", "title": "Date arithmetic with months and years", "statement": "For k >= 0, date - INTERVAL k MONTH/QUARTER is the date k months earlier with the day clamped to the month's length; date + INTERVAL k MONTH/QUARTER is the date k months later, unless that is in December, when it is NULL; date +/- INTERVAL k YEAR is the date k years later/earlier, or NULL when there is no such day.", "quantifier": "every date and every integer k", "why_tests_cant": "All dates and all k; the failure needs month sums that are multiples of 12.", "anchors": ["syncanysql/calculaters/mysql_funcs/datetime_funcs.py:calculate_datetime"]}
{"id": "C28", "title": "Date arithmetic with fixed units is invertible", "statement": "Adding and then subtracting an interval of days, hours, minutes, seconds or weeks restores the date; each unit has its documented length.", "quantifier": "every datetime and every integer amount that stays in range", "why_tests_cant": "All datetimes.", "anchors": ["syncanysql/calculaters/mysql_funcs/datetime_funcs.py:calculate_datetime"]}
{"id": "C29", "title": "Configuration updates", "statement": "Setting a key, an entry of a section, an option of a database (given as JSON) or a view of a database makes it read as the new value and leaves everything else unchanged; setting null removes it; merging two configurations gives every key of both with the later one winning, sections key by key, databases by name, and lists concatenated.", "quantifier": "every configuration and every sequence of updates", "why_tests_cant": "History-quantified.", "anchors": ["syncanysql/config.py"]}
{"id": "C30", "title": "Session configuration overlays the global one", "statement": "In every history in which no configuration is changed after one created from it was read, a session reads its own setting where it has one and otherwise the global setting, for settings without a default and entry by entry in sections.", "quantifier": "every interleaving of reads and writes on session and global configuration", "why_tests_cant": "Stale caches show only in particular histories.", "anchors": ["syncanysql/config.py:SessionConfig"]}
{"id": "C31", "title": "Each submitted statement is started and run exactly once, in submission order", "statement": "Every statement of a script is started exactly once and in order, and then everything the statements submitted is run exactly once and in order, until the first failure; nothing else is run, and what a failure leaves is still queued in order.", "quantifier": "every script and every failure point", "why_tests_cant": "History- and crash-point-quantified.", "anchors": ["syncanysql/executor.py:Executor"]}
{"id": "C32", "title": "LIMIT and OFFSET", "statement": "SELECT ... LIMIT n OFFSET m with n > 0 returns rows m+1..m+n of the unlimited result in the same order, whether the limit is pushed to the source or applied after computation, unless the query only removes duplicates or groups without aggregates and leaves nothing to be computed afterwards.", "quantifier": "every row list, every n and m", "why_tests_cant": "All sizes.", "anchors": ["syncanysql/compiler.py:Compiler.compile_select"]}
{"id": "C33", "title": "WHERE pushdown preserves the result", "statement": "For a WHERE clause of conditions on untyped columns in which comparisons that are pushed have the column on the left and IN items do not depend on the row, the conditions handed to the data source together with the residual filter select exactly the rows for which the clause is true.", "quantifier": "every WHERE expression and every row", "why_tests_cant": "All expression trees.", "anchors": ["syncanysql/compiler.py:Compiler.compile_where_condition", "syncanysql/compiler.py:Compiler.build_query_condition"]}
{"id": "C34", "title": "Boolean and conditional expressions as in SQL", "statement": "The compiled form of comparisons, IS, IN, NOT of these, IF, IFNULL, COALESCE, CASE with ELSE and functions evaluates to their SQL value for every row; the compiled form of AND, OR, BETWEEN and IF over such conditions is true exactly when the SQL condition is TRUE, NULLs included; with NOT anywhere the value is right on every row on which no elementary condition is NULL.", "quantifier": "every expression tree and every row", "why_tests_cant": "All expression trees.", "anchors": ["syncanysql/compiler.py"]}
{"id": "C35", "title": "ORDER BY", "statement": "When the names in ORDER BY mean the same as columns of the table and of the result, the rows are sorted by all keys of the ORDER BY clause, with the given directions and ties kept in source order, whether the sort is pushed to the source or done afterwards; also the rows of grouped queries.", "quantifier": "every row list and key list", "why_tests_cant": "All lists.", "anchors": ["syncanysql/compiler.py:Compiler.compile_order"]}
{"id": "C36", "title": "UNION ALL", "statement": "UNION ALL of any nesting of SELECTs without parentheses and aggregates returns the rows of the branches in order: with the same column names in the same order (or SELECT * everywhere) as they are, and with the same names in another order matched by name.", "quantifier": "every list of branches", "why_tests_cant": "All lists of branches.", "anchors": ["syncanysql/compiler.py:Compiler.compile_union"]}
{"id": "C37", "title": "Joins of one kind", "statement": "Queries with LEFT JOINs only, with INNER JOINs each tied to the first table, with a FROM list tied by WHERE, and with one RIGHT JOIN whose ON compares the two tables return exactly the rows SQL specifies.", "quantifier": "every join list", "why_tests_cant": "All mixtures and shapes of the join graph.", "anchors": ["syncanysql/compiler.py:Compiler.optimize_rewrite"]}
{"id": "C38", "title": "Temporary tables of subqueries live as long as they are used", "statement": "Unless results are streamed, the in-memory table of a subquery exists from its creation until its last user has finished and is then removed; no table in use is ever removed and none is left at the end.", "quantifier": "every interleaving of acquire/release operations", "why_tests_cant": "History-quantified.", "anchors": ["syncanysql/taskers/query.py:QueryTaskerTemporaryMemoryManager"]}
{"id": "C39", "title": "SELECT ... INTO variables", "statement": "SELECT ... INTO @v stores the scalar of a one-row one-column result and the list of values of a longer column; INTO several variables stores for each its column's value, or values if there are several rows; other variables are unchanged.", "quantifier": "every result table and variable list", "why_tests_cant": "All shapes.", "anchors": ["syncanysql/taskers/into.py:IntoTasker"]}
{"id": "C40", "title": "DELETE removes only rows matching the whole WHERE clause", "statement": "A DELETE without WHERE removes all rows; with a WHERE clause it is either rejected - exactly when a part of it cannot be handed to the source - or, under the conditions of the WHERE pushdown, removes exactly the rows for which the clause is true.", "quantifier": "every WHERE expression and every table", "why_tests_cant": "All expression trees.", "anchors": ["syncanysql/compiler.py:Compiler.compile_delete", "syncanysql/taskers/delete.py"]}
{"id": "C41", "title": "Prompt history keeps the most recent entries", "statement": "After any sequence of entered commands and restarts, loading the history gives a final part of the commands entered, exactly as typed and in order, with at least the last 50; after a restart exactly the last 50.", "quantifier": "every sequence of commands and restarts", "why_tests_cant": "History-quantified.", "anchors": ["syncanysql/prompt.py:CliFileHistory"]}
{"id": "C42", "title": "Execution contexts nest", "statement": "Code in which each executor is entered from its parent leaves, however it nests or fails, the current executor as it was, and inside a context that context's executor is current.", "quantifier": "every nesting of contexts", "why_tests_cant": "History-quantified.", "anchors": ["syncanysql/__init__.py", "syncanysql/executor.py"]}
{"id": "C43", "title": "FLOOR, CEIL and SIGN are exact", "statement": "FLOOR(x) is the greatest integer not above x, CEIL(x) the least integer not below x, SIGN(x) the sign of x, for every integer or float x that is finite.", "quantifier": "every numeric value", "why_tests_cant": "All doubles and unbounded integers.", "anchors": ["syncanysql/calculaters/mysql_funcs/number_funcs.py:mysql_floor", "mysql_ceil", "mysql_sign"]}
{"id": "C44", "title": "REPLACE, STRCMP, prefix/suffix/substring tests, TRIM", "statement": "REPLACE(s,a,b) puts b in place of the leftmost non-overlapping occurrences of a (and is the identity for a=b); STRCMP orders texts lexicographically; STARTSWITH/ENDSWITH/CONTAINS are 1 exactly when the text has that prefix/suffix/part; TRIM removes exactly the white space at both ends.", "quantifier": "every text", "why_tests_cant": "All texts.", "anchors": ["syncanysql/calculaters/mysql_funcs/string_funcs.py"]}
{"id": "C45", "title": "REGEXP functions agree on the k-th match", "statement": "For a start position and an occurrence k, REGEXP_INSTR, REGEXP_SUBSTR and REGEXP_REPLACE refer to the same k-th match: either there is none (0, NULL, text unchanged) or the text is x m y with INSTR the position of m, SUBSTR m, and REPLACE the text with exactly m replaced. The match-type letters c/i: the last one wins.", "quantifier": "every text, pattern (any matcher returning spans inside the text), start position and occurrence", "why_tests_cant": "All texts and patterns.", "anchors": ["syncanysql/calculaters/mysql_funcs/regexp_funcs.py:mysql_regexp_instr", "mysql_regexp_substr", "mysql_regexp_replace", "parse_flags"]}
{"id": "C46", "title": "JSON_CONTAINS_PATH one/all", "statement": "JSON_CONTAINS_PATH(doc,'one',p...) is 1 exactly when some path leads to a non-null value, and with 'all' exactly when every path does.", "quantifier": "every document and list of paths", "why_tests_cant": "All documents and path lists.", "anchors": ["syncanysql/calculaters/mysql_funcs/json_funcs.py:mysql_json_contains_path"]}
{"id": "C47", "title": "JSON_DEPTH, JSON_LENGTH, JSON_KEYS, JSON_OBJECT", "statement": "JSON_DEPTH is the number of levels of the document; JSON_LENGTH counts the elements or members at a path and JSON_KEYS lists the member names; JSON_OBJECT gives each key the value given last for it.", "quantifier": "every document", "why_tests_cant": "All trees of unbounded depth.", "anchors": ["syncanysql/calculaters/mysql_funcs/json_funcs.py"]}
{"id": "C48", "title": "Time intervals written as text", "statement": "ADDTIME/SUBTIME(x,'h:m:s') moves a datetime forward/back by 3600h+60m+s seconds for fields of any number of digits, and is NULL exactly when the result is outside years 1 to 9999.", "quantifier": "every datetime and every h, m, s text", "why_tests_cant": "Unbounded digit strings through a backtracking regular expression.", "anchors": ["syncanysql/calculaters/mysql_funcs/datetime_funcs.py:TIME_INTERVAL_RE", "syncanysql/calculaters/mysql_funcs/datetime_funcs.py:calculate_datetime"]}
{"id": "C49", "title": "TIMESTAMPDIFF in units of fixed length", "statement": "TIMESTAMPDIFF(unit,a,b) for SECOND, MINUTE, HOUR, DAY, WEEK and moments a whole number of seconds apart is the number of whole units from a to b, rounded toward zero.", "quantifier": "every pair of dates or datetimes", "why_tests_cant": "All pairs of dates; float rounding.", "anchors": ["syncanysql/calculaters/mysql_funcs/datetime_funcs.py:mysql_datediff", "syncanysql/calculaters/mysql_funcs/datetime_funcs.py:mysql_timestampdiff"]}
{"id": "C50", "title": "WEEKDAY and DAYOFYEAR", "statement": "WEEKDAY is 0 on Monday 1 January 2024 and advances by one (mod 7) with each calendar day; DAYOFYEAR counts from 1 January.", "quantifier": "every date of the calendar and every number of seconds", "why_tests_cant": "All dates.", "anchors": ["syncanysql/calculaters/mysql_funcs/datetime_funcs.py"]}
{"id": "C51", "title": "SELECT DISTINCT", "statement": "SELECT DISTINCT of columns without GROUP BY, aggregates, windows, LIMIT and sort by a computed column returns rows of the query without DISTINCT, no two of them equal, and one for each of them.", "quantifier": "every source, query and row equality", "why_tests_cant": "All lists of rows.", "anchors": ["syncanysql/compiler.py:compile_select", "syncanysql/compiler.py:compile_distinct_column", "syncanysql/compiler.py:compile_group_column"]}
{"id": "C52", "title": "Text literals", "statement": "A text literal without characters from 128 to 256 is the text written, with the escape sequences of the documentation (\\n, \\t, \\xhh, \\uXXXX, ...) replaced, characters that are not part of an escape sequence kept, and the literal taken as written when an escape is invalid; every text can be written.", "quantifier": "every literal of any length over all characters", "why_tests_cant": "All texts.", "anchors": ["syncanysql/compiler.py:parse_const"]}
{"id": "C53", "title": "Constants", "statement": "A constant in a statement has the value written: numbers (also with a minus sign), TRUE, FALSE, NULL, hexadecimal literals and variables.", "quantifier": "every constant and every value of the variables", "why_tests_cant": "All constants.", "anchors": ["syncanysql/compiler.py:parse_const", "syncanysql/compiler.py:is_const", "syncanysql/compiler.py:compile_const", "syncanysql/calculaters/env_variable_calculater.py"]}
{"id": "C54", "title": "INSERT ... VALUES", "statement": "INSERT INTO t (columns) VALUES ... stores one row per tuple, the i-th value under the i-th column, missing values as NULL, each column converted to its declared type or else to the number type of the first number given for it; tuples longer than the column list are refused. Nothing is converted when each column has numbers of one type only or none.", "quantifier": "every list of columns and tuples", "why_tests_cant": "All lists of columns and rows of any length.", "anchors": ["syncanysql/compiler.py:compile_insert_into"]}
{"id": "C55", "title": "The format of a file", "statement": "A table name that is a path is read with the format of its extension (csv, json, txt, xls, xlsx), whatever dots the name has; with several files in a statement each is read with the right format and directory exactly when no two of them in directories of one mangled name differ in directory or format.", "quantifier": "every list of file names in a statement", "why_tests_cant": "All combinations of files in one statement.", "anchors": ["syncanysql/compiler.py:parse_table"]}
{"id": "C56", "title": "Compiling a join ends", "statement": "Every query with joins whose ON conditions read only tables already named and whose RIGHT JOINs do not compare two columns of the joined table is compiled or rejected with an error; ON conditions that compare qualified columns are applied to the columns that are written.", "quantifier": "every join list and ON condition", "why_tests_cant": "All ON conditions; non-termination cannot be observed by a test.", "anchors": ["syncanysql/compiler.py:optimize_rewrite_right_join", "syncanysql/compiler.py:parse_on_condition"]}
{"id": "C57", "title": "HAVING keeps the rows satisfying the condition", "statement": "HAVING with comparisons, IN, IS and NOT of such operands joined by AND and OR, on columns of the select list, keeps exactly the result rows on which its condition is TRUE under SQL's three-valued logic, dropping those on which it is FALSE or NULL.", "quantifier": "every condition and every result row", "why_tests_cant": "All condition trees and rows with NULLs.", "anchors": ["syncanysql/compiler.py:compile_having_condition"]}
{"id": "C58", "title": "HAVING reads only result columns", "statement": "A HAVING condition on a column that is not in the select list is rejected with an error instead of reading something else.", "quantifier": "every condition and select list", "why_tests_cant": "All condition trees.", "anchors": ["syncanysql/compiler.py:compile_having_condition", "syncanysql/compiler.py:parse_calculate"]}
{"id": "C59", "title": "Aggregates over groups", "statement": "SELECT with COUNT, COUNT(DISTINCT), SUM, MIN, MAX, AVG, GROUP_CONCAT and GROUP BY, with different names of the items, GROUP BY names not re-used as names of other items and expressions around aggregates using only selected columns, returns one row per distinct value of the GROUP BY items in order of first appearance; every aggregate is computed over exactly the rows of its group, expressions around aggregates from these values, and the columns outside aggregates come from one row of the group; without GROUP BY all rows are one group.", "quantifier": "every such query and every list of rows", "why_tests_cant": "All select lists, groupings and row lists.", "anchors": ["syncanysql/compiler.py:compile_aggregate_column", "syncanysql/compiler.py:compile_aggregate_key", "syncanysql/compiler.py:compile_aggregate_value", "syncanysql/compiler.py:compile_aggregate_calculate", "syncanysql/taskers/query.py:QueryTasker.compile_aggregate_column"]}
{"id": "C60", "title": "The groups do not depend on the select list", "statement": "When GROUP BY names are not re-used as names of other items, the groups of a query are determined by its GROUP BY items alone, whatever the select list; DISTINCT is accepted only in COUNT.", "quantifier": "every select list and GROUP BY", "why_tests_cant": "All orders of select items.", "anchors": ["syncanysql/compiler.py:compile_aggregate_key", "syncanysql/compiler.py:compile_aggregate_column"]}
{"id": "C61", "title": "WITH tables", "statement": "When nothing is stored under the names of a WITH list and no direct subquery starts from a table whose name begins with the name being defined, each name of WITH denotes exactly the rows of its query, computed with the tables and the names before it, and subqueries read the tables they name.", "quantifier": "every WITH list, nesting of subqueries and contents of the tables", "why_tests_cant": "All nestings and contents; what earlier statements left behind.", "anchors": ["syncanysql/compiler.py:compile_with", "syncanysql/compiler.py:compile_subquery", "syncanysql/compiler.py:compile_query", "syncanysql/taskers/query.py:QueryTasker.run_yield"]}
{"id": "C62", "title": "Settings reach subqueries unchanged", "statement": "Each subquery of a statement, at any depth, runs with its own @limit and otherwise with the settings of the session at the time of the statement; settings made for one subquery do not affect another. EXPLAIN turns on verbose for all of them and changes nothing else.", "quantifier": "every nesting of subqueries, every session and every setting", "why_tests_cant": "All trees of subqueries of unbounded depth and width.", "anchors": ["syncanysql/compiler.py:compile_with", "syncanysql/compiler.py:compile_subquery", "syncanysql/compiler.py:compile_union", "syncanysql/taskers/query.py:QueryTasker.start", "syncanysql/taskers/explain.py:ExplainTasker.start"]}
{"id": "C63", "title": "Subqueries in expressions", "statement": "A subquery without LIMIT in the select list or in WHERE, whose tables have other names than the outer ones, that refers to columns of the outer query gives, for each outer row, exactly the values of its rows satisfying its WHERE for that outer row, in order; if an equality with the outer query is written twice it is rejected.", "quantifier": "every subquery (select item, WHERE tree), every table and every batch of outer rows", "why_tests_cant": "All WHERE trees, tables and batches; the subquery is run once for many outer rows.", "anchors": ["syncanysql/compiler.py:parse_subquery", "syncanysql/compiler.py:compile_query_condition", "syncanysql/calculaters/query_tasker_calculater.py:ExecuteQueryTaskerCalculater"]}
{"id": "C64", "title": "Aggregates in subqueries", "statement": "A subquery with aggregates whose references to the outer query are equalities of two columns gives, for each outer row for which it has a row, the aggregate over exactly the rows satisfying its WHERE for that outer row, by group when it has GROUP BY.", "quantifier": "every subquery, table and batch of outer rows", "why_tests_cant": "All tables, groupings and batches.", "anchors": ["syncanysql/compiler.py:parse_subquery", "syncanysql/compiler.py:compile_query_condition"]}
{"id": "C65", "title": "Scripts given to the command", "statement": "Invoked with a script file, or with a script on standard input and an argument that is not a script file, the command runs the initial files and then exactly that script; the exit code is 0 exactly when everything was read, started and run without an error, and otherwise that of the first failure.", "quantifier": "every invocation, every script and every behaviour of the statements", "why_tests_cant": "All scripts and failure points.", "anchors": ["syncanysql/main.py:main"]}
{"id": "C66", "title": "Commands of the prompt do not disturb each other", "statement": "In the prompt every command entered before exit has exactly the effect it has on its own, whether the commands before it failed, were interrupted or succeeded.", "quantifier": "every sequence of inputs and every behaviour of the statements", "why_tests_cant": "All sequences of commands and failures.", "anchors": ["syncanysql/prompt.py:CliPrompt.run"]}
{"id": "C67", "title": "Columns of the result", "statement": "The columns of a result are the names its select list asks for, each once, in the order in which they first appear: an item goes by its alias, a column by its own name (or table.name when that is already taken and it is written with its table), an expression by its SQL text, the star of a subquery by the subquery's columns; each column is computed from the item that asked for it, of several items with one name the last (a star gives way to all others). With different names there is exactly one column per item.", "quantifier": "every select list and FROM clause without window functions", "why_tests_cant": "All select lists of unbounded length and all collisions of names.", "anchors": ["syncanysql/compiler.py:compile_select", "syncanysql/compiler.py:compile_select_column", "syncanysql/compiler.py:compile_select_star_column", "syncanysql/compiler.py:compile_select_calculate_column"]}
{"id": "C68", "title": "No select item is lost", "statement": "Every item of the select list appears in the result, or the query is refused.", "quantifier": "every select list and FROM clause without window functions", "why_tests_cant": "All select lists and all collisions of names.", "anchors": ["syncanysql/compiler.py:compile_select", "syncanysql/compiler.py:compile_select_star_column"]}
{"id": "C69", "title": "Key of the result", "statement": "The key under which result rows are written consists of the columns marked <pk>, in order; without marks it is the first column or calculated column with a plain name; it consists of columns of the result unless it is the default id.", "quantifier": "every select list and FROM clause without window functions", "why_tests_cant": "All select lists, marks and positions.", "anchors": ["syncanysql/compiler.py:compile_select_column", "syncanysql/compiler.py:compile_select_calculate_column", "syncanysql/compiler.py:compile_select"]}
{"id": "C70", "title": "Annotations of columns", "statement": "A column written `name[type args;type ...]<option,...>` is the column name with the types and options it lists (options only together with types), and is converted by the types, one after the other, when there are at most two.", "quantifier": "every name, every list of annotations and options, every value", "why_tests_cant": "All lists of annotations of unbounded length and all texts.", "anchors": ["syncanysql/compiler.py:parse_column", "syncanysql/compiler.py:compile_column"]}
{"id": "C71", "title": "Memory tables of the engine", "statement": "Reading or popping a memory table through the engine returns exactly the rows pushed to it since it was last popped, in the order in which they were pushed, whatever is done to other tables.", "quantifier": "every sequence of push, get and pop calls on a new engine", "why_tests_cant": "All histories of calls of unbounded length.", "anchors": ["syncanysql/__init__.py:ScriptEngine.get_memory_datas", "syncanysql/__init__.py:ScriptEngine.pop_memory_datas", "syncanysql/__init__.py:ScriptEngine.push_memory_datas", "syncanysql/__init__.py:ExecuterContext.push_memory_datas"]}
{"id": "C72", "title": "A closed engine stays closed", "statement": "After close() an engine does nothing any more, whatever was done before: every call that needs the engine fails, memory tables read as empty, and closing again changes nothing.", "quantifier": "every history of calls, every configuration, every calling thread", "why_tests_cant": "All histories and threads.", "anchors": ["syncanysql/__init__.py:ScriptEngine.close", "syncanysql/__init__.py:ScriptEngine.get_database", "syncanysql/__init__.py:ScriptEngine.terminal", "syncanysql/__init__.py:ExecuterContext.terminal"]}
{"id": "C73", "title": "No separator inside a statement", "statement": "For every script whose comments contain no quotes (and whose block comments do not overlap as in /*/ or */*), the statements returned are exactly the parts of the script between the separators outside quoted parts and comments; splitting fails exactly when a quote or block comment is left open.", "quantifier": "every script text", "why_tests_cant": "The set of scripts is infinite.", "anchors": ["syncanysql/parser.py:SqlParser.split", "syncanysql/parser.py:SqlParser.skip_escape", "syncanysql/parser.py:SqlParser.read_util"]}
{"id": "C74", "title": "Variables under both names", "statement": "A variable set through the API under a name is found by its bare name and by its name with '@'.", "quantifier": "every name and every history", "why_tests_cant": "All names and histories.", "anchors": ["syncanysql/executor.py:EnvVariables"]}
{"id": "C75", "title": "CONCAT_WS", "statement": "CONCAT_WS of arguments that are not NULL joins them with the separator.", "quantifier": "every list of arguments", "why_tests_cant": "All lists of arguments and texts.", "anchors": ["syncanysql/calculaters/mysql_funcs/string_funcs.py"]}
{"id": "C76", "title": "ELT and SUBSTRING_INDEX", "statement": "ELT(n,v1..vk) is vn for 1 <= n < k and NULL for n > k; SUBSTRING_INDEX(s,d,c) for c >= 0 is the text before the c-th delimiter from the left, or s if there are fewer.", "quantifier": "every list of values, every text, delimiter and count", "why_tests_cant": "All texts and numbers of delimiters.", "anchors": ["syncanysql/calculaters/mysql_funcs/string_funcs.py"]}
{"id": "C77", "title": "NTH_VALUE, RANK without ties, even NTILE", "statement": "Within a partition in its order NTH_VALUE(v,n), n >= 1, is the value of the n-th row (or the default, or NULL) and NTH_VALUE(v) that of the first; RANK and DENSE_RANK are those of SQL when no two rows tie; NTILE(n) is that of SQL when n divides the number of rows.", "quantifier": "every partition of any size, with ties", "why_tests_cant": "Partitions of unbounded size with all patterns of ties.", "anchors": ["syncanysql/calculaters/window_calculater.py"]}
{"id": "C78", "title": "Scripts as sequences of statements", "statement": "The result of a script is that of running its statements one after the other; a script that follows a failed one runs only its own statements.", "quantifier": "every script and every behaviour of the statements", "why_tests_cant": "All scripts and failures.", "anchors": ["syncanysql/executor.py:Executor"]}
{"id": "C79", "title": "SEC_TO_TIME and TIME_TO_SEC", "statement": "TIME_TO_SEC of SEC_TO_TIME of a number of seconds below 24 hours is that number.", "quantifier": "every date, every number of seconds", "why_tests_cant": "All dates and numbers.", "anchors": ["syncanysql/calculaters/mysql_funcs/datetime_funcs.py"]}
{"id": "C80", "title": "Bit literals and minus signs", "statement": "A bit literal has the value written, and a minus sign negates the constant or variable after it.", "quantifier": "every constant", "why_tests_cant": "All constants and contexts.", "anchors": ["syncanysql/compiler.py:parse_const", "syncanysql/compiler.py:is_const", "syncanysql/compiler.py:compile_const", "syncanysql/calculaters/env_variable_calculater.py"]}
{"id": "C81", "title": "Scripts on standard input without arguments", "statement": "A script given on standard input without any argument is run, and the exit code is 0 exactly when it succeeded.", "quantifier": "every script and every behaviour of the statements", "why_tests_cant": "All scripts.", "anchors": ["syncanysql/main.py:main"]}
{"id": "C82", "title": "Key by which the source is read", "statement": "The key by which the first table is read consists of columns of that table.", "quantifier": "every select list and FROM clause without window functions", "why_tests_cant": "All select lists, marks and positions.", "anchors": ["syncanysql/compiler.py:compile_select_column", "syncanysql/compiler.py:compile_select_calculate_column", "syncanysql/compiler.py:compile_select"]}
{"id": "C83", "title": "The API on contexts and as functions", "statement": "The calls on memory tables, databases and termination work alike on the engine, on a context and as functions of the module, from whatever thread they are called; the database returned is the one the session's configuration names.", "quantifier": "every history of calls, every configuration, every calling thread", "why_tests_cant": "All histories and threads.", "anchors": ["syncanysql/__init__.py:ExecuterContext", "syncanysql/__init__.py:ScriptEngine.get_database", "syncanysql/__init__.py:ScriptEngine.terminal", "syncanysql/__init__.py"]}
{"id": "C84", "title": "TO_BASE64 and FROM_BASE64", "statement": "TO_BASE64 of a text is the base64 form (RFC 4648) of its UTF-8 bytes, and FROM_BASE64 gives back the text.", "quantifier": "every text of Unicode scalar values, of any length", "why_tests_cant": "All texts, all lengths modulo three and all byte values.", "anchors": ["syncanysql/calculaters/mysql_funcs/string_funcs.py:mysql_to_base64", "syncanysql/calculaters/mysql_funcs/string_funcs.py:mysql_from_base64"]}
{"id": "C85", "title": "HEX and UNHEX of texts", "statement": "HEX of a non-empty text is its UTF-8 bytes written as hexadecimal digits, two per byte, and UNHEX gives back these bytes.", "quantifier": "every non-empty text of Unicode scalar values", "why_tests_cant": "All texts.", "anchors": ["syncanysql/calculaters/mysql_funcs/string_funcs.py:mysql_hex", "syncanysql/calculaters/mysql_funcs/string_funcs.py:mysql_unhex"]}
{"id": "C86", "title": "Digits of BIN, OCT and HEX", "statement": "BIN and HEX of an integer are 0b and 0x (after the sign) followed by its digits in base 2 and 16; OCT of an integer that is not negative is its digits in base 8.", "quantifier": "every integer", "why_tests_cant": "All integers of unbounded size.", "anchors": ["syncanysql/calculaters/mysql_funcs/string_funcs.py:mysql_bin", "syncanysql/calculaters/mysql_funcs/string_funcs.py:mysql_oct", "syncanysql/calculaters/mysql_funcs/string_funcs.py:mysql_hex", "syncanysql/calculaters/mysql_funcs/string_funcs.py:mysql_unhex"]}
{"id": "C87", "title": "CHAR, and ASCII and ORD of one character", "statement": "CHAR of codes is the text of these characters; ASCII and ORD of a text of one character are its code.", "quantifier": "every list of codes, every text", "why_tests_cant": "All texts and codes.", "anchors": ["syncanysql/calculaters/mysql_funcs/string_funcs.py:mysql_char", "syncanysql/calculaters/mysql_funcs/string_funcs.py:mysql_ord", "syncanysql/calculaters/mysql_funcs/string_funcs.py:mysql_ascii"]}
{"id": "C88", "title": "IS_IPV4 and IS_IPV6", "statement": "IS_IPV4 (IS_IPV6) is 1 exactly for the texts of which INET4_ATON (INET6_ATON) is not NULL, NULL exactly for NULL and 0 otherwise.", "quantifier": "every value, whatever texts the platform accepts as addresses", "why_tests_cant": "All values.", "anchors": ["syncanysql/calculaters/mysql_funcs/string_funcs.py:mysql_is_ipv4", "syncanysql/calculaters/mysql_funcs/string_funcs.py:mysql_is_ipv6", "syncanysql/calculaters/mysql_funcs/string_funcs.py:mysql_inet4_aton", "syncanysql/calculaters/mysql_funcs/string_funcs.py:mysql_inet6_aton"]}
{"id": "C89", "title": "CRC32 and INET_NTOA", "statement": "CRC32 of a text is the checksum of its bytes; INET4_NTOA (INET6_NTOA) gives back the address of which INET4_ATON (INET6_ATON) was taken.", "quantifier": "every text", "why_tests_cant": "All texts.", "anchors": ["syncanysql/calculaters/mysql_funcs/string_funcs.py:mysql_crc32", "syncanysql/calculaters/mysql_funcs/string_funcs.py:mysql_inet4_ntoa", "syncanysql/calculaters/mysql_funcs/string_funcs.py:mysql_inet6_ntoa"]}
{"id": "C90", "title": "Variables within a script", "statement": "A script, with executed files, first does all its SETs and SET GLOBALs of literals and then the other statements; when no variable is used before a later SET of it and the variables set are set in the same scope, each statement sees the values that the statements before it gave the variables.", "quantifier": "every script of SET, SET GLOBAL, SELECT and EXECUTE statements, nested to any depth, and every state of the variables", "why_tests_cant": "All scripts and orders of statements.", "anchors": ["syncanysql/executor.py:Executor.run", "syncanysql/executor.py:Executor.execute", "syncanysql/executor.py:EnvVariables", "syncanysql/taskers/set.py:SetCommandTasker.start", "syncanysql/taskers/into.py:IntoTasker", "syncanysql/taskers/execute.py:ExecuteTasker", "syncanysql/calculaters/env_variable_calculater.py"]}
{"id": "C91", "title": "Variables of statements submitted one at a time", "statement": "When statements are submitted one at a time, each sees the values that the statements before it gave the variables, provided that a variable set from an expression that reads it was set in the same scope before, and executed files use no variable before its SET.", "quantifier": "every sequence of statements and every state of the variables", "why_tests_cant": "All sequences of statements.", "anchors": ["syncanysql/executor.py:Executor.run", "syncanysql/executor.py:Executor.execute", "syncanysql/executor.py:EnvVariables", "syncanysql/taskers/set.py:SetCommandTasker.start", "syncanysql/taskers/into.py:IntoTasker", "syncanysql/taskers/execute.py:ExecuteTasker", "syncanysql/calculaters/env_variable_calculater.py"]}
{"id": "C92", "title": "An executed file has its own variables", "statement": "EXECUTE of a file changes no variable outside the file except for those the file sets with SET GLOBAL; without SET GLOBAL, the script around it ends with the same variables, and shows the same values, as without the EXECUTE.", "quantifier": "every file, with files executed in it to any depth, every script around it and every state of the variables", "why_tests_cant": "All files, nestings and scripts.", "anchors": ["syncanysql/executor.py:Executor.run", "syncanysql/executor.py:Executor.execute", "syncanysql/executor.py:EnvVariables", "syncanysql/taskers/set.py:SetCommandTasker.start", "syncanysql/taskers/into.py:IntoTasker", "syncanysql/taskers/execute.py:ExecuteTasker", "syncanysql/calculaters/env_variable_calculater.py"]}
{"id": "C93", "title": "SET of a variable from its own value", "statement": "SET @x = expression gives @x the value of the expression before the statement when @x is set in the same scope or the expression does not read it.", "quantifier": "every expression and state of the variables", "why_tests_cant": "All expressions and scopes.", "anchors": ["syncanysql/executor.py:Executor.run", "syncanysql/executor.py:Executor.execute", "syncanysql/executor.py:EnvVariables", "syncanysql/taskers/set.py:SetCommandTasker.start", "syncanysql/taskers/into.py:IntoTasker", "syncanysql/taskers/execute.py:ExecuteTasker", "syncanysql/calculaters/env_variable_calculater.py"]}
{"id": "C94", "title": "Configuration files that extend others", "statement": "After loading, a setting has the value given last: configuration files apply in the order they are found, each after all the files it extends (these in the order listed), over the defaults, and a configuration passed to the program applies last; a setting nobody gives is absent.", "quantifier": "every set of configuration files extending each other to any depth, every custom configuration, every setting", "why_tests_cant": "All trees of files and all settings.", "anchors": ["syncanysql/config.py:GlobalConfig.load", "syncanysql/config.py:GlobalConfig.load_config", "syncanysql/config.py:GlobalConfig.merge_config"]}
{"id": "C95", "title": "The configuration of the working directory overrides that of the home directory", "statement": "When both directories have a configuration file that gives a setting, the one of the working directory wins.", "quantifier": "every pair of configurations", "why_tests_cant": "The iteration order of a set varies between runs.", "anchors": ["syncanysql/config.py:GlobalConfig.load", "syncanysql/config.py:GlobalConfig.load_config", "syncanysql/config.py:GlobalConfig.merge_config"]}
{"id": "C96", "title": "Circular configuration files", "statement": "Files that extend each other in a circle never load; without a circle, loading readable files always ends and applies each file as often as it is listed.", "quantifier": "every graph of files", "why_tests_cant": "All graphs of files.", "anchors": ["syncanysql/config.py:GlobalConfig.load", "syncanysql/config.py:GlobalConfig.load_config", "syncanysql/config.py:GlobalConfig.merge_config"]}
{"id": "C97", "title": "Initial files", "statement": "The initial files run at start are all those named by all configurations, in the order in which the configurations apply, each found as named or else in the home directory; a file that is in neither place is an error.", "quantifier": "every set of configurations", "why_tests_cant": "All configurations.", "anchors": ["syncanysql/config.py:GlobalConfig.load", "syncanysql/config.py:GlobalConfig.load_config", "syncanysql/config.py:GlobalConfig.merge_config"]}
{"id": "C98", "title": "Standard databases", "statement": "After loading every database has the options configured for it (later values winning), and the databases - (text lines) and -- (memory) exist also when not configured; no other database appears.", "quantifier": "every set of configurations, every database and option other than encoding and date formats", "why_tests_cant": "All configurations.", "anchors": ["syncanysql/config.py:GlobalConfig.load", "syncanysql/config.py:GlobalConfig.load_config", "syncanysql/config.py:GlobalConfig.merge_config"]}
{"id": "C99", "title": "Encoding and formats of one database", "statement": "An encoding or date format configured for one database is used for it; the global one only where none is configured.", "quantifier": "every configuration", "why_tests_cant": "All configurations.", "anchors": ["syncanysql/config.py:GlobalConfig.load", "syncanysql/config.py:GlobalConfig.load_config", "syncanysql/config.py:GlobalConfig.merge_config"]}
{"id": "C100", "title": "Configuration keys that cannot be set", "statement": "Every configuration key can be set by SET, and SET GLOBAL changes the global configuration: database options given as plain text, caches, views of the default database, sections not known to the program; and databases stay unique by name.", "quantifier": "every configuration and key", "why_tests_cant": "All keys and values.", "anchors": ["syncanysql/config.py"]}
{"id": "C101", "title": "Signed decimals in SET", "statement": "A decimal number with a sign, as in SET @x = -1.5, denotes that number.", "quantifier": "every signed decimal literal", "why_tests_cant": "All literals.", "anchors": ["syncanysql/taskers/set.py:SetCommandTasker.parse_value", "syncanysql/taskers/set.py:SetCommandTasker.start", "syncanysql/compiler.py:compile_expression"]}
{"id": "C102", "title": "Comparison is symmetric", "statement": "For operands of one kind (two numbers, two texts, two dates, ...) a = b is b = a, a < b is b > a and a <= b is b >= a.", "quantifier": "every pair of SQL values", "why_tests_cant": "All pairs of values of all kinds.", "anchors": ["syncanysql/calculaters/mysql_funcs/logical_funcs.py"]}
{"id": "C103", "title": "Functions called with too many arguments", "statement": "A function called with more arguments than it takes gives NULL or the value for its first arguments, and does not abort the query.", "quantifier": "every function of at most four arguments and every longer argument list", "why_tests_cant": "All functions and lists.", "anchors": ["syncanysql/calculaters/mysql_calculater.py"]}
{"id": "C104", "title": "AVG does not depend on row order", "statement": "AVG of integers without NULLs is the same for every order in which the rows arrive.", "quantifier": "every list of rows and every permutation of it", "why_tests_cant": "All lists and permutations.", "anchors": ["syncanysql/calculaters/aggregate_calculater.py"]}
{"id": "C105", "title": "SELECT ... INTO with no rows, too few columns or a star", "statement": "INTO a variable stores NULL when there is no row; INTO more variables than columns gives NULL to the others; SELECT * INTO works like naming the columns.", "quantifier": "every result table and variable list", "why_tests_cant": "All tables and lists.", "anchors": ["syncanysql/taskers/into.py:IntoTasker"]}
{"id": "C106", "title": "The loaded history has at most 50 entries", "statement": "Loading the history never gives more than the last 50 commands.", "quantifier": "every sequence of commands and restarts", "why_tests_cant": "All histories.", "anchors": ["syncanysql/prompt.py:CliFileHistory"]}
{"id": "C107", "title": "DATEDIFF and TIMESTAMPDIFF in months", "statement": "DATEDIFF(a,b) is the number of days from b to a; TIMESTAMPDIFF in MONTH, QUARTER and YEAR counts calendar months; fractions of seconds are rounded toward zero.", "quantifier": "every pair of dates or datetimes", "why_tests_cant": "All pairs of moments.", "anchors": ["syncanysql/calculaters/mysql_funcs/datetime_funcs.py:mysql_datediff", "syncanysql/calculaters/mysql_funcs/datetime_funcs.py:mysql_timestampdiff"]}
{"id": "C108", "title": "Several files in a statement", "statement": "Each file of a statement is read from its own directory with its own format and options.", "quantifier": "every list of file names in a statement", "why_tests_cant": "All lists of names.", "anchors": ["syncanysql/compiler.py:parse_table"]}
{"id": "C109", "title": "ASCII and ORD of longer texts", "statement": "ASCII and ORD are the code of the first character of a text.", "quantifier": "every text", "why_tests_cant": "All texts.", "anchors": ["syncanysql/calculaters/mysql_funcs/string_funcs.py:mysql_char", "syncanysql/calculaters/mysql_funcs/string_funcs.py:mysql_ord", "syncanysql/calculaters/mysql_funcs/string_funcs.py:mysql_ascii"]}
{"id": "C110", "title": "Window functions", "statement": "A query with window functions, aggregates OVER windows and expressions around them (no frame written, named windows used as they are, columns of PARTITION BY and ORDER BY not hidden by other names of items, expressions using only selected columns) gives one row per row of the table, in the same order, with each item under its name: an aggregate is taken over the rows with equal PARTITION BY values, and with ORDER BY over those up to the current row (no ties), a window function gets the rows of the partition in the order of ORDER BY, ascending or descending, and the position of the current row.", "quantifier": "every such query, every table of rows whose values can be aggregated", "why_tests_cant": "All queries and tables.", "anchors": ["syncanysql/compiler.py:compile_window_column", "syncanysql/compiler.py:compile_window_key", "syncanysql/compiler.py:compile_window_order", "syncanysql/compiler.py:compile_window_value", "syncanysql/compiler.py:compile_window_calculate", "syncanysql/compiler.py:parse_windows", "syncanysql/taskers/query.py:QueryTasker.compile_reduce_config", "syncanysql/taskers/query.py:QueryTasker.run_reduce"]}
{"id": "C111", "title": "Window functions that are refused", "statement": "A window name the query does not define, DISTINCT in a window function other than COUNT, and a function that is neither an aggregate nor a window function are compile errors, wherever they stand in the query.", "quantifier": "every query containing one", "why_tests_cant": "All queries.", "anchors": ["syncanysql/compiler.py:compile_window_column", "syncanysql/compiler.py:compile_window_key", "syncanysql/compiler.py:compile_window_order", "syncanysql/compiler.py:compile_window_value", "syncanysql/compiler.py:compile_window_calculate", "syncanysql/compiler.py:parse_windows", "syncanysql/taskers/query.py:QueryTasker.compile_reduce_config", "syncanysql/taskers/query.py:QueryTasker.run_reduce"]}
{"id": "C112", "title": "Aggregates over windows with ties", "statement": "An aggregate OVER a window with ORDER BY includes the rows tied with the current one.", "quantifier": "every table", "why_tests_cant": "All tables with ties.", "anchors": ["syncanysql/compiler.py:compile_window_column", "syncanysql/compiler.py:compile_window_key", "syncanysql/compiler.py:compile_window_order", "syncanysql/compiler.py:compile_window_value", "syncanysql/compiler.py:compile_window_calculate", "syncanysql/compiler.py:parse_windows", "syncanysql/taskers/query.py:QueryTasker.compile_reduce_config", "syncanysql/taskers/query.py:QueryTasker.run_reduce"]}
{"id": "C113", "title": "Frames and completed named windows", "statement": "ROWS BETWEEN frames, and an ORDER BY added to a named window in OVER (w ORDER BY ...), determine the rows over which the function is taken.", "quantifier": "every query with a frame or a completed named window", "why_tests_cant": "All frames and tables.", "anchors": ["syncanysql/compiler.py:compile_window_column", "syncanysql/compiler.py:compile_window_key", "syncanysql/compiler.py:compile_window_order", "syncanysql/compiler.py:compile_window_value", "syncanysql/compiler.py:compile_window_calculate", "syncanysql/compiler.py:parse_windows", "syncanysql/taskers/query.py:QueryTasker.compile_reduce_config", "syncanysql/taskers/query.py:QueryTasker.run_reduce"]}
{"id": "C114", "title": "Names in PARTITION BY and ORDER BY of windows", "statement": "A column in PARTITION BY or ORDER BY of a window is the column of the table, whatever the other items of the select list are named and wherever they stand.", "quantifier": "every query and table", "why_tests_cant": "All select lists.", "anchors": ["syncanysql/compiler.py:compile_window_column", "syncanysql/compiler.py:compile_window_key", "syncanysql/compiler.py:compile_window_order", "syncanysql/compiler.py:compile_window_value", "syncanysql/compiler.py:compile_window_calculate", "syncanysql/compiler.py:parse_windows", "syncanysql/taskers/query.py:QueryTasker.compile_reduce_config", "syncanysql/taskers/query.py:QueryTasker.run_reduce"]}
{"id": "C115", "title": "Expressions around window functions", "statement": "An expression around window functions is computed from their values and any columns of the row, and stands at its place among the columns.", "quantifier": "every expression and select list", "why_tests_cant": "All expressions and select lists.", "anchors": ["syncanysql/compiler.py:compile_window_column", "syncanysql/compiler.py:compile_window_key", "syncanysql/compiler.py:compile_window_order", "syncanysql/compiler.py:compile_window_value", "syncanysql/compiler.py:compile_window_calculate", "syncanysql/compiler.py:parse_windows", "syncanysql/taskers/query.py:QueryTasker.compile_reduce_config", "syncanysql/taskers/query.py:QueryTasker.run_reduce"]}
{"id": "C116", "title": "Unknown statements are refused", "statement": "A statement with a syntax error, or of a kind other than queries, INSERT ... SELECT, DELETE, EXPLAIN, SET, EXECUTE, SHOW and USE, is refused with an error and nothing changes or is printed; queries and deletions that compile are started and run.", "quantifier": "every statement text and state", "why_tests_cant": "All texts.", "anchors": ["syncanysql/compiler.py:compile_expression", "syncanysql/taskers/explain.py:ExplainTasker", "syncanysql/taskers/set.py:SetCommandTasker", "syncanysql/taskers/show.py:ShowCommandTasker", "syncanysql/taskers/use.py:UseCommandTasker", "syncanysql/executor.py:Executor.compile", "syncanysql/executor.py:Executor.execute"]}
{"id": "C117", "title": "EXPLAIN runs its statement verbosely", "statement": "EXPLAIN of a query, UNION or INSERT prints the plan and then does exactly what the statement does with @verbose on.", "quantifier": "every query text and state", "why_tests_cant": "All statements and states.", "anchors": ["syncanysql/compiler.py:compile_expression", "syncanysql/taskers/explain.py:ExplainTasker", "syncanysql/taskers/set.py:SetCommandTasker", "syncanysql/taskers/show.py:ShowCommandTasker", "syncanysql/taskers/use.py:UseCommandTasker", "syncanysql/executor.py:Executor.compile", "syncanysql/executor.py:Executor.execute"]}
{"id": "C118", "title": "EXPLAIN changes nothing and works for every statement", "statement": "EXPLAIN of any statement prints a plan and changes no data.", "quantifier": "every statement and state", "why_tests_cant": "All statements and states.", "anchors": ["syncanysql/compiler.py:compile_expression", "syncanysql/taskers/explain.py:ExplainTasker", "syncanysql/taskers/set.py:SetCommandTasker", "syncanysql/taskers/show.py:ShowCommandTasker", "syncanysql/taskers/use.py:UseCommandTasker", "syncanysql/executor.py:Executor.compile", "syncanysql/executor.py:Executor.execute"]}
{"id": "C119", "title": "SET of a literal changes one variable", "statement": "SET @x = literal and SET GLOBAL @x = literal change exactly the variable named, in the executor's or the global scope, whatever is in the value (also the equals sign); SET @imports.name and @sources.name = text set that entry of the session's configuration only.", "quantifier": "every variable that is no configuration key, every literal, every state", "why_tests_cant": "All variables, literals and states.", "anchors": ["syncanysql/compiler.py:compile_expression", "syncanysql/taskers/explain.py:ExplainTasker", "syncanysql/taskers/set.py:SetCommandTasker", "syncanysql/taskers/show.py:ShowCommandTasker", "syncanysql/taskers/use.py:UseCommandTasker", "syncanysql/executor.py:Executor.compile", "syncanysql/executor.py:Executor.execute"]}
{"id": "C120", "title": "SET of any expression and name", "statement": "SET GLOBAL of an expression sets the global variable; an expression may begin with a quoted text; any variable name may be set.", "quantifier": "every expression and name", "why_tests_cant": "All expressions and names.", "anchors": ["syncanysql/compiler.py:compile_expression", "syncanysql/taskers/explain.py:ExplainTasker", "syncanysql/taskers/set.py:SetCommandTasker", "syncanysql/taskers/show.py:ShowCommandTasker", "syncanysql/taskers/use.py:UseCommandTasker", "syncanysql/executor.py:Executor.compile", "syncanysql/executor.py:Executor.execute"]}
{"id": "C121", "title": "SHOW DATABASES and SHOW IMPORTS", "statement": "SHOW DATABASES prints one table with one row (name, driver, other settings, views) for each configured database, in order, and SHOW IMPORTS one with the name and alias of each import; variables, data and configuration are unchanged.", "quantifier": "every configuration whose databases have a name and a driver", "why_tests_cant": "All configurations.", "anchors": ["syncanysql/compiler.py:compile_expression", "syncanysql/taskers/explain.py:ExplainTasker", "syncanysql/taskers/set.py:SetCommandTasker", "syncanysql/taskers/show.py:ShowCommandTasker", "syncanysql/taskers/use.py:UseCommandTasker", "syncanysql/executor.py:Executor.compile", "syncanysql/executor.py:Executor.execute"]}
{"id": "C122", "title": "SHOW of anything else", "statement": "SHOW of a thing that cannot be shown is an error, and SHOW DATABASES shows every configuration.", "quantifier": "every SHOW statement and configuration", "why_tests_cant": "All configurations.", "anchors": ["syncanysql/compiler.py:compile_expression", "syncanysql/taskers/explain.py:ExplainTasker", "syncanysql/taskers/set.py:SetCommandTasker", "syncanysql/taskers/show.py:ShowCommandTasker", "syncanysql/taskers/use.py:UseCommandTasker", "syncanysql/executor.py:Executor.compile", "syncanysql/executor.py:Executor.execute"]}
{"id": "C123", "title": "USE", "statement": "USE path AS alias, and USE path, make the path an import (an SQL source when such a file exists) under the alias, or under the last part of the path, and change nothing else.", "quantifier": "every path and alias without blanks, every state", "why_tests_cant": "All paths and states.", "anchors": ["syncanysql/compiler.py:compile_expression", "syncanysql/taskers/explain.py:ExplainTasker", "syncanysql/taskers/set.py:SetCommandTasker", "syncanysql/taskers/show.py:ShowCommandTasker", "syncanysql/taskers/use.py:UseCommandTasker", "syncanysql/executor.py:Executor.compile", "syncanysql/executor.py:Executor.execute"]}
{"id": "C124", "title": "USE of source files and AS in capitals", "statement": "USE of a file without alias makes it a source under its name, and AS may be written in capitals.", "quantifier": "every path and alias", "why_tests_cant": "All paths.", "anchors": ["syncanysql/compiler.py:compile_expression", "syncanysql/taskers/explain.py:ExplainTasker", "syncanysql/taskers/set.py:SetCommandTasker", "syncanysql/taskers/show.py:ShowCommandTasker", "syncanysql/taskers/use.py:UseCommandTasker", "syncanysql/executor.py:Executor.compile", "syncanysql/executor.py:Executor.execute"]}
{"id": "C125", "title": "LIMIT m, n", "statement": "LIMIT m, n skips m rows and takes n: it means LIMIT n OFFSET m; other limits are read as written.", "quantifier": "every token sequence of a limit", "why_tests_cant": "All token sequences.", "anchors": ["syncanysql/compiler.py:CompilerDialect.Parser._parse_limit", "syncanysql/compiler.py:CompilerDialect.Parser._parse_offset"]}
{"id": "C126", "title": "Arguments of functions in placeholders", "statement": "The arguments of a function in ${name:function(arguments)} denote: a quoted text its content, an optionally signed digit string that integer, true/false/null the constant (any case), unsigned digits.digits that decimal number, and anything else itself.", "quantifier": "every argument text", "why_tests_cant": "All texts.", "anchors": ["syncanysql/utils.py:parse_value"]}
{"id": "C127", "title": "Raw SQL blocks", "statement": "A statement with raw blocks, /*raw(db.name) SQL endraw*/ or /*raw(db.name)*/ ( SQL ) /*endraw*/, does what is done by defining each block's SQL as the view name of database db, in order, and then the statement with db.name in place of each block; the view has the block's SQL as its query, and nothing else in the configuration changes. A statement without blocks is done as written.", "quantifier": "every text with any number of blocks, every white space in them, every SQL that contains neither a raw( opening nor endraw, every state", "why_tests_cant": "All texts.", "anchors": ["syncanysql/executor.py:RAW_SQL_RE", "syncanysql/executor.py:Executor.run", "syncanysql/config.py:GlobalConfig.set"]}
{"id": "C128", "title": "Defining a view keeps the other views", "statement": "Defining a view of a database in a session leaves the other views of that database usable in that session.", "quantifier": "every configuration and history", "why_tests_cant": "All histories.", "anchors": ["syncanysql/executor.py:RAW_SQL_RE", "syncanysql/executor.py:Executor.run", "syncanysql/config.py:GlobalConfig.set", "syncanysql/config.py:GlobalConfig.merge_config", "syncanysql/config.py:SessionConfig.get"]}
{"id": "C129", "title": "Comments with quotes", "statement": "A comment between statements never drops, merges or alters the statements around it, whatever the comment's text, quotes included.", "quantifier": "every script and comment text", "why_tests_cant": "All of them.", "anchors": ["syncanysql/parser.py:SqlParser.split", "syncanysql/parser.py:SqlParser.read_util"]}
{"id": "C130", "title": "Inserted values are not interpreted again", "statement": "A value that looks like a placeholder is inserted as it is; names may have capitals and defaults may contain '}'.", "quantifier": "every statement text and every variable environment", "why_tests_cant": "All of them.", "anchors": ["syncanysql/executor.py:Executor.compile_variable"]}
{"id": "C131", "title": "SUBSTRING, LEFT, RIGHT at zero and negative positions", "statement": "SUBSTRING with a negative position counts from the end and with position 0 or a negative length is empty; LEFT and RIGHT of 0 or fewer characters are empty.", "quantifier": "every string and all integers n <= 0", "why_tests_cant": "All of them.", "anchors": ["syncanysql/calculaters/mysql_funcs/string_funcs.py"]}
{"id": "C132", "title": "LIKE with any pattern", "statement": "s LIKE p is 1 exactly when the whole of s matches p, where % stands for any sequence, _ for any single character, and other characters for themselves.", "quantifier": "every pair of strings", "why_tests_cant": "All of them.", "anchors": ["syncanysql/calculaters/mysql_funcs/regexp_funcs.py:mysql_like"]}
{"id": "C133", "title": "AVG with NULLs, SUM of floats and JSON_OBJECTAGG in batches", "statement": "AVG over any values, SUM over floating-point numbers and JSON_OBJECTAGG give the same result whether the rows are aggregated at once or in batches; AVG ignores NULLs.", "quantifier": "every list of rows, every split into batches", "why_tests_cant": "All of them.", "anchors": ["syncanysql/calculaters/aggregate_calculater.py"]}
{"id": "C134", "title": "Streaming AVG with NULLs", "statement": "When a source is read in batches, AVG of a group is that obtained by grouping all the rows at once.", "quantifier": "every row list, every batch split", "why_tests_cant": "All of them.", "anchors": ["syncanysql/taskers/query.py:ReduceHooker"]}
{"id": "C135", "title": "JSON_REMOVE through an index", "statement": "Removing a path with an index before its last step removes exactly the addressed member.", "quantifier": "every document and path", "why_tests_cant": "All of them.", "anchors": ["syncanysql/calculaters/mysql_funcs/json_funcs.py"]}
{"id": "C136", "title": "Adding months up to December, negative intervals, leap days", "statement": "date + INTERVAL k MONTH/YEAR is the date k months later with the day clamped to the month's length, also in December, for negative k and from 29 February.", "quantifier": "every date and every integer k", "why_tests_cant": "All of them.", "anchors": ["syncanysql/calculaters/mysql_funcs/datetime_funcs.py:calculate_datetime"]}
{"id": "C137", "title": "Later changes and defaults of the global configuration", "statement": "A session reads the current global setting where it has none of its own, at every moment and for every setting.", "quantifier": "every interleaving of reads and writes on session and global configuration", "why_tests_cant": "All of them.", "anchors": ["syncanysql/config.py:SessionConfig"]}
{"id": "C138", "title": "LIMIT with DISTINCT or bare GROUP BY, and LIMIT 0", "statement": "LIMIT n counts the rows of the result also with DISTINCT and with GROUP BY without aggregates, and LIMIT 0 returns no row.", "quantifier": "every query, source, n and m", "why_tests_cant": "All of them.", "anchors": ["syncanysql/compiler.py:Compiler.compile_select"]}
{"id": "C139", "title": "WHERE pushdown of reversed comparisons, IN columns and typed columns", "statement": "The conditions handed to the source and the residual filter select exactly the rows for which the clause is true, also for 5 > a, a IN (b), CAST(a AS t) = 5 and typed columns.", "quantifier": "every WHERE expression and every row", "why_tests_cant": "All of them.", "anchors": ["syncanysql/compiler.py:Compiler.compile_where_condition", "syncanysql/compiler.py:Compiler.build_query_condition"]}
{"id": "C140", "title": "AND and OR as values, NOT of unknown conditions, CASE without ELSE", "statement": "Every boolean or conditional expression evaluates to its SQL value, wherever it stands: AND and OR as values, NOT of an unknown conjunction, CASE without ELSE, texts as conditions, simple CASE with mixed types.", "quantifier": "every expression tree and every row", "why_tests_cant": "All of them.", "anchors": ["syncanysql/compiler.py"]}
{"id": "C141", "title": "ORDER BY an alias that hides a column", "statement": "ORDER BY sorts by the result column of that name, also when the table has another column of that name or the column belongs to a joined table.", "quantifier": "every query and source", "why_tests_cant": "All of them.", "anchors": ["syncanysql/compiler.py:Compiler.compile_order"]}
{"id": "C142", "title": "UNION, EXCEPT, INTERSECT and matching by position", "statement": "UNION removes duplicates, EXCEPT and INTERSECT subtract and intersect, columns are matched by position, and branches may be parenthesised.", "quantifier": "every list of branches", "why_tests_cant": "All of them.", "anchors": ["syncanysql/compiler.py:Compiler.compile_union"]}
{"id": "C143", "title": "Mixtures of joins", "statement": "INNER JOIN returns only matching pairs, LEFT JOIN keeps every left row, for any mixture of joins in one query.", "quantifier": "every join list", "why_tests_cant": "All of them.", "anchors": ["syncanysql/compiler.py:Compiler.optimize_rewrite"]}
{"id": "C144", "title": "Temporary tables when results are streamed", "statement": "A table of a subquery that is still used is not removed when results are streamed.", "quantifier": "every schedule with pauses", "why_tests_cant": "All of them.", "anchors": ["syncanysql/taskers/query.py:QueryTaskerTemporaryMemoryManager"]}
{"id": "C145", "title": "DELETE with reversed comparisons and typed columns", "statement": "A DELETE that is not rejected removes exactly the rows satisfying its WHERE clause, also for 5 > a and typed columns.", "quantifier": "every WHERE expression and every table", "why_tests_cant": "All of them.", "anchors": ["syncanysql/compiler.py:Compiler.compile_delete", "syncanysql/taskers/delete.py"]}
{"id": "C146", "title": "Re-entered and nested contexts", "statement": "Leaving an execution context restores the executor that was current when it was entered, also when an executor is re-entered, a context is used at top level or context blocks nest.", "quantifier": "every nesting of contexts", "why_tests_cant": "All of them.", "anchors": ["syncanysql/__init__.py", "syncanysql/executor.py"]}
{"id": "C147", "title": "DISTINCT with GROUP BY or aggregates", "statement": "SELECT DISTINCT never returns two equal rows, also with GROUP BY, aggregates and LIMIT.", "quantifier": "every source and query", "why_tests_cant": "All of them.", "anchors": ["syncanysql/compiler.py:compile_select", "syncanysql/compiler.py:compile_distinct_column", "syncanysql/compiler.py:compile_group_column"]}
{"id": "C148", "title": "Text literals with Latin-1 characters", "statement": "A text literal with characters from 128 to 256 is the text written.", "quantifier": "every literal with such a character", "why_tests_cant": "All of them.", "anchors": ["syncanysql/compiler.py:parse_const"]}
{"id": "C149", "title": "INSERT of mixed numbers, without column list, and INSERT ... SELECT with columns", "statement": "INSERT stores the values written also when a column has numbers of several types; VALUES needs no column list; INSERT ... SELECT stores the selected values under the listed columns.", "quantifier": "every list of columns and tuples", "why_tests_cant": "All of them.", "anchors": ["syncanysql/compiler.py:compile_insert_into"]}
{"id": "C150", "title": "RIGHT JOIN compared with itself and constants in ON", "statement": "Compiling any join ends, and a constant in ON is compared with the column written.", "quantifier": "every join list and ON condition", "why_tests_cant": "All of them.", "anchors": ["syncanysql/compiler.py:optimize_rewrite_right_join", "syncanysql/compiler.py:parse_on_condition"]}
{"id": "C151", "title": "HAVING with BETWEEN, IF, LIKE or a bare column", "statement": "HAVING keeps exactly the result rows on which its condition is TRUE, also with BETWEEN, IF, LIKE and a bare column.", "quantifier": "every condition and every result row", "why_tests_cant": "All of them.", "anchors": ["syncanysql/compiler.py:compile_having_condition"]}
{"id": "C152", "title": "Bare columns around aggregates, and aggregates of an empty table", "statement": "An expression around aggregates may use any column, and aggregates without GROUP BY of an empty table give one row.", "quantifier": "every such query and every list of rows", "why_tests_cant": "All of them.", "anchors": ["syncanysql/compiler.py:compile_aggregate_column", "syncanysql/compiler.py:compile_aggregate_key", "syncanysql/compiler.py:compile_aggregate_value", "syncanysql/compiler.py:compile_aggregate_calculate", "syncanysql/taskers/query.py:QueryTasker.compile_aggregate_column"]}
{"id": "C153", "title": "GROUP BY an alias or a position", "statement": "The groups of a query are determined by its GROUP BY items alone also when these are aliases or positions: exchanging items of the select list exchanges columns of the result and nothing else.", "quantifier": "every select list and GROUP BY", "why_tests_cant": "All of them.", "anchors": ["syncanysql/compiler.py:compile_aggregate_key", "syncanysql/compiler.py:compile_aggregate_column"]}
{"id": "C154", "title": "WITH tables are for one statement", "statement": "The names of WITH denote exactly the rows of their queries for this statement only, also when the statement is executed again or names of tables begin with the name.", "quantifier": "every WITH list and contents of the tables", "why_tests_cant": "All of them.", "anchors": ["syncanysql/compiler.py:compile_with", "syncanysql/compiler.py:compile_subquery", "syncanysql/compiler.py:compile_query", "syncanysql/taskers/query.py:QueryTasker.run_yield"]}
{"id": "C155", "title": "Subqueries with LIMIT or a table of the outer query", "statement": "A subquery with LIMIT, or with a table of the outer query, gives for each outer row the values of its rows for that outer row.", "quantifier": "every subquery, table and batch of outer rows", "why_tests_cant": "All of them.", "anchors": ["syncanysql/compiler.py:parse_subquery", "syncanysql/compiler.py:compile_query_condition", "syncanysql/calculaters/query_tasker_calculater.py:ExecuteQueryTaskerCalculater"]}
{"id": "C156", "title": "Aggregates in subqueries over no rows or with inequalities", "statement": "A subquery with aggregates gives 0 for COUNT over no rows, and may compare with the outer query in any way.", "quantifier": "every subquery, table and batch of outer rows", "why_tests_cant": "All of them.", "anchors": ["syncanysql/compiler.py:parse_subquery", "syncanysql/compiler.py:compile_query_condition"]}
{"id": "C157", "title": "Many annotations", "statement": "A column is converted by all the types listed, however many, blanks may follow a semicolon and options may stand without a type.", "quantifier": "every name and every list of annotations and options", "why_tests_cant": "All of them.", "anchors": ["syncanysql/compiler.py:parse_column", "syncanysql/compiler.py:compile_column"]}
{"id": "C158", "title": "CONCAT_WS with NULL arguments", "statement": "CONCAT_WS skips NULL arguments.", "quantifier": "every list of arguments", "why_tests_cant": "All of them.", "anchors": ["syncanysql/calculaters/mysql_funcs/string_funcs.py"]}
{"id": "C159", "title": "ELT at the ends and SUBSTRING_INDEX from the right", "statement": "ELT(k,v1..vk) is vk and ELT(0,...) is NULL; SUBSTRING_INDEX with a negative count is the text after the |c|-th delimiter from the right.", "quantifier": "every list of values, every text, delimiter and count", "why_tests_cant": "All of them.", "anchors": ["syncanysql/calculaters/mysql_funcs/string_funcs.py"]}
{"id": "C160", "title": "Ranking with ties", "statement": "RANK, DENSE_RANK, PERCENT_RANK, CUME_DIST and NTILE follow their standard definitions for every partition, with ties and of any size.", "quantifier": "every partition of any size, with ties", "why_tests_cant": "All of them.", "anchors": ["syncanysql/calculaters/window_calculater.py"]}
{"id": "C161", "title": "DAYOFWEEK, and times of 24 hours and more", "statement": "DAYOFWEEK is 1 on Sundays; SEC_TO_TIME and TIME_TO_SEC are inverse for every number of seconds.", "quantifier": "every date, every number of seconds", "why_tests_cant": "All of them.", "anchors": ["syncanysql/calculaters/mysql_funcs/datetime_funcs.py"]}
{"id": "C162", "title": "BIN, OCT and HEX as in SQL", "statement": "BIN, OCT and HEX of an integer are its digits only, and UNHEX reads what HEX writes, also for the empty text.", "quantifier": "every integer", "why_tests_cant": "All of them.", "anchors": ["syncanysql/calculaters/mysql_funcs/string_funcs.py:mysql_bin", "syncanysql/calculaters/mysql_funcs/string_funcs.py:mysql_oct", "syncanysql/calculaters/mysql_funcs/string_funcs.py:mysql_hex", "syncanysql/calculaters/mysql_funcs/string_funcs.py:mysql_unhex"]}
{"id": "C163", "title": "Variables used before a later SET", "statement": "Each statement of a script sees the values that the statements before it gave the variables, and no others.", "quantifier": "every script of SET, SET GLOBAL, SELECT and EXECUTE statements", "why_tests_cant": "All of them.", "anchors": ["syncanysql/executor.py:Executor.run", "syncanysql/executor.py:Executor.execute", "syncanysql/executor.py:EnvVariables", "syncanysql/taskers/set.py:SetCommandTasker.start", "syncanysql/taskers/into.py:IntoTasker", "syncanysql/taskers/execute.py:ExecuteTasker", "syncanysql/calculaters/env_variable_calculater.py"]}
{"id": "C164", "title": "SET of a variable of an enclosing scope from its own value", "statement": "SET @x = expression gives @x the value of the expression before the statement also when @x is only set in an enclosing scope.", "quantifier": "every expression and state of the variables", "why_tests_cant": "All of them.", "anchors": ["syncanysql/executor.py:Executor.run", "syncanysql/executor.py:Executor.execute", "syncanysql/executor.py:EnvVariables", "syncanysql/taskers/set.py:SetCommandTasker.start", "syncanysql/taskers/into.py:IntoTasker", "syncanysql/taskers/execute.py:ExecuteTasker", "syncanysql/calculaters/env_variable_calculater.py"]}
{"id": "C165", "title": "Comparison of different kinds is symmetric", "statement": "a = b is b = a, and a < b is b > a, whatever kinds of values a and b are.", "quantifier": "every pair of SQL values", "why_tests_cant": "All of them.", "anchors": ["syncanysql/calculaters/mysql_funcs/logical_funcs.py"]}
{"id": "C166", "title": "AVG with NULLs and SUM of texts do not depend on row order", "statement": "AVG with NULLs, and SUM over any values, are the same for every order in which the rows arrive.", "quantifier": "every list of rows and every permutation of it", "why_tests_cant": "All of them.", "anchors": ["syncanysql/calculaters/aggregate_calculater.py"]}
{"id": "C167", "title": "DATE_FORMAT directives", "statement": "For every date and time from the year 1000 on and every format of plain text and the directives Y y m b d j H I S f p T U v w a and the double percent sign (no v right behind a double percent sign), DATE_FORMAT and TIME_FORMAT show the text unchanged and each directive as MySQL documents it, including the Sunday-based and the ISO number of the week.", "quantifier": "every date, time of day and format of these directives", "why_tests_cant": "The directives combine freely and the week numbers depend on the whole calendar.", "anchors": ["syncanysql/calculaters/mysql_funcs/datetime_funcs.py: mysql_date_format, mysql_time_format, mysql_week, mysql_yearweek, mysql_dayname, mysql_monthname, mysql_date, mysql_datetime, mysql_time, mysql_unix_timestamp, mysql_from_unixtime"]}
{"id": "C168", "title": "DATE_FORMAT month and weekday names", "statement": "In DATE_FORMAT percent-M is the name of the month, percent-W the name of the weekday, and a double percent sign followed by a letter shows a percent sign and that letter.", "quantifier": "every date and time", "why_tests_cant": "All dates.", "anchors": ["syncanysql/calculaters/mysql_funcs/datetime_funcs.py: mysql_date_format, mysql_time_format, mysql_week, mysql_yearweek, mysql_dayname, mysql_monthname, mysql_date, mysql_datetime, mysql_time, mysql_unix_timestamp, mysql_from_unixtime"]}
{"id": "C169", "title": "WEEK counts from the first Sunday", "statement": "WEEK(d) is the number of Sundays of the year up to and including the day, for every date; the number is between 0 and 53.", "quantifier": "every date", "why_tests_cant": "All dates of the calendar.", "anchors": ["syncanysql/calculaters/mysql_funcs/datetime_funcs.py: mysql_date_format, mysql_time_format, mysql_week, mysql_yearweek, mysql_dayname, mysql_monthname, mysql_date, mysql_datetime, mysql_time, mysql_unix_timestamp, mysql_from_unixtime"]}
{"id": "C170", "title": "WEEK in mode 1", "statement": "WEEK(d, 1) is the number of the Monday-based week where week 1 is the first with four days in the year.", "quantifier": "every date", "why_tests_cant": "All dates of the calendar.", "anchors": ["syncanysql/calculaters/mysql_funcs/datetime_funcs.py: mysql_date_format, mysql_time_format, mysql_week, mysql_yearweek, mysql_dayname, mysql_monthname, mysql_date, mysql_datetime, mysql_time, mysql_unix_timestamp, mysql_from_unixtime"]}
{"id": "C171", "title": "YEARWEEK from the first Sunday on", "statement": "From the first Sunday of a year on, YEARWEEK(d) is 100 times the year plus the number of the week, for every date.", "quantifier": "every date in a week after week 0", "why_tests_cant": "All dates of the calendar.", "anchors": ["syncanysql/calculaters/mysql_funcs/datetime_funcs.py: mysql_date_format, mysql_time_format, mysql_week, mysql_yearweek, mysql_dayname, mysql_monthname, mysql_date, mysql_datetime, mysql_time, mysql_unix_timestamp, mysql_from_unixtime"]}
{"id": "C172", "title": "YEARWEEK before the first Sunday", "statement": "YEARWEEK of a day before the first Sunday of the year gives the last week of the previous year.", "quantifier": "every date in week 0", "why_tests_cant": "All dates of the calendar.", "anchors": ["syncanysql/calculaters/mysql_funcs/datetime_funcs.py: mysql_date_format, mysql_time_format, mysql_week, mysql_yearweek, mysql_dayname, mysql_monthname, mysql_date, mysql_datetime, mysql_time, mysql_unix_timestamp, mysql_from_unixtime"]}
{"id": "C173", "title": "DAYNAME", "statement": "DAYNAME(d) is the English name of the weekday of d.", "quantifier": "every date", "why_tests_cant": "All dates of the calendar.", "anchors": ["syncanysql/calculaters/mysql_funcs/datetime_funcs.py: mysql_date_format, mysql_time_format, mysql_week, mysql_yearweek, mysql_dayname, mysql_monthname, mysql_date, mysql_datetime, mysql_time, mysql_unix_timestamp, mysql_from_unixtime"]}
{"id": "C174", "title": "MONTHNAME", "statement": "MONTHNAME(d) is the full English name of the month.", "quantifier": "every date", "why_tests_cant": "All dates.", "anchors": ["syncanysql/calculaters/mysql_funcs/datetime_funcs.py: mysql_date_format, mysql_time_format, mysql_week, mysql_yearweek, mysql_dayname, mysql_monthname, mysql_date, mysql_datetime, mysql_time, mysql_unix_timestamp, mysql_from_unixtime"]}
{"id": "C175", "title": "Date and time of a datetime", "statement": "DATE(x), TIME(x) and DATETIME(DATE(x)) split every moment without loss: adding TIME(x) to DATETIME(DATE(x)) gives x, DATE and TIME of the result are those of x, and the date is made of YEAR, MONTH and DAYOFMONTH.", "quantifier": "every date and datetime", "why_tests_cant": "All moments.", "anchors": ["syncanysql/calculaters/mysql_funcs/datetime_funcs.py: mysql_date_format, mysql_time_format, mysql_week, mysql_yearweek, mysql_dayname, mysql_monthname, mysql_date, mysql_datetime, mysql_time, mysql_unix_timestamp, mysql_from_unixtime"]}
{"id": "C176", "title": "UNIX_TIMESTAMP inverts FROM_UNIXTIME on a host in UTC", "statement": "On a host whose own time zone is UTC, UNIX_TIMESTAMP(FROM_UNIXTIME(s)) is s for every s for which FROM_UNIXTIME is defined, whatever the time zone of the session.", "quantifier": "every number of seconds and every session zone of constant offset", "why_tests_cant": "All instants and zones.", "anchors": ["syncanysql/calculaters/mysql_funcs/datetime_funcs.py: mysql_date_format, mysql_time_format, mysql_week, mysql_yearweek, mysql_dayname, mysql_monthname, mysql_date, mysql_datetime, mysql_time, mysql_unix_timestamp, mysql_from_unixtime"]}
{"id": "C177", "title": "UNIX_TIMESTAMP inverts FROM_UNIXTIME on every host", "statement": "UNIX_TIMESTAMP(FROM_UNIXTIME(s)) is s whatever the time zone of the host.", "quantifier": "every number of seconds and every pair of zones of constant offset", "why_tests_cant": "All instants and zones.", "anchors": ["syncanysql/calculaters/mysql_funcs/datetime_funcs.py: mysql_date_format, mysql_time_format, mysql_week, mysql_yearweek, mysql_dayname, mysql_monthname, mysql_date, mysql_datetime, mysql_time, mysql_unix_timestamp, mysql_from_unixtime"]}
{"id": "C178", "title": "HAVING with LIKE and a pattern that ends in %", "statement": "In HAVING, e LIKE p keeps exactly the groups whose value matches p when p ends in %, has no _ and no two adjacent %, consists of plain characters and % and the value has no newline; LIKE '%%' keeps every group with a text.", "quantifier": "every such pattern, select list, operand expression and row", "why_tests_cant": "All patterns and texts.", "anchors": ["syncanysql/compiler.py:compile_having_condition"]}
{"id": "C179", "title": "Columns of joined tables are read from the tables they name", "statement": "A selected expression over any number of tables joined by LEFT JOIN, each ON reading the tables before it, has for each row of the FROM table the values that the expression has on the combinations given by joining to that row, in an order where each table follows the tables its ON reads, exactly the tables that the expression reads or that their ON conditions need.", "quantifier": "every list of joins (no comparison in ON with a computed left side whose right side reads a third table), every expression, every database and every order in which sets are walked", "why_tests_cant": "All join graphs, expressions and databases.", "anchors": ["syncanysql/compiler.py:compile_join_column_tables", "syncanysql/compiler.py:compile_join_column", "syncanysql/compiler.py:compile_join_column_field", "syncanysql/compiler.py:compile_select_calculate_column"]}
{"id": "C180", "title": "Values of joined columns do not depend on the order of sets", "statement": "The values of an expression over joined tables are the same, up to order, whatever order the compiler walks the sets of table names in.", "quantifier": "every pair of orders, every list of joins and expression as in the property before", "why_tests_cant": "The order of a set changes with the hash seed of the process: a test sees one of them.", "anchors": ["syncanysql/compiler.py:compile_join_column_tables", "syncanysql/compiler.py:compile_join_column", "syncanysql/compiler.py:compile_join_column_field", "syncanysql/compiler.py:compile_select_calculate_column"]}
{"id": "C181", "title": "Joins that go round in a circle are refused", "statement": "When ON conditions refer to each other in a circle, an expression that needs one of these tables never compiles: the statement fails instead of giving rows.", "quantifier": "every list of joins with such a circle of any length and every expression", "why_tests_cant": "All cycles and expressions.", "anchors": ["syncanysql/compiler.py:compile_join_column_tables", "syncanysql/compiler.py:compile_join_column", "syncanysql/compiler.py:compile_join_column_field", "syncanysql/compiler.py:compile_select_calculate_column"]}
{"id": "C182", "title": "An ON that ties two columns of its own table is refused", "statement": "When an ON has t.a = t.b for the joined table t, an expression that reads t never compiles: the statement fails instead of giving rows.", "quantifier": "every list of joins with such a condition, every expression reading the table", "why_tests_cant": "All joins and expressions.", "anchors": ["syncanysql/compiler.py:compile_join_column_tables", "syncanysql/compiler.py:compile_join_column", "syncanysql/compiler.py:compile_join_column_field", "syncanysql/compiler.py:compile_select_calculate_column"]}
{"id": "C183", "title": "ON comparisons with a computed left side", "statement": "A comparison in ON whose left side is a computed value and whose right side is a column of another joined table filters the joined rows like the same comparison written the other way round.", "quantifier": "every such comparison", "why_tests_cant": "All join conditions and orders of sets.", "anchors": ["syncanysql/compiler.py:compile_join_column_tables", "syncanysql/compiler.py:compile_join_column", "syncanysql/compiler.py:compile_join_column_field", "syncanysql/compiler.py:compile_select_calculate_column"]}
{"id": "C184", "title": "Subqueries are complete before they are read", "statement": "Without streaming, a query makes no batch before every subquery it uses, at any depth, has been closed, and reduced if it aggregates; nothing of the subquery happens afterwards, and in a statement that finishes every tasker is closed exactly once and reduced exactly once if it aggregates.", "quantifier": "every tree of subqueries, every behaviour of the batches, reductions and closings", "why_tests_cant": "All trees and all numbers and orders of batches.", "anchors": ["syncanysql/taskers/query.py:QueryTasker.run", "syncanysql/taskers/query.py:QueryTasker.run_yield", "syncanysql/taskers/query.py:QueryTasker.run_tasker", "syncanysql/executor.py:Executor.execute"]}
{"id": "C185", "title": "A failed subquery closes the queries that use it, and only them", "statement": "When a tasker of a statement fails, nothing happens afterwards but the closing, as failed, of that tasker and of its users one after the other up to the statement; no other tasker is closed as failed; without streaming whatever has begun is closed exactly once.", "quantifier": "every tree of subqueries, every behaviour, every point of failure", "why_tests_cant": "All failure points in all trees.", "anchors": ["syncanysql/taskers/query.py:QueryTasker.run", "syncanysql/taskers/query.py:QueryTasker.run_yield", "syncanysql/taskers/query.py:QueryTasker.run_tasker", "syncanysql/executor.py:Executor.execute"]}
{"id": "C186", "title": "Streaming statements take fair turns", "statement": "With streaming, the statements that wait have at every moment made the same number of batches, up to one; and in each turn of a statement each subquery makes its batch before the query that uses it.", "quantifier": "every queue of statements, every number of turns, every behaviour", "why_tests_cant": "All schedules.", "anchors": ["syncanysql/taskers/query.py:QueryTasker.run", "syncanysql/taskers/query.py:QueryTasker.run_yield", "syncanysql/taskers/query.py:QueryTasker.run_tasker", "syncanysql/executor.py:Executor.execute"]}
{"id": "C187", "title": "Without streaming statements run one after the other", "statement": "Without streaming nothing of a statement or its subqueries happens after anything of a later statement, and when a statement fails exactly the statements after it are left waiting.", "quantifier": "every queue of statements, every number of turns, every behaviour", "why_tests_cant": "All queues and behaviours.", "anchors": ["syncanysql/taskers/query.py:QueryTasker.run", "syncanysql/taskers/query.py:QueryTasker.run_yield", "syncanysql/taskers/query.py:QueryTasker.run_tasker", "syncanysql/executor.py:Executor.execute"]}
{"id": "C188", "title": "Streaming statements close their subqueries", "statement": "A tasker that has made a batch is closed exactly once by the end of the run, with streaming too.", "quantifier": "every queue of statements and every behaviour", "why_tests_cant": "All schedules.", "anchors": ["syncanysql/taskers/query.py:QueryTasker.run", "syncanysql/taskers/query.py:QueryTasker.run_yield", "syncanysql/taskers/query.py:QueryTasker.run_tasker", "syncanysql/executor.py:Executor.execute"]}
{"id": "C189", "title": "Assignments in a select list", "statement": "A select list with assignments @x := e outside the operands of IFNULL and COALESCE other than the last and outside the operand and WHENs of a simple CASE computes the rows one after the other and the items from left to right; a read sees the last assignment before it, in the same row or an earlier one, what is assigned stays after the statement, and the variables of other executors are untouched.", "quantifier": "every such select list, every list of rows and every state of the variables", "why_tests_cant": "All expressions, row lists and histories of assignments.", "anchors": ["syncanysql/compiler.py:compile_calculate", "syncanysql/compiler.py:parse_const", "syncanysql/calculaters/env_variable_calculater.py:CurrentEnvVariableCalculater"]}
{"id": "C190", "title": "Running totals", "statement": "SELECT @x := f(@x, a) gives for each row the value accumulated over all rows up to it and leaves the last one in @x.", "quantifier": "every function, column, list of rows and start value", "why_tests_cant": "Row lists of any length.", "anchors": ["syncanysql/compiler.py:compile_calculate", "syncanysql/compiler.py:parse_const", "syncanysql/calculaters/env_variable_calculater.py:CurrentEnvVariableCalculater"]}
{"id": "C191", "title": "Assignments anywhere are made once, variables anywhere are read when the query runs", "statement": "Every assignment in a select list is made once per row, and every variable has the value it has when the row is computed.", "quantifier": "every select list and list of rows", "why_tests_cant": "All expressions.", "anchors": ["syncanysql/compiler.py:compile_calculate", "syncanysql/compiler.py:parse_const", "syncanysql/calculaters/env_variable_calculater.py:CurrentEnvVariableCalculater"]}
{"id": "C192", "title": "A subquery in an expression is a call", "statement": "Statements whose expressions run subqueries, nested to any depth, give exactly the rows obtained when each subquery is a call that sees the variables around it and the conditions as variables of its own (the last of a name) and returns its rows; what a subquery assigns is not seen outside it, the variables of other executors are untouched, and afterwards the executor of the statements is the current one again; this holds until a statement fails, in whatever way the ids of objects that are gone are given again.", "quantifier": "every sequence of statements, nesting of subqueries, conditions, state of the variables and reuse of ids", "why_tests_cant": "All nestings, histories of calls and ways of reusing ids.", "anchors": ["syncanysql/calculaters/query_tasker_calculater.py:ExecuteQueryTaskerCalculater", "syncanysql/executor.py:Executor", "syncanysql/executor.py:EnvVariables"]}
{"id": "C193", "title": "A failed subquery leaves nothing behind", "statement": "After a statement has failed in a subquery, later statements give the rows they would give without it.", "quantifier": "every sequence of statements", "why_tests_cant": "All histories with failures.", "anchors": ["syncanysql/calculaters/query_tasker_calculater.py:ExecuteQueryTaskerCalculater", "syncanysql/executor.py:Executor", "syncanysql/executor.py:EnvVariables"]}
{"id": "C194", "title": "String functions of NULL", "statement": "LENGTH, BIT_LENGTH, CHAR_LENGTH, TRIM, REVERSE, RIGHT, REPEAT, STRCMP, STARTSWITH, ENDSWITH, CONTAINS, REPLACE, SUBSTRING_INDEX, INSERT and the encoding functions are NULL when any argument is NULL; LEFT is when the text is, SUBSTRING is when the text or the position is.", "quantifier": "every argument", "why_tests_cant": "All values and types of the other arguments.", "anchors": ["syncanysql/calculaters/mysql_funcs/string_funcs.py", "syncanysql/calculaters/mysql_calculater.py:MysqlCalculater"]}
{"id": "C195", "title": "NULL lengths and NULL sets", "statement": "LEFT and SUBSTRING with a NULL length, and FIND_IN_SET with a NULL set, are NULL.", "quantifier": "every argument", "why_tests_cant": "All values of the other arguments.", "anchors": ["syncanysql/calculaters/mysql_funcs/string_funcs.py", "syncanysql/calculaters/mysql_calculater.py:MysqlCalculater"]}
{"id": "C196", "title": "The table a name denotes", "statement": "A reference catalog.db.table<o1,o2> denotes, whatever the names, the table of the database given (with a catalog, the table db.table of the catalog), with exactly the options written; _ and . denote the console, .txt .csv .json a text database of that format on the standard streams (one is made when there is none), and an unqualified name that is no file a table of the memory of the process; the alias, or database and table, is the name for columns.", "quantifier": "every reference, mapping of quoted names and list of databases of the statement", "why_tests_cant": "All names and options.", "anchors": ["syncanysql/compiler.py:parse_table"]}
{"id": "C197", "title": "Update type of INSERT with VALUES or SELECT", "statement": "INSERT INTO t<options> writes with the first option that is one of I, U, UI, UDI, DI in any case, else with the type @use_output_type selects, else with I, to the table named and with the keys of the query.", "quantifier": "every reference, options, setting and keys", "why_tests_cant": "All names and options.", "anchors": ["syncanysql/compiler.py:parse_table", "syncanysql/compiler.py:compile_insert_into", "syncanysql/compiler.py:compile_select", "syncanysql/compiler.py:compile_union"]}
{"id": "C198", "title": "Update type of INSERT with UNION", "statement": "INSERT INTO t<options> SELECT ... UNION SELECT ... writes with the type given by the options or the setting.", "quantifier": "every reference, options, setting and list of selects", "why_tests_cant": "All of them.", "anchors": ["syncanysql/compiler.py:parse_table", "syncanysql/compiler.py:compile_insert_into", "syncanysql/compiler.py:compile_select", "syncanysql/compiler.py:compile_union"]}
{"id": "C199", "title": "Tables named by variables", "statement": "FROM @t is an error when @t is not defined; when @t is a text at compilation the table is the one of that name; when it is NULL then and a text when the query runs, the table is the one of that name in the memory of the process, which is the table that name denotes there unless it has options, is a file or is special.", "quantifier": "every name, value, list of databases", "why_tests_cant": "All values and names.", "anchors": ["syncanysql/compiler.py:parse_table", "syncanysql/taskers/query.py:QueryTasker.compile_tasker"]}
{"id": "C200", "title": "Tables named by variables when the query runs", "statement": "FROM @t reads the table that the value of @t at the run of the query names, as if it were written there.", "quantifier": "every name, value and history of the variable", "why_tests_cant": "All values and histories.", "anchors": ["syncanysql/compiler.py:parse_table", "syncanysql/taskers/query.py:QueryTasker.compile_tasker"]}
{"id": "C201", "title": "Variables given on the command line", "statement": "The variable n has the value given by the last argument --n=value, --n=\"value\" or --n='value' (true for a bare --n), whatever the other arguments and the environment; it is read as n and as @n.", "quantifier": "every command line, environment, name and value without = (a second = or an unclosed quote is C203)", "why_tests_cant": "All command lines and environments.", "anchors": ["syncanysql/executor.py:EnvVariables.build_global", "syncanysql/executor.py:Executor.__init__"]}
{"id": "C202", "title": "Variables given by the environment", "statement": "Without an argument of that name home, syncany_home, cwd and platform have their built-in values whatever the environment has under these names, every other environment variable is read by ${NAME} in any case of letters, and no other name is defined.", "quantifier": "every command line and environment", "why_tests_cant": "All command lines and environments.", "anchors": ["syncanysql/executor.py:EnvVariables.build_global", "syncanysql/executor.py:Executor.__init__"]}
{"id": "C203", "title": "Command line arguments with = in the value, quotes or capitals", "statement": "An argument --name=value gives the variable name exactly the value written after the first =, and ${name} reads it whatever the case of its letters.", "quantifier": "every name and value", "why_tests_cant": "All values.", "anchors": ["syncanysql/executor.py:EnvVariables.build_global", "syncanysql/executor.py:Executor.__init__"]}
{"id": "C204", "title": "Mathematical functions", "statement": "EXP, LN, SIN, COS, TAN, ASIN, ACOS, ATAN, POW and POWER are the functions of the math library on numbers, NULL where these fail and on NULL; the text of an integer or decimal number counts as that number, decimals as the double nearest to them.", "quantifier": "every number, every text of a number, every function", "why_tests_cant": "All doubles, integers and texts.", "anchors": ["syncanysql/calculaters/mysql_funcs/number_funcs.py", "syncanysql/calculaters/mysql_calculater.py:MysqlCalculater"]}
{"id": "C205", "title": "SQRT is correctly rounded", "statement": "SQRT(x) is the double nearest to the square root for every double and integer that is not negative, exact on squares up to 2^53, and NULL below zero.", "quantifier": "every double and integer", "why_tests_cant": "2^64 doubles and all integers.", "anchors": ["syncanysql/calculaters/mysql_funcs/number_funcs.py", "syncanysql/calculaters/mysql_calculater.py:MysqlCalculater"]}
{"id": "C206", "title": "ROUND of integers", "statement": "ROUND(x, n) of an integer is x for n >= 0 and otherwise the multiple of 10^-n nearest to x, halves to the even quotient.", "quantifier": "every integer and number of digits", "why_tests_cant": "All integers.", "anchors": ["syncanysql/calculaters/mysql_funcs/number_funcs.py", "syncanysql/calculaters/mysql_calculater.py:MysqlCalculater"]}
{"id": "C207", "title": "ROUND of doubles", "statement": "ROUND(x, n) is the double nearest to the n-digit decimal that is nearest to the exact value of x (halves to even), NULL when out of range; beyond 323 digits x itself, below -308 digits zero; texts of integers count as numbers and NULL gives NULL.", "quantifier": "every double and number of digits", "why_tests_cant": "2^64 doubles.", "anchors": ["syncanysql/calculaters/mysql_funcs/number_funcs.py", "syncanysql/calculaters/mysql_calculater.py:MysqlCalculater"]}
{"id": "C208", "title": "ROUND and LOG with one argument, halves", "statement": "ROUND(x) rounds to an integer, LOG(x) is a logarithm, and ROUND rounds halves away from zero.", "quantifier": "every number", "why_tests_cant": "All numbers.", "anchors": ["syncanysql/calculaters/mysql_funcs/number_funcs.py", "syncanysql/calculaters/mysql_calculater.py:MysqlCalculater"]}
{"id": "C209", "title": "Aggregates anywhere in an item", "statement": "In a grouped query an item of the select list may use aggregates at any depth (in arithmetic, IF, CASE, IN lists, function calls): for every group its value is the written expression with each aggregate call replaced by the value of that aggregate over the rows of the group; the same aggregate may occur several times.", "quantifier": "every query with such items, every table", "why_tests_cant": "All expressions, nested at any depth, and all tables.", "anchors": ["syncanysql/compiler.py:parse_aggregate", "syncanysql/compiler.py:is_aggregate", "syncanysql/compiler.py:is_calculate", "syncanysql/compiler.py:compile_aggregate_column"]}
{"id": "C210", "title": "Type annotation of pushed conditions", "statement": "The conditions passed to the data source name exactly the fields restricted by the WHERE clause; a field carries a type (int, float, bool) exactly when the constants of these types it is compared with, outside IN lists and not negated, are all of that type.", "quantifier": "every WHERE clause", "why_tests_cant": "All clauses.", "anchors": ["syncanysql/compiler.py:parse_condition_typing_filter", "syncanysql/compiler.py:compile_where_condition"]}
{"id": "C211", "title": "A whole SELECT statement", "statement": "A SELECT over one table with calculated items, WHERE, HAVING, ORDER BY, LIMIT and OFFSET is accepted and returns: the rows on which WHERE is TRUE, sorted by ORDER BY (ties in table order), of each the items; of these those on which HAVING is TRUE; of these the page given by LIMIT and OFFSET - whatever part of the work is left to the data source.", "quantifier": "every such statement (names in ORDER BY are items not used otherwise, or columns), every table", "why_tests_cant": "All statements and tables.", "anchors": ["syncanysql/compiler.py:compile_select", "syncanysql/compiler.py:compile_where_condition", "syncanysql/compiler.py:compile_having_condition", "syncanysql/compiler.py:compile_order", "syncanysql/taskers/query.py:QueryTasker"]}
{"id": "C212", "title": "A whole SELECT statement with GROUP BY", "statement": "A SELECT over one table with aggregates at any depth, WHERE, GROUP BY, HAVING, ORDER BY, LIMIT and OFFSET returns one row for each distinct value of the GROUP BY items among the rows on which WHERE is TRUE, with the aggregates over the rows of its group; of these those on which HAVING is TRUE, sorted by ORDER BY; of these the page given by LIMIT and OFFSET.", "quantifier": "every such statement, every table whose values can be aggregated", "why_tests_cant": "All statements and tables.", "anchors": ["syncanysql/compiler.py:compile_select", "syncanysql/compiler.py:compile_where_condition", "syncanysql/compiler.py:compile_having_condition", "syncanysql/compiler.py:compile_order", "syncanysql/taskers/query.py:QueryTasker"]}
{"id": "C213", "title": "ORDER BY an alias used in HAVING", "statement": "ORDER BY the name of an item sorts by that item, also when HAVING calculates with that name.", "quantifier": "every statement", "why_tests_cant": "All statements.", "anchors": ["syncanysql/compiler.py:compile_select", "syncanysql/compiler.py:compile_where_condition", "syncanysql/compiler.py:compile_having_condition", "syncanysql/compiler.py:compile_order", "syncanysql/taskers/query.py:QueryTasker"]}
{"id": "C214", "title": "Names in WHERE", "statement": "A name in WHERE is a column of the table, also when an item of the select list has the same name.", "quantifier": "every statement", "why_tests_cant": "All statements.", "anchors": ["syncanysql/compiler.py:compile_select", "syncanysql/compiler.py:compile_where_condition", "syncanysql/compiler.py:compile_having_condition", "syncanysql/compiler.py:compile_order", "syncanysql/taskers/query.py:QueryTasker", "syncanysql/compiler.py:compile_where_condition_column"]}
{"id": "C215", "title": "CAST in WHERE", "statement": "A condition comparing CAST(column AS type) with a value compares the converted value.", "quantifier": "every statement with such conditions, every table", "why_tests_cant": "All statements and tables.", "anchors": ["syncanysql/compiler.py:is_column", "syncanysql/compiler.py:parse_column", "syncanysql/compiler.py:compile_where_condition"]}
{"id": "C216", "title": "CAST in ORDER BY", "statement": "ORDER BY CAST(column AS type) sorts by the converted values.", "quantifier": "every statement, every table", "why_tests_cant": "All statements and tables.", "anchors": ["syncanysql/compiler.py:is_column", "syncanysql/compiler.py:parse_column", "syncanysql/compiler.py:compile_order"]}
{"id": "C217", "title": "CAST in GROUP BY", "statement": "GROUP BY CAST(column AS type) makes one group for each converted value.", "quantifier": "every statement, every table", "why_tests_cant": "All statements and tables.", "anchors": ["syncanysql/compiler.py:is_column", "syncanysql/compiler.py:parse_column", "syncanysql/compiler.py:compile_aggregate_key"]}
{"id": "C218", "title": "FROM_UNIXTIME", "statement": "FROM_UNIXTIME(n) is the moment n seconds after 1970-01-01 00:00:00 UTC, shown on a clock of the session's time zone; NULL exactly when that lies outside of years 1 to 9999.", "quantifier": "every integer and every zone", "why_tests_cant": "All integers and zones.", "anchors": ["syncanysql/calculaters/mysql_funcs/datetime_funcs.py:mysql_from_unixtime"]}
{"id": "C219", "title": "UNIX_TIMESTAMP of a datetime", "statement": "UNIX_TIMESTAMP(x) of a datetime is the number of whole seconds from 1970-01-01 00:00:00 UTC to x, so UNIX_TIMESTAMP(FROM_UNIXTIME(n)) = n, whatever the zones of the session and of the machine.", "quantifier": "every datetime, session zone and machine zone", "why_tests_cant": "All datetimes and zones.", "anchors": ["syncanysql/calculaters/mysql_funcs/datetime_funcs.py:mysql_unix_timestamp"]}
{"id": "C220", "title": "UNIX_TIMESTAMP of a date or a text", "statement": "UNIX_TIMESTAMP of a date is that of its midnight, of the text of a datetime that of the datetime.", "quantifier": "every date and text", "why_tests_cant": "All dates.", "anchors": ["syncanysql/calculaters/mysql_funcs/datetime_funcs.py:mysql_unix_timestamp"]}
{"id": "C221", "title": "DATE, TIME and DATETIME", "statement": "DATE and TIME of a datetime determine its wall clock; DATE and TIME of DATETIME(x) are those of x; DATETIME of a time is that time today; each of the three is idempotent.", "quantifier": "every date, time, datetime, number and text, however texts are parsed", "why_tests_cant": "All values.", "anchors": ["syncanysql/calculaters/mysql_funcs/datetime_funcs.py:mysql_date", "syncanysql/calculaters/mysql_funcs/datetime_funcs.py:mysql_datetime", "syncanysql/calculaters/mysql_funcs/datetime_funcs.py:mysql_time"]}
{"id": "C222", "title": "REGEXP matches at the first character", "statement": "s REGEXP r (and REGEXP_LIKE) is 1 exactly when r matches at the beginning of s, which for a non-empty s is when REGEXP_INSTR(s, r) is 1; it is 0 otherwise, NULL exactly when s or r is; REGEXP_INSTR(s, r) is positive exactly when r matches somewhere in a non-empty s.", "quantifier": "every text, pattern, match type, and behaviour of the regular expression engine", "why_tests_cant": "All texts and patterns.", "anchors": ["syncanysql/calculaters/mysql_funcs/regexp_funcs.py:mysql_regexp", "syncanysql/calculaters/mysql_funcs/regexp_funcs.py:mysql_regexplike", "syncanysql/calculaters/mysql_funcs/regexp_funcs.py:mysql_regexp_instr"]}
{"id": "C223", "title": "REGEXP matches anywhere", "statement": "s REGEXP r is 1 exactly when r matches somewhere in s.", "quantifier": "every text and pattern", "why_tests_cant": "All texts and patterns.", "anchors": ["syncanysql/calculaters/mysql_funcs/regexp_funcs.py:mysql_regexp", "syncanysql/calculaters/mysql_funcs/regexp_funcs.py:mysql_regexplike"]}
{"id": "C224", "title": "A whole SELECT statement with GROUP BY and no aggregates", "statement": "A SELECT over one table with WHERE, GROUP BY, HAVING, ORDER BY, OFFSET (and LIMIT when there is a HAVING) but no aggregates returns one row for each distinct value of the GROUP BY items among the rows on which WHERE is TRUE, each item having its value on some row of the group; of these those on which HAVING is TRUE, sorted by ORDER BY, and of these the page asked for. A name in GROUP BY is the item of that name if there is one, else a column.", "quantifier": "every statement of the class and every table whose keys have no NaN", "why_tests_cant": "The combinations of clauses and all tables cannot be enumerated.", "anchors": ["syncanysql/compiler.py:compile_select", "syncanysql/compiler.py:compile_group_column", "syncanysql/compiler.py:compile_aggregate_key"]}
{"id": "C225", "title": "A whole SELECT DISTINCT statement", "statement": "SELECT DISTINCT over one table with WHERE, HAVING, ORDER BY, OFFSET (and LIMIT when there is a HAVING) returns one row for each distinct combination of the values of the items among the rows on which WHERE is TRUE, of these those on which HAVING is TRUE, sorted by ORDER BY, and of these the page asked for; no two rows of the result are equal.", "quantifier": "every statement of the class and every table whose values have no NaN", "why_tests_cant": "The combinations of clauses and all tables cannot be enumerated.", "anchors": ["syncanysql/compiler.py:compile_select", "syncanysql/compiler.py:compile_distinct_column"]}
{"id": "C226", "title": "A SELECT statement over a table with or without an alias", "statement": "A SELECT over one table or one named subquery - plain, with aggregates, with GROUP BY but no aggregates, or DISTINCT - with WHERE, HAVING, ORDER BY, LIMIT and OFFSET is accepted and returns what a statement of its kind says. With an alias, ORDER BY names items of the select list.", "quantifier": "every statement of the class, every alias, every table", "why_tests_cant": "The combinations of clauses and all tables cannot be enumerated.", "anchors": ["syncanysql/compiler.py:compile_select", "syncanysql/compiler.py:compile_order"]}
{"id": "C227", "title": "Whole queries: subqueries, UNION ALL and WITH", "statement": "A statement made of SELECTs by subqueries in FROM (to any depth), SELECT * of a subquery, UNION ALL and WITH is accepted and returns what it says: each SELECT is answered over the rows its subquery returns, the branches of a UNION ALL follow one another, and each name of WITH stands for the rows of its query.", "quantifier": "every query of the class, every nesting depth, every number of branches and WITH names, every content of the tables", "why_tests_cant": "Queries nest without bound.", "anchors": ["syncanysql/compiler.py:compile_query", "syncanysql/compiler.py:compile_with", "syncanysql/compiler.py:compile_subquery", "syncanysql/compiler.py:compile_union", "syncanysql/compiler.py:compile_select", "syncanysql/taskers/query.py:QueryTasker"]}
{"id": "C228", "title": "ORDER BY a column that is not selected, with an alias", "statement": "A SELECT over a table with an alias can be ordered by any column of the table, as without the alias.", "quantifier": "every statement and alias", "why_tests_cant": "All statements.", "anchors": ["syncanysql/compiler.py:compile_order"]}
{"id": "C229", "title": "A whole SELECT statement with window functions", "statement": "A SELECT over one table with window functions, WHERE, HAVING, WINDOW, ORDER BY, LIMIT and OFFSET is accepted; its window functions are computed over exactly the rows on which WHERE is TRUE (HAVING, ORDER BY and LIMIT do not change the rows they see); the result is made of the rows on which HAVING is TRUE, sorted by ORDER BY, and of these the page asked for. Without ORDER BY all is in the order of the table.", "quantifier": "every statement of the class and every table", "why_tests_cant": "The combinations of clauses and all tables cannot be enumerated.", "anchors": ["syncanysql/compiler.py:compile_select", "syncanysql/compiler.py:compile_window_column", "syncanysql/compiler.py:compile_window_key", "syncanysql/compiler.py:compile_order", "syncanysql/taskers/query.py:QueryTasker"]}
{"id": "C230", "title": "ORDER BY and HAVING on an expression around a window function", "statement": "ORDER BY and HAVING may name any item of the select list, also an expression that contains window functions.", "quantifier": "every statement", "why_tests_cant": "All statements.", "anchors": ["syncanysql/compiler.py:compile_window_column", "syncanysql/compiler.py:compile_order", "syncanysql/compiler.py:compile_having_condition"]}
{"id": "C231", "title": "Scripts", "statement": "In a script of queries (with subqueries, UNION ALL, WITH), INSERT ... SELECT, INSERT ... VALUES and DELETE over in-memory tables, each statement sees the tables exactly as the statements before it left them: a query shows its rows and changes no table, an INSERT appends its rows to its table, a DELETE removes exactly the rows on which its condition is TRUE, and no statement changes any other table. (Each name of WITH is used in one statement of the script.)", "quantifier": "every script of the class, of any length, and every content of the tables", "why_tests_cant": "Scripts are of any length; the state passed from statement to statement cannot be enumerated.", "anchors": ["syncanysql/compiler.py:compile_expression", "syncanysql/compiler.py:compile_query", "syncanysql/compiler.py:compile_insert_into", "syncanysql/compiler.py:compile_delete", "syncanysql/executor.py:Executor", "syncanysql/taskers/query.py:QueryTasker"]}
{"id": "C232", "title": "Names of WITH are local", "statement": "A name defined by WITH is known in its statement only: it stands for the rows of its query there, whatever happened before, and is unknown in the statements after it; a statement executed twice returns the same rows when its tables have not changed.", "quantifier": "every script", "why_tests_cant": "All scripts.", "anchors": ["syncanysql/compiler.py:compile_with", "syncanysql/taskers/query.py:QueryTasker", "syncanysql/executor.py:clear_temporary_memory_collection"]}
{"id": "C233", "title": "A whole SELECT over LEFT JOINs", "statement": "A SELECT over LEFT JOINs with WHERE, ORDER BY and OFFSET, whose select list reads each joined table, is accepted and returns one row for each combination of rows that the joins give and on which WHERE is TRUE, sorted by ORDER BY, equal keys in the order of the joins: conditions and sorts that are handed to the source of the first table before the joins are made change nothing. (Constants stand after the column they are compared with, except in equalities.)", "quantifier": "every statement of the class, any number of joins, every content of the tables", "why_tests_cant": "The combinations of clauses and all tables cannot be enumerated.", "anchors": ["syncanysql/compiler.py:compile_select", "syncanysql/compiler.py:compile_where_condition", "syncanysql/compiler.py:compile_order", "syncanysql/compiler.py:compile_join_column_tables", "syncanysql/compiler.py:parse_joins"]}
{"id": "C234", "title": "LIMIT over INNER JOINs and comma joins", "statement": "A SELECT over INNER JOINs tied to the first table, or over FROM a, b, ... with WHERE tying each table to those before it, with WHERE, ORDER BY, LIMIT and OFFSET and a select list that reads each table, returns the page asked for of the joined rows, sorted by ORDER BY: LIMIT counts joined rows, not rows of the first table.", "quantifier": "every statement of the class, any number of joins, every content of the tables", "why_tests_cant": "The combinations of clauses and all tables cannot be enumerated.", "anchors": ["syncanysql/compiler.py:compile_select", "syncanysql/compiler.py:compile_where_condition", "syncanysql/compiler.py:compile_order", "syncanysql/compiler.py:compile_join_column_tables", "syncanysql/compiler.py:parse_joins", "syncanysql/compiler.py:optimize_rewrite_inner_join", "syncanysql/compiler.py:optimize_rewrite_multi_select"]}
{"id": "C235", "title": "LIMIT over LEFT JOINs", "statement": "LIMIT n of a SELECT over LEFT JOINs returns the page asked for of the joined rows, at most n rows.", "quantifier": "every statement of the class, any number of joins, every content of the tables", "why_tests_cant": "All statements and tables.", "anchors": ["syncanysql/compiler.py:compile_select", "syncanysql/compiler.py:compile_where_condition", "syncanysql/compiler.py:compile_order", "syncanysql/compiler.py:compile_join_column_tables", "syncanysql/compiler.py:parse_joins"]}
{"id": "C236", "title": "ORDER BY a column of a joined table", "statement": "ORDER BY b.x sorts by the column x of the table b.", "quantifier": "every statement over joins and every content of the tables", "why_tests_cant": "All statements and tables.", "anchors": ["syncanysql/compiler.py:compile_order"]}
{"id": "C237", "title": "Joined tables that are not read", "statement": "A LEFT JOIN multiplies the rows by its matches also when no column of the joined table is read.", "quantifier": "every statement over LEFT JOINs and every content of the tables", "why_tests_cant": "All statements and tables.", "anchors": ["syncanysql/compiler.py:compile_join_column_tables", "syncanysql/compiler.py:compile_select_column", "syncanysql/compiler.py:compile_where_condition_column"]}
{"id": "C238", "title": "GROUP BY and aggregates over LEFT JOINs", "statement": "A SELECT with aggregates over LEFT JOINs, with WHERE, GROUP BY, HAVING, ORDER BY, LIMIT and OFFSET, whose select list or GROUP BY reads each joined table, is accepted and returns one row for each distinct value of the GROUP BY items among the combinations of rows that the joins give and on which WHERE is TRUE; aggregates are over the joined rows of the group; of these rows those on which HAVING is TRUE, sorted by ORDER BY, and of these the page asked for.", "quantifier": "every statement of the class, any number of joins, every content of the tables whose values can be aggregated", "why_tests_cant": "The combinations of clauses and all tables cannot be enumerated.", "anchors": ["syncanysql/compiler.py:compile_select", "syncanysql/compiler.py:compile_aggregate_key", "syncanysql/compiler.py:compile_aggregate_value", "syncanysql/compiler.py:compile_having_condition", "syncanysql/compiler.py:compile_order", "syncanysql/compiler.py:compile_join_column_tables"]}
{"id": "C239", "title": "GROUP BY and aggregates over INNER JOINs and comma joins", "statement": "A SELECT with aggregates over INNER JOINs tied to the first table, or over FROM a, b, ... with WHERE tying each table to those before it, with GROUP BY, HAVING, ORDER BY, LIMIT and OFFSET, and a select list or GROUP BY that reads each table, returns what the statement says of the joined rows.", "quantifier": "every statement of the class, any number of joins, every content of the tables whose values can be aggregated", "why_tests_cant": "The combinations of clauses and all tables cannot be enumerated.", "anchors": ["syncanysql/compiler.py:compile_select", "syncanysql/compiler.py:compile_aggregate_key", "syncanysql/compiler.py:compile_aggregate_value", "syncanysql/compiler.py:compile_having_condition", "syncanysql/compiler.py:compile_order", "syncanysql/compiler.py:compile_join_column_tables", "syncanysql/compiler.py:optimize_rewrite_inner_join", "syncanysql/compiler.py:optimize_rewrite_multi_select"]}
{"id": "C240", "title": "Tables that are not in FROM", "statement": "A SELECT over LEFT JOINs, with or without aggregates, whose select list or GROUP BY reads a column of a table that is neither in FROM nor joined is refused; it is never run without the column.", "quantifier": "every statement of the class, every content of the tables", "why_tests_cant": "All statements.", "anchors": ["syncanysql/compiler.py:compile_join_column_tables", "syncanysql/compiler.py:compile_select"]}
{"id": "C241", "title": "ORDER BY a grouped column of a joined table", "statement": "In SELECT b.x AS x, ... FROM a LEFT JOIN b ... GROUP BY b.x ORDER BY x the groups are sorted by the item x.", "quantifier": "every statement over joins and every content of the tables", "why_tests_cant": "All statements and tables.", "anchors": ["syncanysql/compiler.py:compile_order"]}
{"id": "C242", "title": "Queries made of all kinds of SELECTs", "statement": "A statement made of SELECTs - plain, DISTINCT, with aggregates, with window functions, over LEFT JOINs, INNER JOINs or FROM a, b, ... WHERE, with aggregates, DISTINCT or GROUP BY over such joins - by subqueries in FROM and in JOIN, UNION ALL and WITH, is accepted, and returns what it says: each SELECT computed over the rows of its tables and subqueries, SELECT * for all columns of its subquery, the rows of one SELECT after those of the other in a UNION ALL, each name of WITH standing for the rows of its query.", "quantifier": "every statement of any nesting made of SELECTs of the classes of C226, C229, C234, C235, C238, C239, C248, C249 and C250, every content of the tables; where SELECT * or UNION ALL is over a SELECT with window functions, these are whole items", "why_tests_cant": "The ways to put queries together cannot be enumerated.", "anchors": ["syncanysql/compiler.py:compile_query", "syncanysql/compiler.py:compile_select", "syncanysql/compiler.py:compile_subquery", "syncanysql/compiler.py:compile_union", "syncanysql/compiler.py:compile_with", "syncanysql/compiler.py:parse_joins", "syncanysql/taskers/query.py:QueryTasker"]}
{"id": "C243", "title": "SELECT * over calculations with window functions", "statement": "SELECT * FROM (SELECT a, SUM(b) OVER () + 1 AS x FROM t) s returns the columns a and x of the subquery; so does a UNION ALL of such SELECTs.", "quantifier": "every query of any nesting", "why_tests_cant": "All queries.", "anchors": ["syncanysql/compiler.py:compile_window_column", "syncanysql/compiler.py:compile_select_star_column", "syncanysql/compiler.py:compile_union"]}
{"id": "C244", "title": "JSON_CONTAINS compares the part at the path", "statement": "JSON_CONTAINS(document, candidate, path) is 1 exactly when the path leads to a part of the document that is the same JSON value as the candidate, and 0 otherwise: numbers by value, arrays element by element, objects member by member whatever their order, at any depth. The document and the candidate may be given as JSON text.", "quantifier": "every document and candidate whose objects have distinct names, every written path whose index steps do not fall on strings; the candidate is not null or the path leads somewhere", "why_tests_cant": "Documents and paths of every depth.", "anchors": ["syncanysql/calculaters/mysql_funcs/json_funcs.py:mysql_json_contains", "syncanysql/calculaters/mysql_funcs/json_funcs.py:get_json_path_value"]}
{"id": "C245", "title": "JSON_CONTAINS is containment", "statement": "JSON_CONTAINS(document, candidate, path) is 1 exactly when the part at the path contains the candidate: an array contains what one of its elements contains, an object contains an object with some of its members.", "quantifier": "every document, candidate and path", "why_tests_cant": "Documents of every depth.", "anchors": ["syncanysql/calculaters/mysql_funcs/json_funcs.py:mysql_json_contains"]}
{"id": "C246", "title": "JSON_VALID", "statement": "JSON_VALID(text) is 1 when the text is JSON, and then the other JSON functions take it as the document it denotes; otherwise it is 0, and they take it as a string. JSON_VALID(NULL) is NULL.", "quantifier": "every text", "why_tests_cant": "All texts.", "anchors": ["syncanysql/calculaters/mysql_funcs/json_funcs.py:mysql_json_valid", "syncanysql/calculaters/mysql_funcs/json_funcs.py:mysql_json_extract"]}
{"id": "C247", "title": "Scripts of queries of all kinds", "statement": "A script of queries of the kinds of C242 (joins, aggregates over joins, window functions, subqueries, UNION ALL, WITH), INSERT ... SELECT of such queries, INSERT ... VALUES and DELETE is executed statement by statement: each sees the tables as the statements before left them, a query shows its rows and changes no table, an INSERT appends the rows of its query or of VALUES, a DELETE takes away the rows for which its condition is TRUE.", "quantifier": "every script of any length made of such statements, every content of the tables; names of WITH are used by one statement only", "why_tests_cant": "Histories of any length.", "anchors": ["syncanysql/compiler.py:compile_query", "syncanysql/compiler.py:compile_select", "syncanysql/compiler.py:compile_subquery", "syncanysql/compiler.py:compile_union", "syncanysql/compiler.py:compile_with", "syncanysql/compiler.py:parse_joins", "syncanysql/taskers/query.py:QueryTasker", "syncanysql/executor.py:Executor", "syncanysql/compiler.py:compile_insert_into", "syncanysql/compiler.py:compile_delete"]}
{"id": "C248", "title": "LEFT JOINs that nothing reads", "statement": "A SELECT over LEFT JOINs of which the last ones are read neither by the select list nor by WHERE nor by ORDER BY, while each combination of rows meets at most one row of their tables, is accepted and returns what SQL says, as it does without these joins.", "quantifier": "every number of joins, every ON, WHERE, ORDER BY, LIMIT and database of the class", "why_tests_cant": "The engine does not execute these joins; that the result is the same must hold for all data with unique keys.", "anchors": ["syncanysql/compiler.py:compile_select", "syncanysql/compiler.py:compile_join_column", "syncanysql/compiler.py:compile_join_column_tables"]}
{"id": "C249", "title": "GROUP BY without aggregates over joins", "statement": "A SELECT with GROUP BY but without aggregates over tables joined by LEFT JOINs, by INNER JOINs or by FROM a, b WHERE ... is accepted and returns one row for each distinct value of the GROUP BY items on the joined rows that WHERE keeps, each item having its value on a joined row of that group, then HAVING, ORDER BY, LIMIT and OFFSET.", "quantifier": "every select list, GROUP BY, HAVING, ORDER BY, number of joins and database of the class; keys without NaN", "why_tests_cant": "All data and all statements of the class.", "anchors": ["syncanysql/compiler.py:compile_select", "syncanysql/compiler.py:compile_group_column", "syncanysql/compiler.py:compile_distinct_column", "syncanysql/compiler.py:compile_aggregate_key", "syncanysql/compiler.py:compile_join_column_tables"]}
{"id": "C250", "title": "SELECT DISTINCT over joins", "statement": "SELECT DISTINCT over tables joined by LEFT JOINs, by INNER JOINs or by FROM a, b WHERE ... is accepted and returns one row for each distinct combination of values on the joined rows that WHERE keeps, no two rows equal, then HAVING, ORDER BY, LIMIT and OFFSET.", "quantifier": "every select list, HAVING, ORDER BY, number of joins and database of the class; values without NaN", "why_tests_cant": "All data and all statements of the class.", "anchors": ["syncanysql/compiler.py:compile_select", "syncanysql/compiler.py:compile_group_column", "syncanysql/compiler.py:compile_distinct_column", "syncanysql/compiler.py:compile_aggregate_key", "syncanysql/compiler.py:compile_join_column_tables"]}
{"id": "C251", "title": "LIMIT of collapsed joins", "statement": "A SELECT DISTINCT, or a GROUP BY without aggregates, over joined tables with LIMIT n returns at most n rows.", "quantifier": "every such statement and database", "why_tests_cant": "All data.", "anchors": ["syncanysql/compiler.py:compile_select", "syncanysql/compiler.py:compile_group_column", "syncanysql/compiler.py:compile_distinct_column", "syncanysql/compiler.py:compile_aggregate_key", "syncanysql/compiler.py:compile_join_column_tables"]}
{"id": "C252", "title": "Arguments of virtual views", "statement": "The query of a virtual view, set by SET @virtual_views or in a raw block, may have placeholders #{column}, #{column__operator} (eq, neq, gt, gte, lt, lte, in), each also with a default after a colon. What is kept is the query with a mark %s in the place of every placeholder and nothing else changed, and the list of arguments (column, comparison, default - the JSON value, otherwise the text) in the order of the placeholders; a placeholder with an operator of another name is refused; a query without placeholders is kept as it is.", "quantifier": "every query made of texts and placeholders, in any number and order, the same placeholder several times included", "why_tests_cant": "The queries cannot be enumerated; the code replaces all occurrences of a placeholder at the first and adds one argument for each.", "anchors": ["syncanysql/config.py:GlobalConfig.parse_virtual_view_args", "syncanysql/config.py:VIRTUAL_VIEW_ARGS_RE", "syncanysql/config.py:GlobalConfig.set"]}
{"id": "C253", "title": "Marks and arguments of virtual views", "statement": "The query of a virtual view has as many marks %s as arguments.", "quantifier": "every query made of texts and placeholders", "why_tests_cant": "All texts.", "anchors": ["syncanysql/config.py:GlobalConfig.parse_virtual_view_args", "syncanysql/config.py:VIRTUAL_VIEW_ARGS_RE", "syncanysql/config.py:GlobalConfig.set"]}
{"id": "C254", "title": "ROW_INDEX and ROW_LAST", "statement": "In a select list ROW_INDEX() is the number of the row, counted from 1, and ROW_LAST(e) is the value of e in the row before, NULL in the first row; also when they are nested in each other, in the arguments of functions and operators, or in the condition of an IF whose branches have none of them. Every use has its own memory.", "quantifier": "every select list, every nesting, any number of rows; values and functions are arbitrary", "why_tests_cant": "The value in a row depends on the whole history of rows; histories and nestings cannot be enumerated.", "anchors": ["syncanysql/calculaters/row_calculater.py:RowIndexCalculater", "syncanysql/calculaters/row_calculater.py:RowLastCalculater", "syncanysql/compiler.py:Compiler.compile_calculate"]}
{"id": "C255", "title": "ROW_INDEX and ROW_LAST in branches", "statement": "ROW_INDEX() and ROW_LAST(e) mean the same within IFNULL and within the branches of IF.", "quantifier": "every select list and any number of rows", "why_tests_cant": "All histories of rows.", "anchors": ["syncanysql/calculaters/row_calculater.py:RowIndexCalculater", "syncanysql/calculaters/row_calculater.py:RowLastCalculater", "syncanysql/compiler.py:Compiler.compile_calculate"]}
{"id": "C256", "title": "YIELD_ARRAY", "statement": "A SELECT with YIELD_ARRAY(e) columns makes of every row, in order, as many rows as the longest of its yielded arrays has elements: the k-th of them has the k-th element of each array, NULL where an array is shorter, and the other columns unchanged; a value that is no array, NULL included, counts as an array of itself. Without YIELD_ARRAY every row makes one row.", "quantifier": "every select list with any number of YIELD_ARRAY columns, any number of rows, arrays of any lengths (at least one of each row not empty)", "why_tests_cant": "Arrays, their lengths and the select lists cannot be enumerated.", "anchors": ["syncanysql/calculaters/generate_calculater.py:GenerateYieldArrayCalculater", "syncanysql/calculaters/__init__.py:find_generate_calculater", "syncanysql/compiler.py:Compiler.compile_calculate"]}
{"id": "C257", "title": "GET_VALUE", "statement": "GET_VALUE(e, k1, ..., kn) is what is found by following the value of e along the paths of the keys, one after the other: a string is a path itself, a number n is :n, a tuple (a, b) or (a, b, c) is the slice :a:b or :a:b:c. GET_VALUE(GET_VALUE(e, j...), k...) is GET_VALUE(e, j..., k...). A key that is neither a constant nor a tuple is refused.", "quantifier": "every expression, every number and kind of keys, every nesting; what a path leads to in a value is arbitrary", "why_tests_cant": "Keys, paths and nestings cannot be enumerated.", "anchors": ["syncanysql/compiler.py:Compiler.compile_calculate"]}
{"id": "C258", "title": "Tuples of GET_VALUE", "statement": "A tuple key of GET_VALUE with an item that is no number, or with more than three items, is refused.", "quantifier": "every tuple", "why_tests_cant": "All tuples.", "anchors": ["syncanysql/compiler.py:Compiler.compile_calculate"]}
