{
 "claims": [
  {
   "property": "C01",
   "status": "proved",
   "theorems": [
    "split_segments_verbatim"
   ],
   "note": "For every script and every notion of letter. What is inside the statements: C73."
  },
  {
   "property": "C02",
   "status": "proved",
   "theorems": [
    "split_join_roundtrip"
   ],
   "note": ""
  },
  {
   "property": "C03",
   "status": "proved",
   "theorems": [
    "quote_ends_at_first_unescaped",
    "split_rejects_open_quote"
   ],
   "note": ""
  },
  {
   "property": "C04",
   "status": "proved",
   "theorems": [
    "comment_between_statements"
   ],
   "note": ""
  },
  {
   "property": "C05",
   "status": "proved",
   "theorems": [
    "prompt_completeness"
   ],
   "note": ""
  },
  {
   "property": "C06",
   "status": "proved",
   "theorems": [
    "placeholders_roundtrip",
    "decomposition_exists"
   ],
   "note": "Freshness of uuid1 results is a hypothesis."
  },
  {
   "property": "C07",
   "status": "proved",
   "theorems": [
    "interpolation",
    "no_placeholder_unchanged",
    "format_values"
   ],
   "note": "Evaluation of function-call defaults and str()/strftime are arguments."
  },
  {
   "property": "C08",
   "status": "proved",
   "theorems": [
    "read_innermost",
    "set_then_get",
    "set_isolated",
    "variable_roundtrip",
    "variable_frame",
    "context_private",
    "context_inherits",
    "get_default"
   ],
   "note": "Proved for every history of scope creations and assignments. Both names outside the API: C74."
  },
  {
   "property": "C09",
   "status": "proved",
   "theorems": [
    "coerce_int_text",
    "leading_digits_total",
    "coerce_number_no_dot",
    "coerce_number_decimal",
    "coerce_null_and_identity",
    "dates_as_numbers",
    "decimal_text_nearest"
   ],
   "note": "ASCII digits and white space; Decimal and bytes are not modelled."
  },
  {
   "property": "C10",
   "status": "proved",
   "theorems": [
    "set_variable",
    "set_expression",
    "set_expression_refused"
   ],
   "note": "For every ASCII value."
  },
  {
   "property": "C100",
   "status": "partial",
   "theorems": [
    "database_plain_value_refuted",
    "database_bad_json_refuted",
    "unknown_section_refuted",
    "database_rename_refuted",
    "set_cache_refuted",
    "set_virtual_views_refuted",
    "set_global_refuted",
    "set_global_partial_effect"
   ],
   "note": "All refuted: database options that are not JSON texts are dropped, a bad JSON text wipes a database, unknown sections are ignored, a database can be renamed to an existing name, caches cannot be set, @virtual_views goes to a database of that name, SET GLOBAL always fails (after changing the global configuration)."
  },
  {
   "property": "C101",
   "status": "partial",
   "theorems": [
    "set_signed_decimal_partial",
    "set_config_decimal_refuted"
   ],
   "note": "A variable gets it by way of SELECT -1.5 INTO @x; refuted for configuration keys: the statement is refused."
  },
  {
   "property": "C102",
   "status": "proved",
   "theorems": [
    "compare_symmetric"
   ],
   "note": ""
  },
  {
   "property": "C103",
   "status": "partial",
   "theorems": [
    "too_many_arguments_refuted"
   ],
   "note": "Refuted: a fixed-arity function called with too many arguments raises outside the guard."
  },
  {
   "property": "C104",
   "status": "proved",
   "theorems": [
    "avg_permutation"
   ],
   "note": ""
  },
  {
   "property": "C105",
   "status": "partial",
   "theorems": [
    "into_empty_refuted",
    "into_surplus_refuted",
    "into_star_refuted"
   ],
   "note": "Refuted: no rows gives an empty list, one column into several variables and SELECT * into several variables fail."
  },
  {
   "property": "C106",
   "status": "partial",
   "theorems": [
    "history_limit_refuted"
   ],
   "note": "Refuted: the first load after more than 50 new commands returns more than 50."
  },
  {
   "property": "C107",
   "status": "partial",
   "theorems": [
    "datediff_reversed",
    "datediff_refuted",
    "timestampdiff_calendar_units",
    "timestampdiff_month_refuted",
    "timestampdiff_rounding_refuted"
   ],
   "note": "DATEDIFF has the opposite sign in the code; MONTH/QUARTER/YEAR are fixed numbers of days."
  },
  {
   "property": "C108",
   "status": "partial",
   "theorems": [
    "file_last_wins",
    "files_correct_iff",
    "file_formats_refuted",
    "file_directories_refuted",
    "file_options_refuted"
   ],
   "note": "The last file whose directory has the same mangled name decides (proved); refuted when such files differ."
  },
  {
   "property": "C109",
   "status": "partial",
   "theorems": [
    "ascii_refuted"
   ],
   "note": "Refuted for every longer text: ASCII is the sum of all codes and ORD is NULL."
  },
  {
   "property": "C11",
   "status": "proved",
   "theorems": [
    "compare_eq_null",
    "compare_consistent",
    "compare_integers",
    "compare_texts"
   ],
   "note": ""
  },
  {
   "property": "C110",
   "status": "proved",
   "theorems": [
    "window_query_correct",
    "window_query_rows"
   ],
   "note": "For every query of the class plain_wquery and every table whose values can be aggregated; window_query_rows describes the rows exactly also with ties. The window functions themselves are a parameter (C16-C18 area, Window_Model), the external package's #partition is trusted as read in the header of Winq_Model."
  },
  {
   "property": "C111",
   "status": "proved",
   "theorems": [
    "window_query_refused"
   ],
   "note": "Whatever the rest of the query is."
  },
  {
   "property": "C112",
   "status": "partial",
   "theorems": [
    "window_query_rows",
    "running_sum_of_ties_refuted"
   ],
   "note": "Refuted: rows tied with the current one after it are left out; the exact rows used are proved (window_query_rows)."
  },
  {
   "property": "C113",
   "status": "partial",
   "theorems": [
    "frames_not_read",
    "frame_refuted",
    "extended_window_refuted"
   ],
   "note": "Refuted: proved for every query that frames and what is added to a named window are not read at all."
  },
  {
   "property": "C114",
   "status": "partial",
   "theorems": [
    "window_query_correct",
    "window_independent_of_item_order_refuted"
   ],
   "note": "Holds when no other item has the name (class plain_wquery); refuted otherwise: names of items compiled before are used."
  },
  {
   "property": "C115",
   "status": "partial",
   "theorems": [
    "window_query_correct",
    "window_columns_in_order",
    "bare_column_around_window_refuted",
    "window_expression_moved_refuted"
   ],
   "note": "Holds when the columns used are selected under their own name; otherwise they read as NULL, and the columns of expressions come last (refuted). Without such expressions the columns stand in the order of the items (proved)."
  },
  {
   "property": "C116",
   "status": "proved",
   "theorems": [
    "other_statements_refused",
    "syntax_errors_refused",
    "queries_accepted",
    "deletions_accepted"
   ],
   "note": "sqlglot's parser and the compilation of query bodies are parameters."
  },
  {
   "property": "C117",
   "status": "proved",
   "theorems": [
    "explain_executes"
   ],
   "note": "The compilation and execution of query bodies are parameters."
  },
  {
   "property": "C118",
   "status": "partial",
   "theorems": [
    "explain_other_refuted",
    "explain_insert_refuted"
   ],
   "note": "Refuted: EXPLAIN INSERT inserts; EXPLAIN of DELETE, SELECT INTO, SET, EXECUTE, SHOW, USE and EXPLAIN fails."
  },
  {
   "property": "C119",
   "status": "proved",
   "theorems": [
    "set_variable",
    "set_global_variable",
    "set_import"
   ],
   "note": "For every ASCII value."
  },
  {
   "property": "C12",
   "status": "proved",
   "theorems": [
    "in_three_valued"
   ],
   "note": ""
  },
  {
   "property": "C120",
   "status": "partial",
   "theorems": [
    "set_global_expression_refuted",
    "set_quoted_expression_refuted",
    "set_reserved_refuted",
    "set_global_prefix_refuted"
   ],
   "note": "Refuted: SET GLOBAL of an expression sets the local variable; a value that begins with a quote is cut; names beginning with @config are configuration keys; SET @x with a key that begins with the letters global is cut."
  },
  {
   "property": "C121",
   "status": "proved",
   "theorems": [
    "show_databases_lists",
    "show_imports_lists"
   ],
   "note": ""
  },
  {
   "property": "C122",
   "status": "partial",
   "theorems": [
    "show_other_refuted",
    "show_databases_driver_refuted"
   ],
   "note": "Refuted: accepted silently; a database without a driver makes SHOW DATABASES fail."
  },
  {
   "property": "C123",
   "status": "proved",
   "theorems": [
    "use_as",
    "use_plain"
   ],
   "note": ""
  },
  {
   "property": "C124",
   "status": "partial",
   "theorems": [
    "use_source_refuted",
    "use_as_case_refuted"
   ],
   "note": "Refuted."
  },
  {
   "property": "C125",
   "status": "proved",
   "theorems": [
    "limit_comma",
    "limit_comma_offset",
    "limit_otherwise"
   ],
   "note": "sqlglot's own methods are parameters."
  },
  {
   "property": "C126",
   "status": "proved",
   "theorems": [
    "set_literal_denotes",
    "set_literal_other",
    "decimal_text_nearest"
   ],
   "note": "For every ASCII text. Signed decimals stay texts (set_negative_decimal_refuted)."
  },
  {
   "property": "C127",
   "status": "proved",
   "theorems": [
    "raw_blocks",
    "no_blocks",
    "raw_view"
   ],
   "note": "The key and value of the view's SET statement are those sqlglot hands over (hypothesis set_statement). White space and word characters are parameters that do not overlap with the punctuation used."
  },
  {
   "property": "C128",
   "status": "partial",
   "theorems": [
    "view_hides_global_refuted",
    "raw_view"
   ],
   "note": "Refuted: the session's list of views replaces the global one of the same database. Views the session defined itself are kept (raw_view)."
  },
  {
   "property": "C129",
   "status": "partial",
   "theorems": [
    "split_matches_spec",
    "comment_apostrophe_refuted",
    "comment_then_star_refuted"
   ],
   "note": "False of the code for comments containing quotes or a block comment followed by '*'; for all scripts with plain comments splitting equals the specification."
  },
  {
   "property": "C13",
   "status": "proved",
   "theorems": [
    "call_never_aborts",
    "call_result"
   ],
   "note": ""
  },
  {
   "property": "C130",
   "status": "partial",
   "theorems": [
    "interpolation_nested_refuted",
    "interpolation_case_refuted",
    "default_with_brace_refuted"
   ],
   "note": "Refuted: values are rescanned; placeholders whose names have capitals stay; a default ends at its first '}'."
  },
  {
   "property": "C131",
   "status": "partial",
   "theorems": [
    "substring_negative_refuted"
   ],
   "note": "Refuted."
  },
  {
   "property": "C132",
   "status": "partial",
   "theorems": [
    "like_code_exact",
    "like_refuted"
   ],
   "note": "The code compiles LIKE to an unanchored re.match; like_code_exact characterises it on all patterns; like_refuted records the deviations (final anchoring, _, %%, newlines)."
  },
  {
   "property": "C133",
   "status": "partial",
   "theorems": [
    "json_objectagg_last",
    "avg_batch_refuted",
    "avg_null_counts_refuted",
    "sum_float_batch_refuted",
    "json_objectagg_batch_refuted"
   ],
   "note": "Refuted; JSON_OBJECTAGG at once keeps the last value of each key (proved)."
  },
  {
   "property": "C134",
   "status": "partial",
   "theorems": [
    "streaming_avg_refuted"
   ],
   "note": "Refuted when a column has NULLs."
  },
  {
   "property": "C135",
   "status": "partial",
   "theorems": [
    "json_remove_through_index_refuted"
   ],
   "note": "Refuted: the whole element is deleted."
  },
  {
   "property": "C136",
   "status": "partial",
   "theorems": [
    "month_december_refuted",
    "month_negative_refuted",
    "leap_day_refuted"
   ],
   "note": "Refuted."
  },
  {
   "property": "C137",
   "status": "partial",
   "theorems": [
    "session_stale_refuted",
    "session_default_masks_refuted"
   ],
   "note": "Refuted for every state: a session that was read keeps stale values, and settings with a default are never inherited."
  },
  {
   "property": "C138",
   "status": "partial",
   "theorems": [
    "limit_before_collapsing",
    "limit_zero_refuted",
    "distinct_limit_refuted"
   ],
   "note": "Refuted: the limit counts rows before duplicates are removed (exactly characterised); LIMIT 0 is no limit."
  },
  {
   "property": "C139",
   "status": "partial",
   "theorems": [
    "reversed_comparison_refuted",
    "in_column_refuted",
    "cast_condition_refuted",
    "typed_column_refuted"
   ],
   "note": "Refuted."
  },
  {
   "property": "C14",
   "status": "proved",
   "theorems": [
    "arithmetic_null",
    "arithmetic_integers",
    "division_by_zero",
    "arithmetic_floats_rounded",
    "division_integers_rounded",
    "division_exact",
    "mod_sign_refuted"
   ],
   "note": "mod_sign_refuted records that the sign of % follows Python, not MySQL."
  },
  {
   "property": "C140",
   "status": "partial",
   "theorems": [
    "not_null_and_refuted",
    "not_between_null_refuted",
    "and_value_refuted",
    "case_without_else_refuted",
    "case_expression_without_else_refuted",
    "text_condition_refuted",
    "simple_case_refuted"
   ],
   "note": "Refuted."
  },
  {
   "property": "C141",
   "status": "partial",
   "theorems": [
    "order_alias_refuted",
    "order_join_column_refuted"
   ],
   "note": "Refuted."
  },
  {
   "property": "C142",
   "status": "partial",
   "theorems": [
    "set_operators_ignored",
    "union_parentheses_error",
    "union_distinct_refuted",
    "except_intersect_refuted",
    "union_position_refuted",
    "union_overwritten_refuted"
   ],
   "note": "Refuted: all set operators give UNION ALL, columns are matched by name, parentheses are an error."
  },
  {
   "property": "C143",
   "status": "partial",
   "theorems": [
    "plain_join_refuted",
    "inner_chain_refuted",
    "left_with_inner_refuted",
    "inner_coalesce_refuted",
    "full_with_inner_refuted",
    "right_const_refuted",
    "right_anti_join_refuted",
    "right_where_refuted",
    "right_with_inner_refuted",
    "comma_with_join_refuted",
    "comma_empty_refuted"
   ],
   "note": "Refuted: plain JOIN is a LEFT JOIN, INNER of a table tied only to another joined table is LEFT, LEFT next to INNER becomes INNER, RIGHT with WHERE or constants in ON, JOIN after a FROM list is dropped."
  },
  {
   "property": "C144",
   "status": "partial",
   "theorems": [
    "pause_removes_refuted"
   ],
   "note": "Refuted: the clean-up runs at every pause."
  },
  {
   "property": "C145",
   "status": "partial",
   "theorems": [
    "reversed_comparison_refuted",
    "typed_column_refuted"
   ],
   "note": "Refuted."
  },
  {
   "property": "C146",
   "status": "partial",
   "theorems": [
    "reentrant_execute_refuted",
    "context_execute_refuted",
    "nested_context_refuted"
   ],
   "note": "Refuted."
  },
  {
   "property": "C147",
   "status": "partial",
   "theorems": [
    "distinct_ignored_refuted",
    "distinct_count_refuted",
    "distinct_limit_refuted"
   ],
   "note": "Refuted for every query with GROUP BY or aggregates: DISTINCT is ignored."
  },
  {
   "property": "C148",
   "status": "partial",
   "theorems": [
    "latin_text_refuted"
   ],
   "note": "Refuted for every such text: each of them becomes two characters (exact effect proved for texts without backslash)."
  },
  {
   "property": "C149",
   "status": "partial",
   "theorems": [
    "insert_first_type_refuted",
    "insert_select_columns_refuted",
    "insert_no_columns_refuted"
   ],
   "note": "Refuted."
  },
  {
   "property": "C15",
   "status": "proved",
   "theorems": [
    "bit_operations",
    "bit_null",
    "bit_coerces"
   ],
   "note": ""
  },
  {
   "property": "C150",
   "status": "partial",
   "theorems": [
    "right_join_hangs",
    "on_other_table_refuted",
    "key_twice_rejected"
   ],
   "note": "Refuted: the selection loop provably never ends for every such RIGHT JOIN; a constant compared with a column of another table is put to the joined table instead."
  },
  {
   "property": "C151",
   "status": "partial",
   "theorems": [
    "having_between_refuted",
    "having_if_refuted",
    "having_bare_refuted",
    "having_like_refuted",
    "having_not_like_refuted"
   ],
   "note": "Refuted: BETWEEN ignores its bounds, IF its branches, a bare column is rejected, LIKE without final '%', '_', '%%'; LIKE and NOT LIKE both true. Outermost function calls, CASE and subqueries not modelled."
  },
  {
   "property": "C152",
   "status": "partial",
   "theorems": [
    "bare_column_in_expression_refuted",
    "no_rows_no_result"
   ],
   "note": "Refuted: such a column reads NULL; an empty table gives no row."
  },
  {
   "property": "C153",
   "status": "partial",
   "theorems": [
    "group_by_independent_of_order_refuted",
    "one_group_key_refuted",
    "group_by_position_one_group"
   ],
   "note": "Refuted: the groups depend on the position of the aggregate in the select list; GROUP BY a position makes one group."
  },
  {
   "property": "C154",
   "status": "partial",
   "theorems": [
    "with_table_keeps_old_rows",
    "with_twice_refuted",
    "with_name_prefix_refuted"
   ],
   "note": "Refuted: rows are appended to the memory table of the name and stay there; a longer table name is redirected to the subquery's own output."
  },
  {
   "property": "C155",
   "status": "partial",
   "theorems": [
    "subquery_limit_refuted",
    "same_name_refuted",
    "equality_twice_refuted"
   ],
   "note": "Refuted: LIMIT counts the rows of all outer rows together; a table of the same name hides the subquery's own."
  },
  {
   "property": "C156",
   "status": "partial",
   "theorems": [
    "aggregate_without_rows",
    "count_zero_refuted",
    "aggregate_inequality_refuted"
   ],
   "note": "Refuted: without a matching row there is no value (proved for all); other conditions on the outer query split the groups."
  },
  {
   "property": "C157",
   "status": "partial",
   "theorems": [
    "conversion_in_between_refuted",
    "conversions_refuted",
    "blank_hides_annotation_refuted",
    "option_alone_refuted"
   ],
   "note": "Refuted: of more than two only the first and the last have any effect; a blank after the semicolon hides an annotation; options without a type become part of the name."
  },
  {
   "property": "C158",
   "status": "partial",
   "theorems": [
    "concat_ws_null_refuted"
   ],
   "note": "Refuted: it is NULL."
  },
  {
   "property": "C159",
   "status": "partial",
   "theorems": [
    "elt_last_refuted",
    "substring_index_negative_refuted"
   ],
   "note": "Refuted."
  },
  {
   "property": "C16",
   "status": "proved",
   "theorems": [
    "extremum_null",
    "extremum_correct",
    "numbers_comparable"
   ],
   "note": "For mutually comparable values; mixed kinds are compared by their numeric coercions."
  },
  {
   "property": "C160",
   "status": "partial",
   "theorems": [
    "nth_value_zero_refuted",
    "rank_ties_refuted",
    "percent_rank_refuted",
    "cume_dist_refuted",
    "ntile_uneven_refuted"
   ],
   "note": "Refuted."
  },
  {
   "property": "C161",
   "status": "partial",
   "theorems": [
    "dayofweek_refuted",
    "sec_to_time_refuted"
   ],
   "note": "Refuted: DAYOFWEEK is wrong on every day; SEC_TO_TIME wraps at 24 hours."
  },
  {
   "property": "C162",
   "status": "partial",
   "theorems": [
    "bin_hex_prefix_refuted",
    "oct_negative_refuted",
    "hex_empty_refuted"
   ],
   "note": "Refuted: 0b and 0x are put before the digits, OCT of negative numbers begins with the letter o, and UNHEX cannot read HEX of any integer or of the empty text."
  },
  {
   "property": "C163",
   "status": "partial",
   "theorems": [
    "script_sequential_refuted"
   ],
   "note": "Refuted: SET @a=1; SELECT @a; SET @a=2 shows 2."
  },
  {
   "property": "C164",
   "status": "partial",
   "theorems": [
    "one_by_one_sequential_refuted"
   ],
   "note": "Refuted: the variable is declared NULL before the expression is evaluated."
  },
  {
   "property": "C165",
   "status": "partial",
   "theorems": [
    "compare_mixed_refuted"
   ],
   "note": "Refuted."
  },
  {
   "property": "C166",
   "status": "partial",
   "theorems": [
    "avg_order_refuted",
    "sum_text_order_refuted"
   ],
   "note": "Refuted."
  },
  {
   "property": "C167",
   "status": "proved",
   "theorems": [
    "date_format_correct"
   ],
   "note": "Other directives are left open; years before 1000 are shown by the C library without padding."
  },
  {
   "property": "C168",
   "status": "partial",
   "theorems": [
    "date_format_month_name_refuted",
    "date_format_weekday_refuted",
    "date_format_double_percent_refuted"
   ],
   "note": "Refuted for every date: percent-M is the minute, percent-W the number of the Monday-based week; the v behind a double percent sign becomes V."
  },
  {
   "property": "C169",
   "status": "proved",
   "theorems": [
    "week_counts",
    "week_total"
   ],
   "note": "week_counts also covers WEEK(d, 1), which counts from the first Monday."
  },
  {
   "property": "C17",
   "status": "proved",
   "theorems": [
    "substring_positive",
    "substring_tail",
    "substring_null",
    "left_right_correct",
    "insert_correct"
   ],
   "note": ""
  },
  {
   "property": "C170",
   "status": "partial",
   "theorems": [
    "week_mode1_refuted"
   ],
   "note": "Refuted: exactly in the years that begin on Tuesday, Wednesday or Thursday the result is one too small."
  },
  {
   "property": "C171",
   "status": "proved",
   "theorems": [
    "yearweek_within_year",
    "year_week_total",
    "yearweek_exact"
   ],
   "note": ""
  },
  {
   "property": "C172",
   "status": "partial",
   "theorems": [
    "yearweek_refuted"
   ],
   "note": "Refuted for every such day: the week is 00 of the new year."
  },
  {
   "property": "C173",
   "status": "proved",
   "theorems": [
    "dayname_correct"
   ],
   "note": ""
  },
  {
   "property": "C174",
   "status": "partial",
   "theorems": [
    "monthname_abbreviated",
    "monthname_refuted"
   ],
   "note": "Refuted for every month but May: the name is cut to three letters."
  },
  {
   "property": "C175",
   "status": "proved",
   "theorems": [
    "date_time_parts"
   ],
   "note": ""
  },
  {
   "property": "C176",
   "status": "proved",
   "theorems": [
    "unix_timestamp_round_trip"
   ],
   "note": ""
  },
  {
   "property": "C177",
   "status": "partial",
   "theorems": [
    "unix_timestamp_offset",
    "unix_timestamp_refuted"
   ],
   "note": "Refuted whenever the host is not in UTC: the result is off by the host's offset."
  },
  {
   "property": "C178",
   "status": "proved",
   "theorems": [
    "having_like_final_percent",
    "having_like_all"
   ],
   "note": "The regular-expression engine is an argument; its behaviour on plain characters and .* is a hypothesis, met by the matcher of the example."
  },
  {
   "property": "C179",
   "status": "proved",
   "theorems": [
    "join_columns_read"
   ],
   "note": "How the package evaluates a nested join is a trusted reading (Scope_Model). Type conversions and jit defines left out."
  },
  {
   "property": "C18",
   "status": "proved",
   "theorems": [
    "concat_null_iff",
    "reverse_involution",
    "repeat_copies"
   ],
   "note": "For all arguments; the rendering of floats is an arbitrary function."
  },
  {
   "property": "C180",
   "status": "proved",
   "theorems": [
    "join_columns_any_order"
   ],
   "note": ""
  },
  {
   "property": "C181",
   "status": "proved",
   "theorems": [
    "circular_joins_refused"
   ],
   "note": ""
  },
  {
   "property": "C182",
   "status": "proved",
   "theorems": [
    "own_columns_tied_refused"
   ],
   "note": ""
  },
  {
   "property": "C183",
   "status": "partial",
   "theorems": [
    "on_right_side_overlooked_refuted"
   ],
   "note": "Refuted: the right side is overlooked, so a column of the table alone raises IndexError and with the other table in the expression the filter reads it or nothing depending on the order of a set."
  },
  {
   "property": "C184",
   "status": "proved",
   "theorems": [
    "subqueries_complete_first"
   ],
   "note": ""
  },
  {
   "property": "C185",
   "status": "proved",
   "theorems": [
    "failure_closes_users",
    "begun_is_closed_once"
   ],
   "note": ""
  },
  {
   "property": "C186",
   "status": "proved",
   "theorems": [
    "statements_take_turns",
    "turn_subqueries_first"
   ],
   "note": ""
  },
  {
   "property": "C187",
   "status": "proved",
   "theorems": [
    "statements_in_sequence"
   ],
   "note": ""
  },
  {
   "property": "C188",
   "status": "partial",
   "theorems": [
    "streaming_abandons_subqueries_refuted"
   ],
   "note": "Refuted: with streaming a statement that ends before its subquery leaves it unclosed and unreduced; begun_is_closed_once is the proved half without streaming."
  },
  {
   "property": "C189",
   "status": "proved",
   "theorems": [
    "select_assignments"
   ],
   "note": "The order in which the package computes rows, columns and arguments is a trusted reading."
  },
  {
   "property": "C19",
   "status": "proved",
   "theorems": [
    "field_first",
    "find_in_set_first",
    "cut_exists",
    "field_null_refuted"
   ],
   "note": "For all arguments; FIELD of NULL is NULL in the code (0 in MySQL)."
  },
  {
   "property": "C190",
   "status": "proved",
   "theorems": [
    "running_value"
   ],
   "note": ""
  },
  {
   "property": "C191",
   "status": "partial",
   "theorems": [
    "assignment_once_refuted",
    "case_when_variable_refuted"
   ],
   "note": "Refuted: the first operand of IFNULL is computed twice, and a variable in a WHEN of a simple CASE has its value of the compilation. select_assignments is the proved rest."
  },
  {
   "property": "C192",
   "status": "proved",
   "theorems": [
    "nested_calls"
   ],
   "note": "That rows written to a table of the memory database are appended is a trusted reading."
  },
  {
   "property": "C193",
   "status": "partial",
   "theorems": [
    "failed_subquery_leaves_rows_refuted"
   ],
   "note": "Refuted: the rows given before the failure stay in a table named by the id of an object, and a later subquery that gets the same id returns them. nested_calls is the proved part without failures before."
  },
  {
   "property": "C194",
   "status": "proved",
   "theorems": [
    "string_functions_null",
    "encodings_null"
   ],
   "note": "For the value types of the model."
  },
  {
   "property": "C195",
   "status": "partial",
   "theorems": [
    "null_length_refuted"
   ],
   "note": "Refuted: a NULL length means no limit, and the position in a NULL set is 0."
  },
  {
   "property": "C196",
   "status": "proved",
   "theorems": [
    "table_names"
   ],
   "note": "Which names are files is Files (C55). A name qualified by a database whose table is _ . .txt .csv or .json is still special, as the statement says."
  },
  {
   "property": "C197",
   "status": "proved",
   "theorems": [
    "insert_update_type",
    "update_type_exists"
   ],
   "note": "For tables that are not files or special, and names in which no double colon is read as a separator."
  },
  {
   "property": "C198",
   "status": "partial",
   "theorems": [
    "insert_union_type_refuted"
   ],
   "note": "Refuted: it always writes with I (proved for every reference and setting)."
  },
  {
   "property": "C199",
   "status": "proved",
   "theorems": [
    "table_variable_read"
   ],
   "note": ""
  },
  {
   "property": "C20",
   "status": "proved",
   "theorems": [
    "like_final_percent",
    "like_null",
    "like_all"
   ],
   "note": ""
  },
  {
   "property": "C200",
   "status": "partial",
   "theorems": [
    "table_variable_refuted"
   ],
   "note": "Refuted: a text value is taken at compilation, a variable that is still NULL reads the table None, a file name becomes a table in memory."
  },
  {
   "property": "C201",
   "status": "proved",
   "theorems": [
    "argument_value",
    "argument_at_value"
   ],
   "note": "Reading is by a new executor over the global variables (C08 gives the scopes above it)."
  },
  {
   "property": "C202",
   "status": "proved",
   "theorems": [
    "built_in_value",
    "environment_value",
    "nothing_else"
   ],
   "note": "str.lower is an argument."
  },
  {
   "property": "C203",
   "status": "partial",
   "theorems": [
    "value_up_to_second_equals",
    "argument_with_equals_refuted",
    "unclosed_quote_refuted",
    "capital_argument_refuted"
   ],
   "note": "Refuted: the value ends at a second = (proved for every argument), an unclosed quote costs the last character, ${Name} does not see --Name."
  },
  {
   "property": "C204",
   "status": "proved",
   "theorems": [
    "math_function",
    "math_function2"
   ],
   "note": "What the math library computes is an argument."
  },
  {
   "property": "C205",
   "status": "proved",
   "theorems": [
    "sqrt_correct",
    "sqrt_square"
   ],
   "note": "math.sqrt is read as the correctly rounded root (IEEE 754). Uses the real numbers of the standard library."
  },
  {
   "property": "C206",
   "status": "proved",
   "theorems": [
    "round_integer"
   ],
   "note": ""
  },
  {
   "property": "C207",
   "status": "proved",
   "theorems": [
    "round_double",
    "round_beyond",
    "round_text"
   ],
   "note": "The reading of CPython's round (exact decimal rounding, halves to even) is trusted."
  },
  {
   "property": "C208",
   "status": "partial",
   "theorems": [
    "round_default_refuted",
    "log_default_refuted",
    "round_half_refuted"
   ],
   "note": "Refuted: with one argument both are always NULL; halves go to the even neighbour (C206, C207 are the exact characterisation)."
  },
  {
   "property": "C209",
   "status": "proved",
   "theorems": [
    "aggregates_anywhere"
   ],
   "note": "Not aggregates inside the argument of an aggregate (invalid SQL); columns used outside the aggregates must be items under their own names."
  },
  {
   "property": "C21",
   "status": "proved",
   "theorems": [
    "count_correct",
    "sum_correct",
    "max_correct",
    "min_correct",
    "count_distinct_correct",
    "avg_correct",
    "group_concat_correct",
    "group_array_correct",
    "count_batch",
    "count_distinct_batch",
    "sum_batch",
    "avg_batch",
    "max_batch",
    "min_batch",
    "group_concat_batch",
    "group_array_batch",
    "group_bit_batch"
   ],
   "note": ""
  },
  {
   "property": "C210",
   "status": "proved",
   "theorems": [
    "pushed_types"
   ],
   "note": "Conditions with subqueries are not modelled."
  },
  {
   "property": "C211",
   "status": "proved",
   "theorems": [
    "plain_select"
   ],
   "note": "Over the classes of expressions of C55/C33; the order of values is a parameter (total preorder)."
  },
  {
   "property": "C212",
   "status": "proved",
   "theorems": [
    "grouped_select"
   ],
   "note": "The rows of a group from which plain columns are read, and with ORDER BY the order in which the rows are grouped, are not determined (as in SQL)."
  },
  {
   "property": "C213",
   "status": "partial",
   "theorems": [
    "having_alias_order_refuted",
    "order_by_used_name"
   ],
   "note": "Refuted: such a name counts as a column of the table, and the source sorts by that (missing) column; order_by_used_name is the exact behaviour."
  },
  {
   "property": "C214",
   "status": "partial",
   "theorems": [
    "where_alias_refuted"
   ],
   "note": "Refuted for a condition that is a name alone; in other conditions names are columns (C211)."
  },
  {
   "property": "C215",
   "status": "partial",
   "theorems": [
    "where_cast_column",
    "uncast_exists",
    "where_cast_refuted",
    "plain_select"
   ],
   "note": "Refuted: compared with something without columns, at the top level of WHERE, the CAST is dropped; where_cast_column: the result is then that of the statement without it. Everywhere else in WHERE the conversion counts (plain_select)."
  },
  {
   "property": "C216",
   "status": "partial",
   "theorems": [
    "order_cast_column",
    "order_cast_refuted"
   ],
   "note": "Refuted: the CAST is dropped, the result is that of ORDER BY column (order_cast_column)."
  },
  {
   "property": "C217",
   "status": "partial",
   "theorems": [
    "group_cast_column",
    "group_cast_refuted",
    "grouped_select"
   ],
   "note": "Refuted when an item of the name of the column stands before the aggregates: the CAST is dropped (group_cast_column); without an item of that name the conversion counts (grouped_select)."
  },
  {
   "property": "C218",
   "status": "proved",
   "theorems": [
    "from_unixtime_moment",
    "from_unixtime_null"
   ],
   "note": "Zones are arbitrary functions from UTC seconds to offsets."
  },
  {
   "property": "C219",
   "status": "partial",
   "theorems": [
    "unix_timestamp_shifted",
    "unix_timestamp_exact_utc",
    "unix_round_trip",
    "unix_timestamp_refuted"
   ],
   "note": "Refuted on every machine whose own zone is not UTC: the result is less by the offset of the machine (unix_timestamp_shifted); it is right exactly on machines running in UTC (unix_timestamp_exact_utc). The standard offset of the machine is taken as constant in time."
  },
  {
   "property": "C22",
   "status": "proved",
   "theorems": [
    "count_permutation",
    "sum_permutation",
    "count_distinct_permutation",
    "max_permutation",
    "min_permutation"
   ],
   "note": ""
  },
  {
   "property": "C220",
   "status": "partial",
   "theorems": [
    "unix_timestamp_date_refuted"
   ],
   "note": "Refuted for every date and every text: NULL."
  },
  {
   "property": "C221",
   "status": "proved",
   "theorems": [
    "date_time_split",
    "date_time_of_datetime",
    "time_of_datetime",
    "conversions_idempotent"
   ],
   "note": "The parser of texts (syncany) is arbitrary."
  },
  {
   "property": "C222",
   "status": "proved",
   "theorems": [
    "regexp_at_start",
    "regexp_null",
    "regexp_instr_anywhere"
   ],
   "note": "Python's re engine is an arbitrary function from texts and starting positions to matches; re.match and re.search are defined from it."
  },
  {
   "property": "C223",
   "status": "partial",
   "theorems": [
    "regexp_anywhere_refuted",
    "regexp_at_start"
   ],
   "note": "Refuted: 'abc' REGEXP 'b' is 0; exactly the patterns matching at the first character count (regexp_at_start)."
  },
  {
   "property": "C224",
   "status": "proved",
   "theorems": [
    "bare_group_select"
   ],
   "note": "Which row of a group an item is read from is arbitrary (item by item). LIMIT without HAVING is applied before the rows are collapsed: C138."
  },
  {
   "property": "C225",
   "status": "proved",
   "theorems": [
    "distinct_select"
   ],
   "note": "LIMIT without HAVING is applied before the rows are collapsed: C138; DISTINCT with GROUP BY or aggregates: C147."
  },
  {
   "property": "C226",
   "status": "proved",
   "theorems": [
    "select_answers"
   ],
   "note": "Columns are written without the alias before them. A LIMIT of a collapsing statement only with HAVING or ORDER BY (C138)."
  },
  {
   "property": "C227",
   "status": "proved",
   "theorems": [
    "query_answers"
   ],
   "note": "WITH names are new tables; no table read by a WITH query has a name beginning with the WITH name (C154 has the witness). Temporary names are assumed new (uuid). Not: joins, other set operators, SELECT * of a table."
  },
  {
   "property": "C228",
   "status": "partial",
   "theorems": [
    "order_by_alias_refuted",
    "select_answers"
   ],
   "note": "Refuted: with an alias, SELECT a FROM t y ORDER BY b is refused for every table; ordering by items of the select list works (select_answers)."
  },
  {
   "property": "C229",
   "status": "proved",
   "theorems": [
    "windowed_select",
    "windowed_select_rows"
   ],
   "note": "Aggregates with ORDER BY in the window: over the rows up to the current one (windowed_select_rows), which is SQL when no two rows of a partition are tied (windowed_select; C112 has the witness for ties). HAVING and ORDER BY name items other than expressions around window functions (C230). Not: joins, GROUP BY with windows, an alias."
  },
  {
   "property": "C23",
   "status": "proved",
   "theorems": [
    "streaming_group_by",
    "streaming_group_by_aggregates"
   ],
   "note": "Limit bookkeeping (store_count) is an arbitrary predicate."
  },
  {
   "property": "C230",
   "status": "partial",
   "theorems": [
    "window_expression_named_refuted",
    "order_by_window_expression_refused",
    "windowed_select"
   ],
   "note": "Refuted: an item like ROW_NUMBER() OVER (...) + 1 AS n cannot be named in ORDER BY (refused for every statement and table) nor in HAVING; the other items can (windowed_select)."
  },
  {
   "property": "C231",
   "status": "proved",
   "theorems": [
    "script_answers",
    "script_delete_refused"
   ],
   "note": "Statements as in C227 (queries), C54 (INSERT VALUES whose columns have one type) and C40 (DELETE). INSERT of type I; tables are lists of rows; reusing a WITH name: C232. A failing statement is not described."
  },
  {
   "property": "C232",
   "status": "partial",
   "theorems": [
    "with_name_kept_refuted",
    "with_name_keeps",
    "script_answers",
    "session_with_name",
    "session_with_name_kept_refuted"
   ],
   "note": "Refuted: the table of a WITH name is never emptied, so the same statement executed twice returns each row twice, and later statements can read it. Proved: a name stands for the rows left in its table followed by those of its query (with_name_keeps); it is local when each name is used once (script_answers)."
  },
  {
   "property": "C233",
   "status": "proved",
   "theorems": [
    "left_select",
    "left_select_accepted"
   ],
   "note": "Columns and expressions over columns as items, ORDER BY of columns; no aggregates, GROUP BY, HAVING, DISTINCT. Accepted when ORDER BY lists columns of the first table, or names of the select list. Joins as in C37 (the package joins as LEFT JOIN); a qualified ORDER BY column whose bare name is that of another item: C236."
  },
  {
   "property": "C234",
   "status": "proved",
   "theorems": [
    "inner_select",
    "comma_select",
    "inner_select_accepted",
    "comma_select_accepted"
   ],
   "note": "Classes of C37 for INNER and comma joins; these are accepted (of a comma join: WHERE ties no column of a table twice to the tables before it). LIMIT is positive (LIMIT 0: C32)."
  },
  {
   "property": "C235",
   "status": "partial",
   "theorems": [
    "left_select",
    "left_limit_refuted"
   ],
   "note": "Refuted: the limit is handed to the loader of the first table, so one row with two matches gives two rows under LIMIT 1. Proved when some WHERE conjunct or ORDER BY column is not of the first table, or each combination has at most one match. Rests on reading @limit as a limit of the loader."
  },
  {
   "property": "C236",
   "status": "partial",
   "theorems": [
    "left_select",
    "inner_select",
    "order_joined_name_refuted"
   ],
   "note": "Refuted: ORDER BY b.x sorts by the item of the select list named x, whatever it is. Proved when that item is b.x."
  },
  {
   "property": "C237",
   "status": "partial",
   "theorems": [
    "unread_join",
    "unread_join_refuted"
   ],
   "note": "Refuted: a join that neither the select list nor WHERE reads is not compiled at all: the statement runs as if it were not written (unread_join, for the last LEFT JOIN)."
  },
  {
   "property": "C238",
   "status": "proved",
   "theorems": [
    "left_grouped",
    "left_grouped_accepted"
   ],
   "note": "ORDER BY names items: aggregates, columns of the first table in GROUP BY under their own name, or other items whose name is not that of a used column of the first table (else C241). Joins as in C37; an expression around aggregates uses outside them no joined columns."
  },
  {
   "property": "C239",
   "status": "proved",
   "theorems": [
    "inner_grouped",
    "comma_grouped",
    "inner_grouped_accepted",
    "comma_grouped_accepted"
   ],
   "note": "These are accepted (of a comma join: WHERE ties no column of a table twice to the tables before it). Classes of C37 for INNER and comma joins; otherwise as C238."
  },
  {
   "property": "C24",
   "status": "proved",
   "theorems": [
    "row_number_counts",
    "lag_lead_value",
    "lag_lead_default",
    "first_last_value"
   ],
   "note": "For all partitions and positions. How the package cuts the rows into partitions and orders them is not modelled; the other functions: C77."
  },
  {
   "property": "C240",
   "status": "proved",
   "theorems": [
    "unknown_table_grouped",
    "unknown_table_select"
   ],
   "note": "Joins of the class of C37."
  },
  {
   "property": "C241",
   "status": "partial",
   "theorems": [
    "left_grouped",
    "order_grouped_name_refuted"
   ],
   "note": "Refuted without table aliases when the first table has a used column of that name: the rows of the first table are sorted by their own column, and the groups are left in the order of appearance. Proved when no such column is used."
  },
  {
   "property": "C242",
   "status": "proved",
   "theorems": [
    "composed_query_answers"
   ],
   "note": "The classes of SELECTs are those of C226 (with or without alias), C229 (with windows, over a table, or over a source with alias when ORDER BY names items), C234, C235, C238, C239 (LEFT JOINs, INNER JOINs and FROM a, b, ...), C248 (LEFT JOINs that are not read), C249 and C250 (GROUP BY without aggregates, and DISTINCT, over joins; C251 tells why LIMIT there needs HAVING). Not modelled: SELECT * over joins or over tables; names of WITH that begin the text of an input; @-arguments."
  },
  {
   "property": "C243",
   "status": "partial",
   "theorems": [
    "composed_query_answers",
    "star_over_window_expression_refuted"
   ],
   "note": "Refuted: for an expression around window functions config[\"schema\"] keeps only the columns made for the functions, so the star and UNION ALL lose the item and show a NULL column of an internal name. Proved for queries whose items are whole window functions (regular)."
  },
  {
   "property": "C244",
   "status": "proved",
   "theorems": [
    "json_contains_same",
    "json_contains_text"
   ],
   "note": "json.loads is a parameter. Candidates that are strings only as JSON text that decodes to no string (a bare string candidate is first tried as JSON text)."
  },
  {
   "property": "C245",
   "status": "partial",
   "theorems": [
    "json_contains_sound_partial",
    "json_contains_refuted"
   ],
   "note": "Refuted: the code compares for equality (JSON_CONTAINS('[1, 2]', '1', '$') is 0) and a path that leads nowhere contains null. Proved: when the answer is 1 and C244 applies, the part at the path contains the candidate."
  },
  {
   "property": "C246",
   "status": "partial",
   "theorems": [
    "json_valid_text",
    "json_valid_extract",
    "json_invalid_extract",
    "json_valid_null_refuted"
   ],
   "note": "Refuted for NULL (1 instead of NULL); proved for texts."
  },
  {
   "property": "C247",
   "status": "proved",
   "theorems": [
    "session_answers"
   ],
   "note": "Generalises C231 to the queries of C242. INSERT of the type I; DELETE with conditions that the source can decide; names of WITH are used by one statement (see C232 for what happens otherwise)."
  },
  {
   "property": "C248",
   "status": "proved",
   "theorems": [
    "unread_left_select"
   ],
   "note": "The other joins are of the class of C233/C235. With several matches it is refuted: C237."
  },
  {
   "property": "C249",
   "status": "proved",
   "theorems": [
    "joined_bare_group"
   ],
   "note": "Acceptance and result in one theorem for the three ways of joining. A LIMIT comes with a HAVING (otherwise C251)."
  },
  {
   "property": "C25",
   "status": "proved",
   "theorems": [
    "json_text_argument",
    "json_extract_path",
    "json_extract_many",
    "json_set_existing",
    "json_set_new_member",
    "json_set_append",
    "json_set_missing_level",
    "json_wildcard_elements",
    "json_set_root_refuted",
    "json_extract_string_index_refuted"
   ],
   "note": "For every path written with unquoted names and indices. The _refuted theorems record two differences from MySQL (path $, index into a string)."
  },
  {
   "property": "C250",
   "status": "proved",
   "theorems": [
    "joined_distinct"
   ],
   "note": "As C249."
  },
  {
   "property": "C251",
   "status": "partial",
   "theorems": [
    "joined_limit_partial",
    "joined_distinct_limit_refuted"
   ],
   "note": "Refuted without HAVING: the limit is taken from the rows of the first table before they are joined. Proved with HAVING."
  },
  {
   "property": "C252",
   "status": "proved",
   "theorems": [
    "view_arguments",
    "view_unknown_operator",
    "view_without_placeholders"
   ],
   "note": "The regular expression is modelled as a scanner. Names have no two underscores in a row within the column or the operator; defaults have no # and no closing brace; json.loads is an argument."
  },
  {
   "property": "C253",
   "status": "partial",
   "theorems": [
    "view_marks_partial",
    "view_marks_refuted"
   ],
   "note": "False of the code when the text has percent signs: in like '%south' and id = #{id} there are two marks and one argument (percent signs are not doubled). Proved for texts without percent signs."
  },
  {
   "property": "C254",
   "status": "proved",
   "theorems": [
    "row_functions",
    "row_index_numbers",
    "row_last_shifts"
   ],
   "note": "Expressions of constants, columns, calls, IF and IFNULL; one memory per call in the compiled schema (package) is trusted. Not in branches of IF nor in IFNULL (C255)."
  },
  {
   "property": "C255",
   "status": "partial",
   "theorems": [
    "row_functions",
    "row_last_ifnull_refuted",
    "row_index_branch_refuted"
   ],
   "note": "False of the code: the first operand of IFNULL is compiled twice, and the second copy sees only the rows in which it is computed, so IFNULL(ROW_LAST(x), 0) is NULL in the second row; in a branch of IF only the rows that take the branch are counted. C254 says where it holds."
  },
  {
   "property": "C256",
   "status": "proved",
   "theorems": [
    "yield_row",
    "yield_rows",
    "yield_single"
   ],
   "note": "The lock-step of several generators of a row is the loader of the package (trusted reading, as tests/test_example_yield_data.py shows it); what it does with a row whose arrays are all empty is an argument and not claimed."
  },
  {
   "property": "C257",
   "status": "proved",
   "theorems": [
    "get_value_follows",
    "get_value_compiles",
    "get_value_nested",
    "get_value_refused"
   ],
   "note": "How the package follows a path (names, :n, slices) is an argument; how it hands a value to a return column is trusted. Boolean and NULL keys (read as :1, :0 and None) are modelled but not claimed."
  },
  {
   "property": "C258",
   "status": "partial",
   "theorems": [
    "get_value_tuple_refuted"
   ],
   "note": "False of the code: items that are no numbers are dropped, so GET_VALUE(x, (0, n)) is GET_VALUE(x, 0), and items after the third are ignored."
  },
  {
   "property": "C26",
   "status": "proved",
   "theorems": [
    "json_remove_member",
    "json_remove_element",
    "json_remove_absent"
   ],
   "note": ""
  },
  {
   "property": "C27",
   "status": "proved",
   "theorems": [
    "month_add_documented",
    "month_sub_documented",
    "month_add_exact",
    "month_sub_exact",
    "year_exact"
   ],
   "note": "The _exact theorems give the result for every date and every integer k."
  },
  {
   "property": "C28",
   "status": "proved",
   "theorems": [
    "fixed_unit_shift",
    "fixed_unit_shift_date",
    "shift_inverse",
    "unknown_unit_null",
    "microsecond_refuted",
    "date_plus_hours_refuted"
   ],
   "note": "Weeks, days, hours, minutes, seconds. The _refuted theorems record that MICROSECOND counts seconds and that a DATE ignores hours."
  },
  {
   "property": "C29",
   "status": "proved",
   "theorems": [
    "set_top",
    "set_top_null",
    "set_section",
    "set_section_null",
    "set_database_field",
    "set_database_null",
    "set_view_query",
    "merge_plain",
    "merge_section",
    "merge_section_one_side",
    "merge_databases",
    "merge_items",
    "merge_pipelines",
    "set_routes_section",
    "set_routes_config",
    "set_session_effect"
   ],
   "note": "Read-back, frame and removal for every configuration and key of the supported sections, and merging key by key (pipelines given as lists of pipelines)."
  },
  {
   "property": "C30",
   "status": "proved",
   "theorems": [
    "session_reads_current",
    "session_overlay",
    "session_overlay_section"
   ],
   "note": ""
  },
  {
   "property": "C31",
   "status": "proved",
   "theorems": [
    "execute_fifo",
    "run_in_order",
    "script_order",
    "script_exactly_once",
    "failure_leaves_queue",
    "task_numbers"
   ],
   "note": "For every behaviour of statements and runners. Results: C78."
  },
  {
   "property": "C32",
   "status": "proved",
   "theorems": [
    "limit_page",
    "offset_only",
    "two_tasks_same"
   ],
   "note": "How the external package sorts, limits, filters and applies pipelines is a trusted reading."
  },
  {
   "property": "C33",
   "status": "proved",
   "theorems": [
    "where_pushdown"
   ],
   "note": "How the source evaluates the pushed conditions is the external loader's (trusted reading). Joins and subquery conditions not modelled."
  },
  {
   "property": "C34",
   "status": "proved",
   "theorems": [
    "compiled_value",
    "compiled_condition",
    "compiled_known",
    "simple_case_integers",
    "simple_case_texts",
    "simple_case_signed"
   ],
   "note": "The classes of expressions are exact, cond and known (Expr_Spec)."
  },
  {
   "property": "C35",
   "status": "proved",
   "theorems": [
    "order_by_rows",
    "order_by_groups",
    "two_tasks_same"
   ],
   "note": "For grouped queries: when each group takes the values of its keys from one of its rows, in the order of the rows (stated as a hypothesis)."
  },
  {
   "property": "C36",
   "status": "proved",
   "theorems": [
    "union_all_rows",
    "union_by_name",
    "union_star_rows",
    "union_column_names",
    "union_sorted_pairing"
   ],
   "note": "For other names the exact pairing (by sorted names) is proved."
  },
  {
   "property": "C37",
   "status": "proved",
   "theorems": [
    "left_joins_correct",
    "inner_joins_correct",
    "joins_are_left_joins",
    "inner_rewrite_exact",
    "comma_joins_correct",
    "right_join_correct",
    "full_join_rejected"
   ],
   "note": "For every number of joins and every database. Which kind each join is executed with is proved for all queries without RIGHT. That the package executes a compiled join as a LEFT JOIN is a trusted reading."
  },
  {
   "property": "C38",
   "status": "proved",
   "theorems": [
    "table_in_use_kept",
    "last_reader_removes",
    "nothing_left",
    "written_exists"
   ],
   "note": "For every interleaving of compile, write and finish events of the tasks of a statement in which each task finishes once and tables are written before they are read."
  },
  {
   "property": "C39",
   "status": "proved",
   "theorems": [
    "into_scalar",
    "into_row",
    "into_rows",
    "into_column",
    "into_frame"
   ],
   "note": "All shapes of the result with as many columns as variables, or more."
  },
  {
   "property": "C40",
   "status": "proved",
   "theorems": [
    "delete_exact",
    "delete_accepted"
   ],
   "note": ""
  },
  {
   "property": "C41",
   "status": "proved",
   "theorems": [
    "history_recent",
    "history_trimmed",
    "history_restarts_idempotent"
   ],
   "note": ""
  },
  {
   "property": "C42",
   "status": "proved",
   "theorems": [
    "contexts_restore",
    "context_inside",
    "context_restored_iff"
   ],
   "note": ""
  },
  {
   "property": "C43",
   "status": "proved",
   "theorems": [
    "floor_exact",
    "ceil_exact",
    "sign_exact",
    "abs_integer"
   ],
   "note": ""
  },
  {
   "property": "C44",
   "status": "proved",
   "theorems": [
    "replace_all",
    "replace_self",
    "strcmp_order",
    "affix_tests",
    "trim_spec",
    "char_length_counts",
    "length_counts_bytes"
   ],
   "note": "White space test of str.strip is an argument."
  },
  {
   "property": "C45",
   "status": "proved",
   "theorems": [
    "regexp_functions_agree",
    "regexp_replace_prefix_refuted",
    "flags_last_wins",
    "flags_letters"
   ],
   "note": "For every matcher whose spans lie inside the text; start position and occurrence >= 1. The replace-all form drops the text before the start position (refutation theorem)."
  },
  {
   "property": "C46",
   "status": "proved",
   "theorems": [
    "json_contains_path_one_all",
    "json_contains_null_member_refuted"
   ],
   "note": "The refuted theorem records that a member with value null counts as absent."
  },
  {
   "property": "C47",
   "status": "proved",
   "theorems": [
    "json_depth_levels",
    "json_length_keys",
    "json_object_last"
   ],
   "note": ""
  },
  {
   "property": "C48",
   "status": "proved",
   "theorems": [
    "text_interval_hms",
    "text_interval_short_refuted"
   ],
   "note": "Other text forms (h:m, fractions) deviate from SQL: refuted theorem."
  },
  {
   "property": "C49",
   "status": "proved",
   "theorems": [
    "timestampdiff_fixed_units"
   ],
   "note": ""
  },
  {
   "property": "C50",
   "status": "proved",
   "theorems": [
    "weekday_cycle",
    "dayofyear_counts"
   ],
   "note": "For all dates of the supported calendar."
  },
  {
   "property": "C51",
   "status": "proved",
   "theorems": [
    "distinct_rows"
   ],
   "note": ""
  },
  {
   "property": "C52",
   "status": "proved",
   "theorems": [
    "literal_meaning",
    "literal_unique",
    "literal_characters",
    "literal_unchanged",
    "literal_round_trip"
   ],
   "note": "Relative to the table of Unicode names."
  },
  {
   "property": "C53",
   "status": "proved",
   "theorems": [
    "constant_values",
    "variable_constant"
   ],
   "note": "For all constants; the parsing of the digits is the external parser's."
  },
  {
   "property": "C54",
   "status": "proved",
   "theorems": [
    "insert_values_rows",
    "insert_values_exact",
    "insert_too_many_values",
    "insert_column_type"
   ],
   "note": "Type conversions are the external package's."
  },
  {
   "property": "C55",
   "status": "proved",
   "theorems": [
    "extension_of_name",
    "driver_of_name",
    "driver_of_url",
    "file_last_wins",
    "files_correct_iff"
   ],
   "note": ""
  },
  {
   "property": "C56",
   "status": "proved",
   "theorems": [
    "compilation_ends",
    "no_right_returns",
    "on_applied_as_written"
   ],
   "note": ""
  },
  {
   "property": "C57",
   "status": "proved",
   "theorems": [
    "having_filters"
   ],
   "note": ""
  },
  {
   "property": "C58",
   "status": "partial",
   "theorems": [
    "having_unknown_column",
    "having_in_unknown_refuted"
   ],
   "note": "Proved for every position the compiler looks at; the items of an IN list are not checked (refuted). Outermost function calls and CASE not modelled."
  },
  {
   "property": "C59",
   "status": "proved",
   "theorems": [
    "group_query_correct",
    "whole_table_one_row"
   ],
   "note": "For rows whose groups can be aggregated (integers for SUM, no NULL in AVG, comparable values for MIN and MAX). Grouping by the external package is a trusted reading; joins and several-argument aggregates not modelled."
  },
  {
   "property": "C60",
   "status": "proved",
   "theorems": [
    "group_query_correct",
    "distinct_only_in_count"
   ],
   "note": ""
  },
  {
   "property": "C61",
   "status": "proved",
   "theorems": [
    "with_correct",
    "with_exact"
   ],
   "note": "For every WITH list over arbitrary queries and nestings; with_exact gives the effect on any tables. WITH inside subqueries not modelled; appending on 'use I' is the external package's (trusted reading)."
  },
  {
   "property": "C62",
   "status": "proved",
   "theorems": [
    "subquery_settings",
    "explain_settings",
    "at_in_names_refuted"
   ],
   "note": "Proved for every tree of subqueries whose names do not begin with @ and of which siblings are not each other's name followed by @ (generated names have this form; the condition is shown to be needed), every session and all settings except @primary_order, which the compiler itself sets between subqueries. EXPLAIN: @verbose must be present in the session, which it is by default. '@batch'/'@loop' of a WITH subquery reading its own output not modelled."
  },
  {
   "property": "C63",
   "status": "proved",
   "theorems": [
    "plain_subquery_correct",
    "subquery_rejected"
   ],
   "note": "How the package's loader matches rows by key is a trusted reading; the agreement of its equality with = on the compared values is a hypothesis. Nested subqueries, ORDER BY, DISTINCT, HAVING inside the subquery not modelled."
  },
  {
   "property": "C64",
   "status": "proved",
   "theorems": [
    "aggregate_subquery_correct"
   ],
   "note": "Same readings as C63."
  },
  {
   "property": "C65",
   "status": "proved",
   "theorems": [
    "file_exit_zero",
    "file_exit_error",
    "pipe_exit_zero",
    "pipe_exit_error",
    "other_file_refused",
    "pipe_unquoted",
    "pipe_not_quoted"
   ],
   "note": "Exit codes in both directions for every behaviour of the statements. File reading and splitting are arguments of the model; logging and signals not modelled."
  },
  {
   "property": "C66",
   "status": "proved",
   "theorems": [
    "prompt_commands_independent"
   ],
   "note": "For every sequence of inputs, provided a statement that fails to start queues nothing (as in all taskers; the nested start of SET is the last thing it does). Effects on the outside world are an arbitrary state."
  },
  {
   "property": "C67",
   "status": "proved",
   "theorems": [
    "select_list_columns",
    "select_list_distinct",
    "select_list_refused"
   ],
   "note": "For every select list (constants, columns, expressions, aggregates, stars of subqueries) and FROM clause; what an item is computed from is kept symbolically, its evaluation is the subject of C33, C34, C59. Window functions not modelled."
  },
  {
   "property": "C68",
   "status": "partial",
   "theorems": [
    "star_over_table",
    "select_list_refused",
    "every_item_has_a_column_refuted",
    "item_before_star_refuted"
   ],
   "note": "Refuted: of two items with one name only the last is kept, without an error; a star over a table drops everything before it. Characterised: a star over a table always gives all columns of the table or an error (star_over_table), unknown tables are refused (select_list_refused); with different names nothing is lost (select_list_distinct, C67)."
  },
  {
   "property": "C69",
   "status": "proved",
   "theorems": [
    "result_key",
    "result_key_in_result"
   ],
   "note": "For every select list and FROM clause of the model. That <pk> is only recognised after a type is C70; the key by which the source is read: C82."
  },
  {
   "property": "C70",
   "status": "proved",
   "theorems": [
    "annotated_column",
    "plain_column",
    "conversions_applied",
    "conversions_many"
   ],
   "note": "What a filter does is external. conversions_many characterises three and more."
  },
  {
   "property": "C71",
   "status": "proved",
   "theorems": [
    "memory_tables",
    "push_one_row"
   ],
   "note": "For every history of calls on a new engine; the memory database of the external package is read as rows in order of insertion. Contexts and module: C83."
  },
  {
   "property": "C72",
   "status": "proved",
   "theorems": [
    "closed_engine",
    "close_twice"
   ],
   "note": "For every history before close()."
  },
  {
   "property": "C73",
   "status": "proved",
   "theorems": [
    "split_matches_spec"
   ],
   "note": "Other comments: see C129."
  },
  {
   "property": "C74",
   "status": "partial",
   "theorems": [
    "variable_roundtrip",
    "bare_lookup_refuted"
   ],
   "note": "Within the API both names are one variable (variable_roundtrip); everywhere else a value stored by the API under '@name' is not found by its bare name (refuted)."
  },
  {
   "property": "C75",
   "status": "proved",
   "theorems": [
    "concat_ws_correct"
   ],
   "note": ""
  },
  {
   "property": "C76",
   "status": "proved",
   "theorems": [
    "elt_inside",
    "substring_index_positive",
    "cut_exists"
   ],
   "note": ""
  },
  {
   "property": "C77",
   "status": "proved",
   "theorems": [
    "nth_value_positive",
    "nth_value_default",
    "rank_code_exact",
    "rank_without_ties",
    "ntile_nonpositive",
    "ntile_even"
   ],
   "note": ""
  },
  {
   "property": "C78",
   "status": "partial",
   "theorems": [
    "batch_is_sequential",
    "leftovers_run_next",
    "batch_is_sequential_refuted",
    "abandoned_statement_refuted"
   ],
   "note": "Holds for independent statements only: all statements are started before any is run (refuted otherwise), and statements left over by a failure are run by the next script (leftovers_run_next, refuted)."
  },
  {
   "property": "C79",
   "status": "proved",
   "theorems": [
    "sec_time_roundtrip"
   ],
   "note": ""
  },
  {
   "property": "C80",
   "status": "partial",
   "theorems": [
    "constant_values",
    "minus_ignored_refuted",
    "bit_literal_refuted"
   ],
   "note": "A minus sign before numbers is right; directly before a variable, text, boolean or hexadecimal literal that stands alone it is dropped, and bit literals are always NULL (refuted for all)."
  },
  {
   "property": "C81",
   "status": "partial",
   "theorems": [
    "pipe_without_arguments_refuted"
   ],
   "note": "Refuted for every such script: it is started, never run, and the process exits with 1."
  },
  {
   "property": "C82",
   "status": "partial",
   "theorems": [
    "source_key_marked",
    "source_key_of_source_refuted"
   ],
   "note": "The key is the marked columns, even when they belong to a joined table (refuted)."
  },
  {
   "property": "C83",
   "status": "partial",
   "theorems": [
    "push_elsewhere_refuted",
    "database_first_use",
    "database_kept",
    "database_current_refuted",
    "terminal_works_iff",
    "terminal_refuted",
    "context_terminal_works"
   ],
   "note": "Refuted: push_memory_datas on a context or of the module calls a method that does not exist; a database once used keeps its first configuration; terminal() of the engine or the module fails in a thread that never entered a context and inside a context (it works exactly in threads that entered and left one; ExecuterContext.terminal works)."
  },
  {
   "property": "C84",
   "status": "proved",
   "theorems": [
    "base64_roundtrip",
    "to_base64_standard"
   ],
   "note": "For every text; Python's codec and base64 modules are modelled in full (trusted reading)."
  },
  {
   "property": "C85",
   "status": "proved",
   "theorems": [
    "hex_text"
   ],
   "note": "For every non-empty text. UNHEX returns bytes; the empty text and numbers: C86."
  },
  {
   "property": "C86",
   "status": "proved",
   "theorems": [
    "bin_hex_digits",
    "oct_digits"
   ],
   "note": ""
  },
  {
   "property": "C87",
   "status": "proved",
   "theorems": [
    "char_ord",
    "ascii_single"
   ],
   "note": ""
  },
  {
   "property": "C88",
   "status": "proved",
   "theorems": [
    "is_ip_iff"
   ],
   "note": "For every value and every notion of address."
  },
  {
   "property": "C89",
   "status": "partial",
   "theorems": [
    "crc32_refuted",
    "inet_refuted"
   ],
   "note": "Refuted for every value: CRC32 of a text is NULL, and INET_NTOA of what INET_ATON returns is NULL."
  },
  {
   "property": "C90",
   "status": "proved",
   "theorems": [
    "script_reads_first",
    "script_sequential"
   ],
   "note": ""
  },
  {
   "property": "C91",
   "status": "proved",
   "theorems": [
    "one_by_one_sequential"
   ],
   "note": "For every sequence of statements and every state."
  },
  {
   "property": "C92",
   "status": "proved",
   "theorems": [
    "execute_own_variables",
    "execute_leaves_no_trace"
   ],
   "note": "For every file and nesting, and every script around it."
  },
  {
   "property": "C93",
   "status": "proved",
   "theorems": [
    "one_by_one_sequential"
   ],
   "note": "For statements submitted one by one."
  },
  {
   "property": "C94",
   "status": "proved",
   "theorems": [
    "settings_latest"
   ],
   "note": "For all files, fuel (depth of the recursion) and settings outside databases and executes (C97, C98). Non-empty built-in defaults are applied again after the files, as the statement's list shows. Defaults assumed well formed, with an empty or absent list of extended files."
  },
  {
   "property": "C95",
   "status": "partial",
   "theorems": [
    "agreed_settings_in_any_order",
    "working_directory_wins_refuted"
   ],
   "note": "Refuted: the files are iterated from a Python set, so either may win; proved that settings on which the files agree do not depend on the order."
  },
  {
   "property": "C96",
   "status": "proved",
   "theorems": [
    "circle_never_loaded",
    "circle_reached_never_loaded",
    "loading_ends"
   ],
   "note": ""
  },
  {
   "property": "C97",
   "status": "proved",
   "theorems": [
    "initial_files_in_order",
    "missing_initial_file"
   ],
   "note": ""
  },
  {
   "property": "C98",
   "status": "proved",
   "theorems": [
    "databases_exactly"
   ],
   "note": ""
  },
  {
   "property": "C99",
   "status": "partial",
   "theorems": [
    "databases_exactly",
    "own_formats_win_refuted"
   ],
   "note": "Refuted: for textline, json and csv databases the global encoding and formats replace those of the database; exact characterisation in databases_exactly."
  }
 ]
}