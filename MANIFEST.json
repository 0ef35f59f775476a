{
 "claims": [
  {
   "property": "C01",
   "status": "proved",
   "theorems": [
    "C01_tokenizer_answers_iff",
    "C01_shipped_dialects",
    "C01_unclosed_never_leaves_loop",
    "C01_loop_summary_exact",
    "C01_tokenizer_always_answers_refuted"
   ],
   "note": "The universal statement is false of the code (refuted by a witness); the exact set of inputs on which the tokenizer answers is proved, with a step model of the endless loop."
  },
  {
   "property": "C02",
   "status": "proved",
   "theorems": [
    "C02_lossless",
    "C02_complete"
   ],
   "note": "Both directions: the tokens are exactly the lexemes of the source slices, and every decomposition into lexemes is what the tokenizer returns."
  },
  {
   "property": "C03",
   "status": "proved",
   "theorems": [
    "C03_positions_tile"
   ],
   "note": ""
  },
  {
   "property": "C04",
   "status": "proved",
   "theorems": [
    "C04_true_positions",
    "C04_true_positions_refuted"
   ],
   "note": "True positions for the stated class; each restriction shown necessary by a witness."
  },
  {
   "property": "C05",
   "status": "proved",
   "theorems": [
    "C05_string_decoding",
    "C05_nstring_decoding",
    "C05_unclosed_is_error"
   ],
   "note": ""
  },
  {
   "property": "C06",
   "status": "proved",
   "theorems": [
    "C06_words",
    "C06_keyword_folding"
   ],
   "note": ""
  },
  {
   "property": "C07",
   "status": "proved",
   "theorems": [
    "C07_line_comment",
    "C07_block_comment_text",
    "C07_block_comment_refuted"
   ],
   "note": "Line comments verbatim. Block comments: the statement is false (refuted); the exact class of bodies reported verbatim is proved (iff)."
  },
  {
   "property": "C08",
   "status": "proved",
   "theorems": [
    "C08_errors_exact"
   ],
   "note": ""
  },
  {
   "property": "C09",
   "status": "proved",
   "theorems": [
    "C09_disable_comments_filters"
   ],
   "note": ""
  },
  {
   "property": "C10",
   "status": "proved",
   "theorems": [
    "C10_mysql_generic",
    "C10_postgres_generic",
    "C10_exclusions_needed"
   ],
   "note": ""
  },
  {
   "property": "C11",
   "status": "proved",
   "theorems": [
    "C11_compare_pos",
    "C11_compare_pos_trans",
    "C11_reading_order"
   ],
   "note": ""
  },
  {
   "property": "C12",
   "status": "proved",
   "theorems": [
    "C12_methods_terminate",
    "C12_source_hangs_iff",
    "C12_file_hangs_iff",
    "C12_tokenizer_delivers"
   ],
   "note": "All public methods, all parser states; the budget of the model (recursion and loops) is proved sufficient and immaterial. On source text, hanging is characterised exactly."
  },
  {
   "property": "C13",
   "status": "proved",
   "theorems": [
    "C13_blank_tokens_insignificant",
    "C13_blank_text_insignificant",
    "C13_whitespace_text_insignificant"
   ],
   "note": "Token level for all states; source level for any blanks and comments inserted at a token boundary."
  },
  {
   "property": "C14",
   "status": "proved",
   "theorems": [
    "C14_comments_do_not_change_parse"
   ],
   "note": "All sources of a dialect with dialect_ok."
  },
  {
   "property": "C15",
   "status": "proved",
   "theorems": [
    "C15_positions_erased",
    "C15_positions_copied"
   ],
   "note": "Non-interference and the sharper transport form (positions are copied from tokens)."
  },
  {
   "property": "C16",
   "status": "proved",
   "theorems": [
    "C16_case_of_words_insignificant",
    "C16_case_of_text_insignificant",
    "C16_shipped_dialects"
   ],
   "note": "Token level and source level; ASCII case only. Non-ASCII letters that Go's upper-casing maps to ASCII are part of the keyword value, see C06/C24."
  },
  {
   "property": "C17",
   "status": "proved",
   "theorems": [
    "C17_shipped_dialects",
    "C17_expressions",
    "C17_data_types",
    "C17_statements",
    "C17_scripts",
    "C17_script_files",
    "C17_file_text_refuted",
    "C17_unwritable_refuted"
   ],
   "note": "For every tree of the independently specified class wf_* (Render.v), of any depth: ParseExpr, ParseDataType, ParseStatement, ParseSQL and ParseFile on the printed text give the tree back up to positions with all tokens consumed. The text of a File is shown to be rejected for every non-empty list of readable statements (no semicolons are printed). C17_unwritable_refuted shows trees outside the readable class that are read differently."
  },
  {
   "property": "C18",
   "status": "proved",
   "theorems": [
    "C18_expressions",
    "C18_data_types",
    "C18_statements",
    "C18_scripts",
    "C18_script_files",
    "C18_same_text",
    "C18_fixed_point",
    "C18_quotes_refuted",
    "C18_integral_refuted",
    "C18_arguments_refuted",
    "C18_default_refuted",
    "C18_create_refuted",
    "C18_endings_refuted"
   ],
   "note": "Every tree read from a text whose nodes avoid the printer's defects (StableSpec.clean, one line per defect class) is read back from its own text as the same tree up to positions: expressions, data types, statements that may end a text, and whole scripts through ParseSQL and ParseFile; the printed form is a fixed point. C18_*_refuted give an accepted text for each excluded class."
  },
  {
   "property": "C19",
   "status": "proved",
   "theorems": [
    "C19_expression_text",
    "C19_precedence",
    "C19_statement_precedence",
    "C19_file_precedence",
    "C19_unambiguous",
    "C19_subexpression_text"
   ],
   "note": "Every accepted expression is its tree written out, maximal, with the precedence table's binding at all depths; the tree is the only one bound that way. Negated forms (NOT IN, NOT BETWEEN, NOT LIKE) bind at NOT's level, as coded."
  },
  {
   "property": "C20",
   "status": "proved",
   "theorems": [
    "C20_set_precedence",
    "C20_file_set_precedence",
    "C20_unambiguous"
   ],
   "note": "Same for set operators."
  },
  {
   "property": "C21",
   "status": "proved",
   "theorems": [
    "C21_statements_in_order",
    "C21_success_means_closed",
    "C21_success_means_all_read"
   ],
   "note": "Statements without inner semicolons (the grammar has none)."
  },
  {
   "property": "C22",
   "status": "proved",
   "theorems": [
    "C22_statement_text",
    "C22_file_text",
    "C22_no_loss",
    "C22_no_loss_refuted",
    "C22_acceptance_refuted"
   ],
   "note": "The universal statement is false of the code (refuted by ten pairs of texts). Proved instead: an accepted text is its tree written out up to twelve named defects, each needing a place in the text that triggers it; a text that meets a condition on its tokens (safe: parentheses closed, no such place) is read without loss."
  },
  {
   "property": "C23",
   "status": "proved",
   "theorems": [
    "C23_errors_not_panics_refuted",
    "C23_failed_assertion_only_in_ddl",
    "C23_expressions_never_fail_an_assertion",
    "C23_data_types_never_fail_an_assertion",
    "C23_no_nil_dereference_before_semicolon",
    "C23_no_nil_dereference_in_closed_list"
   ],
   "note": "Refuted as stated (three witnesses); the panics that remain possible are characterised by the positive theorems."
  },
  {
   "property": "C24",
   "status": "proved",
   "theorems": [
    "C24_quoted_is_identifier_refuted",
    "C24_quoted_from_clause_refuted",
    "C24_quoted_identifier"
   ],
   "note": "Refuted as stated (a quoted NULL is the null value; a quoted FROM starts a FROM clause). Positive part: as an expression a quoted identifier is that identifier unless it spells one of seven keywords."
  },
  {
   "property": "C25",
   "status": "proved",
   "theorems": [
    "C25_integer_exact",
    "C25_integer_saturates",
    "C25_integer_reread",
    "C25_negative_printed"
   ],
   "note": "All digit strings."
  },
  {
   "property": "C26",
   "status": "proved",
   "theorems": [
    "C26_decimal_literal",
    "C26_fraction_reread",
    "C26_reread",
    "C26_type_kept_refuted",
    "C26_value_kept_refuted"
   ],
   "note": "Literals denote the nearest binary64 number or overflow to an error. Re-reading printed text: refuted for integral values (type and, from 2^53 on, value); proved for all others."
  },
  {
   "property": "C27",
   "status": "proved",
   "theorems": [
    "C27_string_safe",
    "C27_string_reread",
    "C27_national_string_reread",
    "C27_quote_unsafe",
    "C27_injection_refuted"
   ],
   "note": "Safe exactly for the values without a quote; an injection is exhibited for the others."
  },
  {
   "property": "C28",
   "status": "proved",
   "theorems": [
    "C28_comments_once_in_order"
   ],
   "note": "All accepted sources; the result does not depend on the iteration order of Go's map."
  },
  {
   "property": "C29",
   "status": "proved",
   "theorems": [
    "C29_every_group_once",
    "C29_nil_iff_no_comments"
   ],
   "note": "For every file: whenever a map is returned each group has exactly one place and order is kept; nil exactly for files without comments."
  },
  {
   "property": "C30",
   "status": "proved",
   "theorems": [
    "C30_parsed_positions",
    "C30_parsed_comment_map",
    "C30_positions_iff",
    "C30_comment_map_total",
    "C30_parsed_total_refuted"
   ],
   "note": "The universal statement is refuted; the sound class is characterised for all trees and, exactly, for all parsed files."
  },
  {
   "property": "C31",
   "status": "proved",
   "theorems": [
    "C31_walk_calls"
   ],
   "note": "Walk with any stateful visitor makes exactly the calls of the independent trace relation; a panic stops it at the first accepted nil or unknown node."
  },
  {
   "property": "C32",
   "status": "proved",
   "theorems": [
    "C32_visits_reached",
    "C32_fields_passed_on_or_hidden",
    "C32_complete",
    "C32_refuted"
   ],
   "note": "The statement is false as coded: C32_refuted gives the hidden parts (CASE branches, USING columns, table options, custom types). Proved: exactly the reached nodes are visited, once each in preorder; fields = passed on + hidden; complete when nothing is hidden."
  },
  {
   "property": "C33",
   "status": "proved",
   "theorems": [
    "C33_rejecting_nil",
    "C33_accepting_all"
   ],
   "note": "Callbacks rejecting nil never panic; accepting everything panics exactly on CASE without operand or UPDATE without WHERE. Holds for all trees, so for parsed ones."
  },
  {
   "property": "C34",
   "status": "proved",
   "theorems": [
    "C34_tree_unchanged",
    "C34_like_walk",
    "C34_using_panics"
   ],
   "note": "C34_tree_unchanged, C34_like_walk and C34_using_panics; callbacks change the tree only through the cursor; memory model in Apply.v."
  },
  {
   "property": "C35",
   "status": "proved",
   "theorems": [
    "C35_list_edits",
    "C35_delete_first_refuted"
   ],
   "note": "C35_list_edits for all callbacks whose log is orderly (on one element only InsertBefore may follow Delete), including nested edits, visits, order, abort and panics. C35_delete_first_refuted shows that the condition is needed."
  },
  {
   "property": "C36",
   "status": "proved",
   "theorems": [
    "C36_write_to"
   ],
   "note": "All write-operation trees (hence all ASTs) and all writers obeying the io.Writer contract."
  },
  {
   "property": "C37",
   "status": "proved",
   "theorems": [
    "C37_history_independent",
    "C37_progress"
   ],
   "note": "All public methods and all states."
  },
  {
   "property": "C38",
   "status": "proved",
   "theorems": [
    "C38_expression_extents",
    "C38_file_extents",
    "C38_extents_refuted"
   ],
   "note": "For all sub-expressions of accepted expressions and files, in the stated class; refuted for subqueries (ends swapped), IS NULL, ::, OVER."
  },
  {
   "property": "C39",
   "status": "proved",
   "theorems": [
    "C39_result",
    "C39_query_cursor_refuted"
   ],
   "note": "Truthfulness of the cursor is part of C35_list_edits (truthful); C39_result is the returned node; C39_query_cursor_refuted the exception."
  },
  {
   "property": "C40",
   "status": "proved",
   "theorems": [
    "C40_positions_not_printed"
   ],
   "note": "For every map of positions the text of expressions, types, queries, statements and files is unchanged."
  },
  {
   "property": "C41",
   "status": "proved",
   "theorems": [
    "C41_expressions",
    "C41_data_types",
    "C41_statements",
    "C41_scripts",
    "C41_script_files",
    "C41_layout_free"
   ],
   "note": "For every readable tree (wf_*, Render.v) and every text that spells its tokens (any blanks, comments, letter case). By naturality in positions and letter case (C15, C16) and the reading of the written form (C17)."
  },
  {
   "property": "C42",
   "status": "proved",
   "theorems": [
    "C42_expressions",
    "C42_data_types",
    "C42_statements",
    "C42_any_tree_refuted"
   ],
   "note": "Injective on readable trees up to positions; C42_any_tree_refuted shows collisions with trees outside the class."
  },
  {
   "property": "C43",
   "status": "proved",
   "theorems": [
    "C43_rule",
    "C43_parsed_files_in_order",
    "C43_comment_above"
   ],
   "note": "C43_rule for all files with comments in order (parsed files: C43_parsed_files_in_order), by a loop invariant that follows the stack of open nodes; C43_comment_above for groups on their own lines."
  },
  {
   "property": "C44",
   "status": "proved",
   "theorems": [
    "C44_file",
    "C44_statement",
    "C44_nested",
    "C44_in_order",
    "C44_starts_refuted",
    "C44_ends_refuted",
    "C44_limit_offset"
   ],
   "note": "C44_file and C44_statement for nodes of every kind, relative to the grammar of C22; C44_nested, C44_in_order; C44_starts_refuted and C44_ends_refuted show parsed statements outside the class whose positions are wrong."
  },
  {
   "property": "C45",
   "status": "proved",
   "theorems": [
    "C45_calls",
    "C45_text",
    "C45_looked_at"
   ],
   "note": "A cost semantics of the parser programs and a calculus of budgets walked through every parser function; transferred to both token readers. The work of the tokenizer and of the backward scan for comment groups is not counted."
  },
  {
   "property": "C46",
   "status": "proved",
   "theorems": [
    "C46_join",
    "C46_join_all",
    "C46_cut",
    "C46_join_semicolon_refuted",
    "C46_join_newline_refuted",
    "C46_join_mark_refuted",
    "C46_bare_text_refuted"
   ],
   "note": "Joining texts and cutting a script into statements, at the level of source text. The conditions on the second text (no byte order mark, no leading semicolon) and the new line are shown to be needed."
  },
  {
   "property": "C47",
   "status": "proved",
   "theorems": [
    "C47_read",
    "C47_written",
    "C47_scripts",
    "C47_scalars",
    "C47_kept",
    "C47_any_bytes",
    "C47_word_width",
    "C47_other_encodings_refuted"
   ],
   "note": "UTF-8 decoding and encoding as the parser and printer use them, against the definition in the Unicode standard; the byte version of the round trip. Other encodings are accepted and garbled (refuted)."
  },
  {
   "property": "C48",
   "status": "proved",
   "theorems": [
    "C48_strings",
    "C48_words",
    "C48_fractions",
    "C48_integers_refuted",
    "C48_iso",
    "C48_reread",
    "C48_iso_texts"
   ],
   "note": "Strings, booleans, NULL and fractions end to end; refuted for integers (Value returns the node). Date and time literals print in ISO form and are proved to be read as a subtraction or an hour, for every valid date and time."
  },
  {
   "property": "C49",
   "status": "proved",
   "theorems": [
    "C49_statement",
    "C49_script",
    "C49_other_words",
    "C49_copy",
    "C49_quoted_refuted"
   ],
   "note": "Statement and script; the converse for other first words, and CopyStmt."
  },
  {
   "property": "C50",
   "status": "proved",
   "theorems": [
    "C50_answers",
    "C50_whole_text",
    "C50_resume",
    "C50_positions_refuted"
   ],
   "note": "Any number of calls, errors included. True positions are not restored after an error (refuted)."
  },
  {
   "property": "C51",
   "status": "proved",
   "theorems": [
    "C51_every_character",
    "C51_first_characters",
    "C51_shipped",
    "C51_differences"
   ],
   "note": "All entry points; strings, comments and quoted names are free of the condition. C51_differences shows that each of @ $ _ and the backquote is needed."
  },
  {
   "property": "C52",
   "status": "proved",
   "theorems": [
    "C52_nodes",
    "C52_characters",
    "C52_finite",
    "C52_depth",
    "C52_walk",
    "C52_statement",
    "C52_expression"
   ],
   "note": "Files, statements and expressions; all visitors. The bound counts every node held by a field, not only those that Walk visits."
  },
  {
   "property": "C53",
   "status": "proved",
   "theorems": [
    "C53_methods",
    "C53_texts",
    "C53_expressions",
    "C53_data_types",
    "C53_statements",
    "C53_scripts",
    "C53_instead",
    "C53_vocabulary_exact",
    "C53_quoted_refuted"
   ],
   "note": "All four methods and all renamings that respect the vocabulary; the vocabulary is shown to be the least one. C53_quoted_refuted shows that quoted keywords are not names for this parser."
  },
  {
   "property": "C54",
   "status": "proved",
   "theorems": [
    "C54_lookahead",
    "C54_expression_one_less_refuted",
    "C54_data_type_one_less_refuted",
    "C54_statement_one_less_refuted"
   ],
   "note": "All three methods, every parser state and every continuation; the bounds are shown to be exact by the refuted variants with one token less."
  },
  {
   "property": "C55",
   "status": "proved",
   "theorems": [
    "C55_fill",
    "C55_fill_texts",
    "C55_values",
    "C55_bare_refuted",
    "C55_select_refuted",
    "C55_incomplete_refuted",
    "C55_not_fresh_refuted"
   ],
   "note": "Token lists (C55_fill), texts (C55_fill_texts) and string values (C55_values); the refuted variants show that each condition is needed."
  },
  {
   "property": "C56",
   "status": "proved",
   "theorems": [
    "C56_wrap",
    "C56_plain_refuted"
   ],
   "note": "All expressions; queries inside an expression have to be writable as they are (C17)."
  },
  {
   "property": "C57",
   "status": "proved",
   "theorems": [
    "C57_graft",
    "C57_graft_texts",
    "C57_graft_files",
    "C57_select_with_refuted",
    "C57_short_refuted",
    "C57_not_fresh_refuted",
    "C57_incomplete_refuted"
   ],
   "note": "The template has to be read beyond the parentheses, which ParseSQL always does; four refuted companions show that each condition is needed."
  },
  {
   "property": "C58",
   "status": "proved",
   "theorems": [
    "C58_scripts",
    "C58_script_files",
    "C58_expressions",
    "C58_style_free"
   ],
   "note": "Acceptance as well as meaning: a parser that stops reading one of the spellings violates it. Number spellings (leading zeros) are not among the choices."
  },
  {
   "property": "C59",
   "status": "proved",
   "theorems": [
    "C59_pieces",
    "C59_same_bytes",
    "C59_scanner",
    "C59_failure",
    "C59_errors_reported_refuted",
    "C59_errors_end_the_text_refuted"
   ],
   "note": "The claim on pieces is proved (C59_pieces, C59_same_bytes, C59_scanner). The claim on errors is false of the code and refuted (C59_errors_reported_refuted); C59_failure says what happens instead: an error between two characters is the end of the text, so DELETE FROM t, then an error, is an accepted DELETE."
  },
  {
   "property": "C60",
   "status": "proved",
   "theorems": [
    "C60_fixed_point",
    "C60_crashes",
    "C60_message_refuted"
   ],
   "note": "The fixed point is proved. The claim on errors is false of the code and refuted (C60_message_refuted): NewParser's error is dropped, so every lexical error is a nil dereference; C60_crashes says exactly when the command crashes."
  },
  {
   "property": "C61",
   "status": "proved",
   "theorems": [
    "C61_trees",
    "C61_expressions",
    "C61_texts",
    "C61_source",
    "C61_one_line_each",
    "C61_one_line_refuted"
   ],
   "note": "Proved for trees (C61_trees, C61_expressions) and parsed texts (C61_texts, C61_source, C61_one_line_each). The claim without the condition on strings is refuted (C61_one_line_refuted): newlines in strings are printed as they are."
  },
  {
   "property": "C62",
   "status": "proved",
   "theorems": [
    "C62_texts",
    "C62_characters",
    "C62_statement",
    "C62_expression",
    "C62_no_growth_refuted"
   ],
   "note": "Proved for files (C62_texts, C62_characters) and calls (C62_statement, C62_expression). The claim that texts never get longer is refuted (C62_no_growth_refuted): AS and blanks are added."
  },
  {
   "property": "C63",
   "status": "proved",
   "theorems": [
    "C63_shortest",
    "C63_zero",
    "C63_distinct",
    "C63_never_longer",
    "C63_literal",
    "C63_without_dot_refuted"
   ],
   "note": "Proved (C63_shortest, C63_zero, C63_distinct, C63_never_longer, C63_literal); this also shows that the fallback in the model of strconv.AppendFloat is never used. For numbers written without a dot one more digit is possible (C63_without_dot_refuted)."
  },
  {
   "property": "C64",
   "status": "proved",
   "theorems": [
    "C64_flag_errors",
    "C64_file",
    "C64_private",
    "C64_private_distinct",
    "C64_snake",
    "C64_snake_small",
    "C64_capitals_refuted",
    "C64_same_file_refuted"
   ],
   "note": "Proved: C64_flag_errors, C64_file, C64_private, C64_private_distinct, C64_snake, C64_snake_small. The claim for every name is refuted: C64_capitals_refuted, C64_same_file_refuted."
  },
  {
   "property": "C65",
   "status": "proved",
   "theorems": [
    "C65_kinds",
    "C65_total",
    "C65_distinct",
    "C65_positions",
    "C65_positions_distinct",
    "C65_words",
    "C65_other_quotes_refuted"
   ],
   "note": "Proved: C65_kinds, C65_total, C65_distinct, C65_positions, C65_positions_distinct. Also C65_words. The claim for other quotes is refuted: C65_other_quotes_refuted."
  },
  {
   "property": "C66",
   "status": "proved",
   "theorems": [
    "C66_calls",
    "C66_script",
    "C66_scripts",
    "C66_open_text_refuted",
    "C66_lexical_error_refuted"
   ],
   "note": "C66_calls: the three methods, every outcome. C66_script, C66_scripts: ParseSQL on joined texts. C66_open_text_refuted, C66_lexical_error_refuted: the conditions are needed (a text without its semicolon can be saved by what follows; a lexical error in the second text comes before a panic in the first)."
  },
  {
   "property": "C67",
   "status": "proved",
   "theorems": [
    "C67_tokens",
    "C67_comments_above",
    "C67_empty_lines",
    "C67_script",
    "C67_true_lines_refuted",
    "C67_bom_refuted"
   ],
   "note": "C67_tokens: the tokenizer. C67_comments_above, C67_empty_lines: the four methods. C67_script: ParseSQL, exact trees. C67_true_lines_refuted: the lines counted are not those of the text when strings or quoted names contain line breaks. C67_bom_refuted: the condition on the byte order mark is needed."
  },
  {
   "property": "C68",
   "status": "proved",
   "theorems": [
    "C68_error_iff",
    "C68_says",
    "C68_parser_says",
    "C68_comment_start_refuted",
    "C68_bang_position_refuted"
   ],
   "note": "C68_error_iff, C68_says, C68_parser_says. C68_comment_start_refuted: for comments the position is not that of the comment. C68_bang_position_refuted: an illegal sequence is reported without a position."
  },
  {
   "property": "C69",
   "status": "proved",
   "theorems": [
    "C69_file",
    "C69_no_code_inside",
    "C69_header",
    "C69_behind_code",
    "C69_empty_lines",
    "C69_empty_line_separates_refuted"
   ],
   "note": "C69_file: ParseFile equals ParseSQL plus the groups of the specification. C69_no_code_inside, C69_header, C69_behind_code: what the specification means. C69_empty_lines: moving down. C69_empty_line_separates_refuted: an empty line does not end a group, unlike in Go's comment groups."
  },
  {
   "property": "C70",
   "status": "proved",
   "theorems": [
    "C70_set_tokens",
    "C70_set_tokens_file",
    "C70_any_index",
    "C70_reuse_silent",
    "C70_reuse_comments",
    "C70_reuse_refuted"
   ],
   "note": "C70_set_tokens, C70_set_tokens_file: new parsers; this also shows that the pair of lists used elsewhere is a refinement of slice and index. C70_any_index: used parsers. C70_reuse_silent, C70_reuse_comments: what reuse does. C70_reuse_refuted: a used parser is not a new one, statements are lost without an error."
  },
  {
   "property": "C71",
   "status": "proved",
   "theorems": [
    "C71_looks_back",
    "C71_looked_at"
   ],
   "note": "C71_looks_back: the backward loop. C71_looked_at: all loops together. Completes C45, which does not count the backward loop."
  },
  {
   "property": "C72",
   "status": "proved",
   "theorems": [
    "C72_calls",
    "C72_token",
    "C72_one_ahead",
    "C72_no_lookahead_refuted"
   ],
   "note": "C72_calls: whole texts from readers. C72_token: one token. C72_one_ahead: the character behind it. C72_no_lookahead_refuted: that character is needed."
  },
  {
   "property": "C73",
   "status": "proved",
   "theorems": [
    "C73_no_waiting",
    "C73_last_token_refuted"
   ],
   "note": "C73_no_waiting: all tokens but the last. C73_last_token_refuted: the last one waits."
  },
  {
   "property": "C74",
   "status": "proved",
   "theorems": [
    "C74_names",
    "C74_quoted_refuted",
    "C74_refused_refuted"
   ],
   "note": "C74_names. C74_quoted_refuted: a delimited TRUE is read as the keyword. C74_refused_refuted: a text that is no name may be read as another expression."
  },
  {
   "property": "C75",
   "status": "proved",
   "theorems": [
    "C75_pieces",
    "C75_determined",
    "C75_values_refuted",
    "C75_star_refuted"
   ],
   "note": "C75_pieces, C75_determined. C75_values_refuted: without positions. C75_star_refuted: a star in a block comment is lost."
  },
  {
   "property": "C76",
   "status": "proved",
   "theorems": [
    "C76_forward",
    "C76_semicolon",
    "C76_progress",
    "C76_retry",
    "C76_sql",
    "C76_ok",
    "C76_progress_refuted",
    "C76_skip_refuted"
   ],
   "note": "C76_forward, C76_semicolon, C76_progress, C76_retry, C76_sql (ParseSQL), C76_ok. C76_progress_refuted: a quoted name with a dotless i is never used up. C76_skip_refuted: the rest of a failed statement is read as a statement."
  },
  {
   "property": "C77",
   "status": "proved",
   "theorems": [
    "C77_debug",
    "C77_text",
    "C77_grows",
    "C77_text_refuted"
   ],
   "note": "C77_debug, C77_text, C77_grows. C77_text_refuted: string literals are printed without quotes."
  },
  {
   "property": "C78",
   "status": "proved",
   "theorems": [
    "C78_statement",
    "C78_script",
    "C78_guard",
    "C78_guard_file",
    "C78_guard_word",
    "C78_second",
    "C78_script_second",
    "C78_first_refuted"
   ],
   "note": "C78_statement, C78_script, C78_guard, C78_guard_file, C78_guard_word, C78_second, C78_script_second. C78_first_refuted: EXPLAIN in front of a writing statement, and a quoted keyword."
  },
  {
   "property": "C79",
   "status": "proved",
   "theorems": [
    "C79_statement",
    "C79_script",
    "C79_exact",
    "C79_none",
    "C79_where_refuted"
   ],
   "note": "C79_statement, C79_script, C79_exact, C79_none. C79_where_refuted: a WHERE in a subquery, and a table called where."
  }
 ]
}