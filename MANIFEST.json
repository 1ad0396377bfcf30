{
 "claims": [
  {
   "property": "C01",
   "status": "proved",
   "theorems": [
    "C01_json_value_preserved",
    "C01_json_value_unique"
   ],
   "note": "every value, every layout; unambiguous grammar"
  },
  {
   "property": "C02",
   "status": "proved",
   "theorems": [
    "C02_json_unsafe_tail_corrupts",
    "C02_json_control_corrupts"
   ],
   "note": "each clause of the side condition of C01 is necessary"
  },
  {
   "property": "C03",
   "status": "proved",
   "theorems": [
    "C03_json_only_deletes"
   ],
   "note": ""
  },
  {
   "property": "C04",
   "status": "proved",
   "theorems": [
    "C04_json_output_clean"
   ],
   "note": ""
  },
  {
   "property": "C05",
   "status": "proved",
   "theorems": [
    "C05_json_idempotent",
    "C05_json_not_idempotent_refuted"
   ],
   "note": ""
  },
  {
   "property": "C06",
   "status": "proved",
   "theorems": [
    "C06_json_write_display",
    "C06_css_write_display",
    "C06_js_write_display",
    "C06_js_write_accept",
    "C06_js_write_near_prefix",
    "C06_js_write_prefix",
    "C06_js_write_prefix_refuted"
   ],
   "note": "for JavaScript the prefix part holds up to the flags of a regex"
  },
  {
   "property": "C07",
   "status": "proved",
   "theorems": [
    "C07_streaming_equals_batch_ascii"
   ],
   "note": ""
  },
  {
   "property": "C08",
   "status": "proved",
   "theorems": [
    "C08_streaming_exact",
    "C08_streaming_exact_any_source",
    "C08_streaming_equals_batch_aligned",
    "C08_straddling_character_lost_refuted"
   ],
   "note": ""
  },
  {
   "property": "C09",
   "status": "proved",
   "theorems": [
    "C09_short_read_ends_stream",
    "C09_short_read_content",
    "C09_segmented_source_truncated_refuted"
   ],
   "note": ""
  },
  {
   "property": "C10",
   "status": "proved",
   "theorems": [
    "C10_decoding_exact",
    "C10_decoding_total_unique"
   ],
   "note": ""
  },
  {
   "property": "C11",
   "status": "proved",
   "theorems": [
    "C11_empty_buffer_inert",
    "C11_end_of_stream_sticky"
   ],
   "note": ""
  },
  {
   "property": "C12",
   "status": "proved",
   "theorems": [
    "C12_panic_iff_first_char_fails",
    "C12_after_error_end",
    "C12_good_source_never_fails"
   ],
   "note": ""
  },
  {
   "property": "C13",
   "status": "proved",
   "theorems": [
    "C13_css_total"
   ],
   "note": ""
  },
  {
   "property": "C14",
   "status": "proved",
   "theorems": [
    "C14_css_errors",
    "C14_css_accepts"
   ],
   "note": ""
  },
  {
   "property": "C15",
   "status": "proved",
   "theorems": [
    "C15_css_items",
    "C15_css_layout"
   ],
   "note": "for every source without the three unsafe layouts (regular), each of which is shown unsafe in C16"
  },
  {
   "property": "C16",
   "status": "proved",
   "theorems": [
    "C16_css_slash_star_equal",
    "C16_css_blank_before_escape",
    "C16_css_escape_in_at_keyword"
   ],
   "note": ""
  },
  {
   "property": "C17",
   "status": "proved",
   "theorems": [
    "C17_css_licences"
   ],
   "note": "for regular sources, see C15"
  },
  {
   "property": "C18",
   "status": "proved",
   "theorems": [
    "C18_css_again",
    "C18_css_iterate"
   ],
   "note": ""
  },
  {
   "property": "C19",
   "status": "proved",
   "theorems": [
    "C19_css_not_idempotent",
    "C19_css_can_grow",
    "C19_css_bound"
   ],
   "note": ""
  },
  {
   "property": "C20",
   "status": "proved",
   "theorems": [
    "C20_css_word_gap",
    "C20_css_gap_close_open",
    "C20_css_gap_bracket",
    "C20_css_gap_selector_star",
    "C20_css_gap_star_selector",
    "C20_css_gap_pseudo",
    "C20_css_gap_declaration_paren",
    "C20_css_gap_at_keyword",
    "C20_css_gap_at_head_paren",
    "C20_css_gap_calc",
    "C20_css_gap_sign_equal",
    "C20_css_gap_equal_refuted",
    "C20_css_dropped_blanks"
   ],
   "note": "the gap theorems cover the seven lists of preserved blanks; C20_css_dropped_blanks the witnesses"
  },
  {
   "property": "C21",
   "status": "proved",
   "theorems": [
    "C21_tokenize_terminates",
    "C21_minify_terminates"
   ],
   "note": ""
  },
  {
   "property": "C22",
   "status": "proved",
   "theorems": [
    "C22_panic_only_if",
    "C22_line_comment_panics",
    "C22_block_comment_panics",
    "C22_appended_panics",
    "C22_regex_panics",
    "C22_no_slash_no_panic",
    "C22_read_no_panic"
   ],
   "note": ""
  },
  {
   "property": "C23",
   "status": "proved",
   "theorems": [
    "C23_lexes",
    "C23_tiles",
    "C23_lossless",
    "C23_licenses",
    "C23_regexes",
    "C23_unclosed_refuted"
   ],
   "note": ""
  },
  {
   "property": "C24",
   "status": "proved",
   "theorems": [
    "C24_comment_leaks",
    "C24_appended_leaks",
    "C24_comment_minified"
   ],
   "note": ""
  },
  {
   "property": "C25",
   "status": "proved",
   "theorems": [
    "C25_only_error",
    "C25_rejected",
    "C25_only_rejected",
    "C25_accepted",
    "C25_nested"
   ],
   "note": ""
  },
  {
   "property": "C26",
   "status": "proved",
   "theorems": [
    "C26_clean_tokens",
    "C26_clean_again"
   ],
   "note": ""
  },
  {
   "property": "C27",
   "status": "proved",
   "theorems": [
    "C27_clean_tokens_except"
   ],
   "note": "the callback is a pure function of the token"
  },
  {
   "property": "C28",
   "status": "proved",
   "theorems": [
    "C28_clean_token",
    "C28_clean_token_except"
   ],
   "note": ""
  },
  {
   "property": "C29",
   "status": "proved",
   "theorems": [
    "C29_replace_tokens_with",
    "C29_length"
   ],
   "note": ""
  },
  {
   "property": "C30",
   "status": "proved",
   "theorems": [
    "C30_print",
    "C30_words_apart"
   ],
   "note": ""
  },
  {
   "property": "C31",
   "status": "proved",
   "theorems": [
    "C31_glue_refuted",
    "C31_plus_plus",
    "C31_number_word",
    "C31_number_dot",
    "C31_created_variable"
   ],
   "note": ""
  },
  {
   "property": "C32",
   "status": "proved",
   "theorems": [
    "C32_keywords",
    "C32_keyword_list",
    "C32_chars",
    "C32_operators",
    "C32_css_chars",
    "C32_css_operators"
   ],
   "note": ""
  },
  {
   "property": "C33",
   "status": "proved",
   "theorems": [
    "C33_variable_positions",
    "C33_in_bounds"
   ],
   "note": ""
  },
  {
   "property": "C34",
   "status": "proved",
   "theorems": [
    "C34_names_distinct",
    "C34_names_shape",
    "C34_names_complete"
   ],
   "note": ""
  },
  {
   "property": "C49",
   "status": "proved",
   "theorems": [
    "C49_words",
    "C49_source",
    "C49_integers"
   ],
   "note": "64-bit usize"
  },
  {
   "property": "C50",
   "status": "proved",
   "theorems": [
    "C50_every_source",
    "C50_no_slash"
   ],
   "note": "after a regular expression that does not end and has a dot, backtick or backslash on its line, only termination (C21) and the error (C25) are claimed"
  },
  {
   "property": "C35",
   "status": "proved",
   "theorems": [
    "C35_aggregate_strings",
    "C35_with_separation",
    "C35_no_literal",
    "C35_meaning_refuted"
   ],
   "note": "for every iteration order of the hash maps"
  },
  {
   "property": "C36",
   "status": "proved",
   "theorems": [
    "C36_fresh_names",
    "C36_clash_refuted"
   ],
   "note": ""
  },
  {
   "property": "C37",
   "status": "proved",
   "theorems": [
    "C37_only_if_pays",
    "C37_shorter_refuted"
   ],
   "note": "the claim of the documentation is refuted"
  },
  {
   "property": "C38",
   "status": "proved",
   "theorems": [
    "C38_new_array",
    "C38_quoted",
    "C38_filter",
    "C38_elements",
    "C38_unquoted_refuted"
   ],
   "note": "string tokens with two one-byte delimiters, as the tokenizer makes them; the filter is a pure function of the tokens and the position"
  },
  {
   "property": "C39",
   "status": "proved",
   "theorems": [
    "C39_existing_array",
    "C39_array_found",
    "C39_other_elements_refuted",
    "C39_twice_refuted"
   ],
   "note": "for arrays of literals; no let/var where the name, equal sign or value of a declaration is expected"
  },
  {
   "property": "C40",
   "status": "proved",
   "theorems": [
    "C40_variables",
    "C40_array"
   ],
   "note": ""
  },
  {
   "property": "C41",
   "status": "proved",
   "theorems": [
    "C41_double_quotes",
    "C41_single_quotes",
    "C41_requoted_refuted"
   ],
   "note": ""
  },
  {
   "property": "C42",
   "status": "proved",
   "theorems": [
    "C42_comments",
    "C42_no_comment",
    "C42_idempotent"
   ],
   "note": ""
  },
  {
   "property": "C43",
   "status": "proved",
   "theorems": [
    "C43_only_drops",
    "C43_nothing_to_drop",
    "C43_document",
    "C43_all_gone_refuted"
   ],
   "note": ""
  },
  {
   "property": "C44",
   "status": "proved",
   "theorems": [
    "C44_preformatted",
    "C44_squeezed",
    "C44_shape",
    "C44_script_lines_refuted"
   ],
   "note": "assumes only that no character outside ASCII has a letter of pre or textarea in its lower case"
  },
  {
   "property": "C45",
   "status": "proved",
   "theorems": [
    "C45_minify",
    "C45_output",
    "C45_idempotent_refuted"
   ],
   "note": "same assumption as C44"
  },
  {
   "property": "C51",
   "status": "proved",
   "theorems": [
    "C51_attributes",
    "C51_attributes_tidy",
    "C51_other_attribute_refuted",
    "C51_white_space_refuted"
   ],
   "note": ""
  },
  {
   "property": "C52",
   "status": "proved",
   "theorems": [
    "C52_type",
    "C52_elsewhere",
    "C52_module_refuted"
   ],
   "note": ""
  },
  {
   "property": "C53",
   "status": "proved",
   "theorems": [
    "C53_html_size"
   ],
   "note": "same assumption as C44"
  },
  {
   "property": "C46",
   "status": "proved",
   "theorems": [
    "C46_type",
    "C46_option",
    "C46_no_type",
    "C46_renamed",
    "C46_never_input"
   ],
   "note": "clap's own parsing is not modelled; paths are Unix byte strings, the file system has no links."
  },
  {
   "property": "C47",
   "status": "proved",
   "theorems": [
    "C47_effect",
    "C47_writes",
    "C47_new_directories",
    "C47_missing",
    "C47_others",
    "C47_batch",
    "C47_last"
   ],
   "note": "For any minifier, permissions and write failures; println! and eprintln! are taken to succeed."
  },
  {
   "property": "C48",
   "status": "proved",
   "theorems": [
    "C48_truncated",
    "C48_source_lost",
    "C48_stops",
    "C48_unreadable_content",
    "C48_no_directories",
    "C48_json",
    "C48_css"
   ],
   "note": "JS failures are those of C22 and C25."
  },
  {
   "property": "C54",
   "status": "proved",
   "theorems": [
    "C54_read_back",
    "C54_blanks",
    "C54_idempotent",
    "C54_closed",
    "C54_glued_refuted",
    "C54_idempotent_refuted"
   ],
   "note": "Token level: JavaScript's own ++ and -- (C31) and automatic semicolons are outside."
  },
  {
   "property": "C55",
   "status": "proved",
   "theorems": [
    "C55_size",
    "C55_not_longer",
    "C55_longer"
   ],
   "note": ""
  },
  {
   "property": "C56",
   "status": "proved",
   "theorems": [
    "C56_recognised",
    "C56_appended",
    "C56_kept",
    "C56_not_recognised",
    "C56_damaged"
   ],
   "note": ""
  },
  {
   "property": "C57",
   "status": "proved",
   "theorems": [
    "C57_division",
    "C57_division_equal",
    "C57_refuted"
   ],
   "note": "tokens are the pieces of the lexical specification"
  },
  {
   "property": "C58",
   "status": "proved",
   "theorems": [
    "C58_css_after_punctuation",
    "C58_css_blanks_after_punctuation",
    "C58_css_after_equal",
    "C58_css_before_punctuation",
    "C58_css_start",
    "C58_css_one_blank",
    "C58_refuted"
   ],
   "note": ""
  },
  {
   "property": "C59",
   "status": "proved",
   "theorems": [
    "C59_tokens",
    "C59_gap",
    "C59_closed",
    "C59_line_breaks_refuted",
    "C59_carriage_return_refuted"
   ],
   "note": ""
  },
  {
   "property": "C60",
   "status": "proved",
   "theorems": [
    "C60_line_ends",
    "C60_one_line",
    "C60_regex_refuted"
   ],
   "note": ""
  },
  {
   "property": "C61",
   "status": "proved",
   "theorems": [
    "C61_css_tame",
    "C61_css_adjacent",
    "C61_refuted"
   ],
   "note": ""
  },
  {
   "property": "C62",
   "status": "proved",
   "theorems": [
    "C62_css_syntax",
    "C62_refuted"
   ],
   "note": "tokens after CSS Syntax Module Level 3, written as an independent specification"
  },
  {
   "property": "C63",
   "status": "proved",
   "theorems": [
    "C63_es_tokens",
    "C63_parts",
    "C63_untidy_refuted"
   ],
   "note": "tokens after ECMA-262, written as an independent specification"
  },
  {
   "property": "C64",
   "status": "proved",
   "theorems": [
    "C64_read_back",
    "C64_clean_first",
    "C64_beside_words_refuted",
    "C64_directive_refuted"
   ],
   "note": "the domain is decidable on the tokens of the minified source"
  },
  {
   "property": "C65",
   "status": "proved",
   "theorems": [
    "C65_read_back",
    "C65_clean_first",
    "C65_failures_refuted",
    "C65_clash_refuted"
   ],
   "note": "the domain is decidable on the tokens of the minified source, apart from the bound 2^64 on its length"
  },
  {
   "property": "C66",
   "status": "proved",
   "theorems": [
    "C66_html_reads",
    "C66_preformatted",
    "C66_slash_refuted",
    "C66_value_refuted",
    "C66_blanks_refuted"
   ],
   "note": "tokens after the WHATWG HTML standard, 13.2.5, without its error handling; same assumption as C44"
  },
  {
   "property": "C67",
   "status": "proved",
   "theorems": [
    "C67_html_idempotent",
    "C67_html_kept",
    "C67_lines_refuted",
    "C67_preformatted_refuted"
   ],
   "note": "same class of documents and assumption as C66"
  },
  {
   "property": "C68",
   "status": "proved",
   "theorems": [
    "C68_css_settles",
    "C68_css_steady",
    "C68_colon_comment_refuted",
    "C68_two_runs_needed",
    "C68_steady_refuted"
   ],
   "note": "the domains are stated on the pieces of the source text"
  },
  {
   "property": "C69",
   "status": "proved",
   "theorems": [
    "C69_json_document",
    "C69_json_first_strings",
    "C69_json_value_kept",
    "C69_json_no_blanks",
    "C69_json_invalid_refuted"
   ],
   "note": "same grammar as C01"
  },
  {
   "property": "C70",
   "status": "proved",
   "theorems": [
    "C70_js_plain",
    "C70_js_plain_source",
    "C70_js_plain_output",
    "C70_js_plain_layout",
    "C70_apart_refuted",
    "C70_pieces_refuted"
   ],
   "note": "plain programs and the expected text are defined on tokens of ECMA-262, without reference to the tokenizer of the crate"
  },
  {
   "property": "C71",
   "status": "proved",
   "theorems": [
    "C71_css_plain",
    "C71_css_plain_layout",
    "C71_gaps_refuted"
   ],
   "note": "plain sheets and the expected text are defined on parts, without reference to the tokenizer of the crate"
  },
  {
   "property": "C72",
   "status": "proved",
   "theorems": [
    "C72_html_plain",
    "C72_html_plain_comments",
    "C72_html_kept",
    "C72_kept_or_not",
    "C72_double_refuted",
    "C72_unsafe_refuted",
    "C72_preformatted_refuted",
    "C72_blanks_refuted"
   ],
   "note": "the expected text is computed from the parts of the standard's tokenizer by HtmlPlainSpec.compact (compact_kept with an element that keeps white space), without regular expressions"
  },
  {
   "property": "C73",
   "status": "proved",
   "theorems": [
    "C73_css_rules",
    "C73_css_rules_again",
    "C73_css_rules_told",
    "C73_one_reading",
    "C73_descendant_refuted",
    "C73_any_refuted",
    "C73_function_refuted",
    "C73_layouts_refuted",
    "C73_address_refuted",
    "C73_nested_refuted",
    "C73_at_rule_refuted",
    "C73_escape_refuted"
   ],
   "note": "rules, layouts and the canonical text are defined in CssRulesSpec, without the tokenizer of the crate; escapes and nested at-rules are not in the form"
  },
  {
   "property": "C74",
   "status": "proved",
   "theorems": [
    "C74_js_tree",
    "C74_js_tree_apart",
    "C74_js_lines",
    "C74_unambiguous",
    "C74_semicolon_refuted",
    "C74_apart_refuted"
   ],
   "note": "the grammar (a relation between trees and tokens) and the parser are defined in JsTreeSpec, without the tokenizer of the crate; early errors are not checked"
  },
  {
   "property": "C75",
   "status": "proved",
   "theorems": [
    "C75_html_tree",
    "C75_is_tree",
    "C75_table_refuted",
    "C75_body_refuted",
    "C75_option_refuted",
    "C75_bodies_refuted"
   ],
   "note": "tree construction after the WHATWG HTML standard, 13.2.6, without its error handling, in HtmlTreeSpec; same assumption as C44"
  },
  {
   "property": "C76",
   "status": "proved",
   "theorems": [
    "C76_tree",
    "C76_clean_first",
    "C76_nothing_repeated",
    "C76_keys_refuted",
    "C76_directives_refuted"
   ],
   "note": "grammar, parser and replacement of literals in trees are in JsTreeSpec and JsAggTreeSpec"
  },
  {
   "property": "C77",
   "status": "proved",
   "theorems": [
    "C77_tree",
    "C77_clean_first",
    "C77_elements",
    "C77_nothing_repeated",
    "C77_keys_refuted",
    "C77_quotes_refuted",
    "C77_templates_refuted"
   ],
   "note": "the array, its indices and the replacement of literals are in JsArrTreeSpec; the programs have at most 2^64 tokens, as any program in memory has"
  }
 ]
}