{
 "claims": [
  {
   "property": "C01",
   "status": "proved",
   "theorems": [
    "C01_utf8_round_trip"
   ],
   "note": "all code points 0..0x10ffff, any following bytes"
  },
  {
   "property": "C02",
   "status": "partial",
   "theorems": [
    "C02_decode_accepts_ill_formed_refuted",
    "C02_decode_accepts_surrogate_refuted",
    "C02_decode_accepts_too_large_refuted",
    "C02_decode_sound_partial"
   ],
   "note": "false as stated: overlong, surrogate and too large sequences are accepted (refuted by witnesses); the part that holds is proved"
  },
  {
   "property": "C03",
   "status": "proved",
   "theorems": [
    "C03_comment_escaping_reversible",
    "C03_comment_escape_size"
   ],
   "note": "also for texts that already contain the escape character; the asserted buffer size is exact"
  },
  {
   "property": "C04",
   "status": "partial",
   "theorems": [
    "C04_no_double_dash_partial",
    "C04_trailing_dash_refuted"
   ],
   "note": "no double dash is proved; that a trailing dash cannot remain is false (refuted)"
  },
  {
   "property": "C05",
   "status": "proved",
   "theorems": [
    "C05_html_safe",
    "C05_html_injective"
   ],
   "note": "write_safe_html; reading back is specified by html_reads"
  },
  {
   "property": "C06",
   "status": "partial",
   "theorems": [
    "C06_detection_partial",
    "C06_leading_whitespace_partial",
    "C06_detection_reads_past_nul_refuted",
    "C06_detection_depends_on_stop_refuted",
    "C06_html_after_comment_refuted",
    "C06_negative_json_number_refuted"
   ],
   "note": "equal to a specification on the buffer bytes when stop points to a NUL and four more bytes are readable; the reads past the terminator and the missed html/json cases are refuted by witnesses"
  },
  {
   "property": "C07",
   "status": "partial",
   "theorems": [
    "C07_bom_partial",
    "C07_bom_only_refuted"
   ],
   "note": "proved for documents of at least one byte after the mark; a file holding only the mark is not recognised (refuted)"
  },
  {
   "property": "C08",
   "status": "proved",
   "theorems": [
    "C08_stack"
   ],
   "note": "heap model of the linked list; every history of push/pop/rock/size"
  },
  {
   "property": "C09",
   "status": "proved",
   "theorems": [
    "C09_vector"
   ],
   "note": "every history; out of bounds is a distinct outcome that never occurs"
  },
  {
   "property": "C10",
   "status": "proved",
   "theorems": [
    "C10_membuffer",
    "C10_membuffer_new"
   ],
   "note": "every history of appends and drop_last_null"
  },
  {
   "property": "C11",
   "status": "proved",
   "theorems": [
    "C11_hashmap"
   ],
   "note": "any table size > 0, any history of puts of non-NULL values"
  },
  {
   "property": "C12",
   "status": "proved",
   "theorems": [
    "C12_hashmap_iteration"
   ],
   "note": "each key exactly once with its current value; size is the number of distinct keys"
  },
  {
   "property": "C13",
   "status": "proved",
   "theorems": [
    "C13_quicksort"
   ],
   "note": "sorted permutation, all indexes in range"
  },
  {
   "property": "C14",
   "status": "proved",
   "theorems": [
    "C14_category",
    "C14_category_tables",
    "C14_supplementary_never_found_refuted"
   ],
   "note": "for every ascending table and for all tables in text.c; finding: the tables hold no code point above 0xffff"
  },
  {
   "property": "C15",
   "status": "proved",
   "theorems": [
    "C15_tokens_are_the_source",
    "C15_tokens_are_a_prefix"
   ],
   "note": "every source followed by a NUL, every outcome"
  },
  {
   "property": "C16",
   "status": "proved",
   "theorems": [
    "C16_token_positions"
   ],
   "note": "every source, whatever follows it in memory"
  },
  {
   "property": "C17",
   "status": "proved",
   "theorems": [
    "C17_brackets_balanced",
    "C17_never_too_many_closed"
   ],
   "note": "every source followed by a NUL; every prefix of the reported tokens can be completed to a balanced list"
  },
  {
   "property": "C18",
   "status": "partial",
   "theorems": [
    "C18_finishes_or_loops_partial",
    "C18_loops_only_inside_parentheses_partial",
    "C18_plain_sources_terminate_partial",
    "C18_no_parentheses_terminate_partial",
    "C18_tab_in_attributes_refuted",
    "C18_comma_in_attributes_refuted",
    "C18_tab_in_compound_refuted"
   ],
   "note": "false as stated: a tab in parentheses, or a byte that starts no attribute in an attribute list, makes the program loop for ever (refuted); these are proved to be the only cases"
  },
  {
   "property": "C19",
   "status": "partial",
   "theorems": [
    "C19_reads_only_the_buffer_partial",
    "C19_reads_with_one_more_byte_partial",
    "C19_missing_value_reads_past_nul_refuted",
    "C19_bracket_first_reads_before_start_refuted"
   ],
   "note": "false as stated: a value missing at the end reads past the NUL, a leading bracket reads before the start (refuted); these are proved to be the only cases"
  },
  {
   "property": "C20",
   "status": "partial",
   "theorems": [
    "C20_independent_of_following_bytes_partial",
    "C20_byte_after_stop_refuted",
    "C20_comment_before_star_refuted"
   ],
   "note": "false as stated: the byte at stop is read and may become part of a token (refuted); proved when the byte at stop is a NUL"
  },
  {
   "property": "C21",
   "status": "partial",
   "theorems": [
    "C21_unquoting_stays_inside_partial",
    "C21_output_fits",
    "C21_trimming_terminates",
    "C21_lone_carriage_return_refuted"
   ],
   "note": "proved for texts without carriage return; output size and termination proved for every input; refuted for a lone carriage return, where the trimming reads past the end"
  },
  {
   "property": "C22",
   "status": "proved",
   "theorems": [
    "C22_single_line_verbatim"
   ],
   "note": "any number of quotes, any column; a carriage return counts as a newline, and the text has no NUL"
  },
  {
   "property": "C23",
   "status": "partial",
   "theorems": [
    "C23_value_is_text_block_partial",
    "C23_moving_right_keeps_value_partial",
    "C23_blank_lines_do_not_matter_partial"
   ],
   "note": "texts without carriage return and NUL; equal to the independent specification text_block, invariant under indentation"
  },
  {
   "property": "C24",
   "status": "proved",
   "theorems": [
    "C24_quotes_delimit_text"
   ],
   "note": "every non-empty text, every printer state, every parser level"
  },
  {
   "property": "C25",
   "status": "proved",
   "theorems": [
    "C25_slashes_delimit_comment"
   ],
   "note": "every text with a newline, compact or not; what follows must not start with a slash or asterisk (an asterisk would continue the comment)"
  },
  {
   "property": "C26",
   "status": "partial",
   "theorems": [
    "C26_quote_is_value_partial",
    "C26_compact_quote_partial",
    "C26_only_quotes_refuted",
    "C26_tabs_refuted",
    "C26_three_quotes_refuted",
    "C26_stray_byte_refuted"
   ],
   "note": "false as stated: texts of quotes only, tabs and spaces only, three quotes in a row, continuation bytes of utf8 after a space or tab (refuted); proved for all other texts"
  },
  {
   "property": "C27",
   "status": "partial",
   "theorems": [
    "C27_compact_round_trip_partial",
    "C27_element_after_semicolon_refuted",
    "C27_element_after_slash_refuted",
    "C27_entity_after_equals_refuted",
    "C27_comment_after_semicolon_refuted",
    "C27_attribute_after_semicolon_refuted",
    "C27_empty_text_first_refuted",
    "C27_comment_end_inside_refuted",
    "C27_comment_space_refuted",
    "C27_comment_newline_refuted",
    "C27_only_quotes_refuted",
    "C27_three_quotes_refuted",
    "C27_stray_byte_refuted",
    "C27_stray_byte_comment_refuted",
    "C27_json_word_refuted"
   ],
   "note": "false as stated: a refutation for each condition of the class of documents for which it is proved"
  },
  {
   "property": "C28",
   "status": "partial",
   "theorems": [
    "C28_quote_at_its_column_partial",
    "C28_value_at_any_indentation_partial",
    "C28_spaces_at_end_of_line_refuted",
    "C28_spaces_at_end_of_frame_refuted",
    "C28_spaces_in_frame_refuted",
    "C28_newline_and_quote_refuted",
    "C28_only_quotes_refuted",
    "C28_only_tabs_refuted",
    "C28_stray_byte_refuted"
   ],
   "note": "texts without spaces at the end of lines, and with a frame that keeps their spaces if they start or end with a quote or contain three; refuted for others"
  },
  {
   "property": "C29",
   "status": "partial",
   "theorems": [
    "C29_stray_byte_comment_refuted",
    "C29_default_round_trip_partial",
    "C29_default_output_denotes_partial",
    "C29_comment_ends_refuted",
    "C29_value_after_tab_refuted",
    "C29_value_after_spaces_refuted",
    "C29_entity_after_equals_refuted",
    "C29_pi_quote_refuted",
    "C29_pi_lines_refuted",
    "C29_empty_text_first_refuted",
    "C29_json_word_refuted"
   ],
   "note": "documents of the class pnodes_ok (Pretty.v); each condition that is not met by a reachable document is shown by a refutation"
  },
  {
   "property": "C30",
   "status": "partial",
   "theorems": [
    "C30_single_line_partial",
    "C30_three_quotes_refuted"
   ],
   "note": "false as stated: three quotes in a row in a text (refuted); proved for all documents without"
  },
  {
   "property": "C31",
   "status": "partial",
   "theorems": [
    "C31_quoting_denotes_text_partial",
    "C31_quoting_fits_its_buffer",
    "C31_unquoting_restores_partial",
    "C31_backslash_is_not_restored_refuted",
    "C31_control_is_not_restored_refuted",
    "C31_bad_utf8_leaves_a_quote_refuted",
    "C31_bad_utf8_reads_behind_the_text_refuted"
   ],
   "note": "UTF-8 texts without NUL: the quoted text denotes the text and no other, has no control character, and fits the buffer; reading it back restores texts without backslashes and without control characters lacking a named escape. Refuted: backslash and other control characters are not restored by xmq_unquote_as_c, invalid UTF-8 can leave a raw quote or read behind the text"
  },
  {
   "property": "C32",
   "status": "partial",
   "theorems": [
    "C32_strings_decoded_partial",
    "C32_decoder_is_total",
    "C32_slash_refuted",
    "C32_surrogates_refuted",
    "C32_unterminated_refuted"
   ],
   "note": "all texts and encodings but escaped slashes and surrogate pairs, for which it is false (refuted); an unterminated string is accepted (refuted)"
  },
  {
   "property": "C33",
   "status": "partial",
   "theorems": [
    "C33_numbers_accepted_partial",
    "C33_whole_numbers_accepted_partial",
    "C33_accepted_texts_partial",
    "C33_zero_exponent_refuted",
    "C33_tab_refuted",
    "C33_leading_zero_refuted",
    "C33_dot_in_exponent_refuted",
    "C33_no_digits_refuted"
   ],
   "note": "all JSON numbers but those starting with 0e are accepted; accepted texts have the characters, signs, dots and exponents of a number. Refuted: 0e5 and numbers before a tab are refused; -01, 1e5.3 and - before a comma are accepted"
  },
  {
   "property": "C34",
   "status": "partial",
   "theorems": [
    "C34_ends_partial",
    "C34_brace_refuted",
    "C34_comma_refuted",
    "C34_abort_refuted"
   ],
   "note": "it ends unless the source ends with a left brace or comma; refuted: these hang, and a missing comma aborts"
  },
  {
   "property": "C35",
   "status": "partial",
   "theorems": [
    "C35_json_round_trip_partial",
    "C35_index_key_refuted",
    "C35_underscore_key_refuted",
    "C35_equal_keys_refuted",
    "C35_not_json_refuted",
    "C35_control_refuted"
   ],
   "note": "false as stated; proved for all values of a class: plain different keys, texts whose characters JSON can print with the escapes used, names as keys of empty containers. Refuted: index suffix, underscore key, equal keys, empty container under other keys and control characters (output is not JSON)"
  },
  {
   "property": "C36",
   "status": "partial",
   "theorems": [
    "C36_tokens_unchanged",
    "C36_document_unchanged_partial",
    "C36_many_places_partial",
    "C36_single_lines_partial",
    "C36_next_line_keeps_columns",
    "C36_column_of_lines_refuted"
   ],
   "note": "Proved for all sources and places between tokens: the tokens apart from white space are unchanged. The document is unchanged when quotes and comments of more than one line keep their columns and the values have no carriage returns; refuted without that."
  },
  {
   "property": "C37",
   "status": "partial",
   "theorems": [
    "C37_character_entity_partial",
    "C37_number_wraps_refuted",
    "C37_number_too_large_aborts_refuted"
   ],
   "note": "proved for all numbers of characters 1..0x10ffff, in values, attributes and content; larger numbers wrap around or abort (refuted)"
  },
  {
   "property": "C38",
   "status": "partial",
   "theorems": [
    "C38_trimming_settles_partial",
    "C38_trimming_is_idempotent_partial",
    "C38_document_partial",
    "C38_indentation_is_lost_refuted",
    "C38_blank_lines_refuted"
   ],
   "note": "false as stated: an indented block loses its shape in the second pass, blank lines are lost one by one (refuted); proved for texts that start on the first line with at most one blank line at the end, and that repeated trimming always comes to an end"
  },
  {
   "property": "C39",
   "status": "partial",
   "theorems": [
    "C39_implicit_root_partial",
    "C39_one_top_element_partial",
    "C39_second_element_refuted",
    "C39_comment_first_refuted"
   ],
   "note": "the document with an implicit root is characterised for every source that is read; false as stated when a comment or text comes first or the first element is called like the root (refuted)"
  },
  {
   "property": "C40",
   "status": "proved",
   "theorems": [
    "C40_collapse_fits_its_buffer",
    "C40_texts_are_joined",
    "C40_ampersand_lost"
   ],
   "note": "every list of children; what is written can be cut short by a NUL for unknown entities (shown)"
  },
  {
   "property": "C41",
   "status": "partial",
   "theorems": [
    "C41_index_suffix_partial",
    "C41_no_digits_refuted"
   ],
   "note": "false as stated for empty brackets, which are removed too (refuted); exact otherwise"
  },
  {
   "property": "C42",
   "status": "partial",
   "theorems": [
    "C42_default_printing_is_stable_partial",
    "C42_compact_printing_is_stable_partial"
   ],
   "note": "compact output, for the documents of C27; default output, for the documents of C29"
  },
  {
   "property": "C43",
   "status": "partial",
   "theorems": [
    "C43_error_place_partial",
    "C43_lost_value_without_place_refuted"
   ],
   "note": "false as stated: the place of a lost value may be a NULL pointer (refuted); proved for every other error"
  },
  {
   "property": "C44",
   "status": "proved",
   "theorems": [
    "C44_display_width"
   ],
   "note": ""
  },
  {
   "property": "C45",
   "status": "partial",
   "theorems": [
    "C45_line_agrees_partial",
    "C45_column_differs_refuted",
    "C45_bad_utf8_aborts_refuted"
   ],
   "note": "line always agrees, column agrees on the first line; on later lines the column is one less (refuted), invalid UTF-8 aborts (refuted)"
  },
  {
   "property": "C46",
   "status": "proved",
   "theorems": [
    "C46_source_read_as_denoted",
    "C46_json_word_is_refused",
    "C46_meaning_is_unique"
   ],
   "note": "without any assumption on content detection, except for the three json words, which are refused; the grammar leaves out namespaces, carriage returns inside quotes and comments, quoted doctypes"
  },
  {
   "property": "C47",
   "status": "proved",
   "theorems": [
    "C47_only_whitespace_is_removed",
    "C47_words_are_kept",
    "C47_trimmed_text"
   ],
   "note": "texts without carriage return and NUL"
  },
  {
   "property": "C48",
   "status": "partial",
   "theorems": [
    "C48_fields_read_back_partial",
    "C48_single_text_read_back_partial",
    "C48_log_read_back_partial",
    "C48_one_line",
    "C48_long_text_refuted",
    "C48_quotes_refuted",
    "C48_human_readable_refuted"
   ],
   "note": "one line for all texts; read back for texts that C26 restores and that are shorter than 1024 bytes. Refuted: longer texts use the arguments twice, texts of quotes only are not restored, human readable lines keep newlines and do not separate fields"
  },
  {
   "property": "C49",
   "status": "partial",
   "theorems": [
    "C49_same_tokens",
    "C49_same_document_partial",
    "C49_all_lines_partial",
    "C49_source_read_as_denoted",
    "C49_quote_value",
    "C49_content_type_refuted",
    "C49_other_carriage_returns_refuted"
   ],
   "note": "tokens, lines, columns and errors for all sources; the document for sources without other carriage returns and without NUL that are taken for xmq. Refuted: a json word alone on its line is json with a newline and xmq with a carriage return and a newline; before a newline one carriage return is dropped, two are not"
  },
  {
   "property": "C50",
   "status": "partial",
   "theorems": [
    "C50_bound_partial",
    "C50_default_leaks_refuted",
    "C50_default_redeclared_refuted",
    "C50_prefix_redeclared_refuted",
    "C50_value_of_other_attribute_refuted",
    "C50_compound_refuted",
    "C50_without_namespaces",
    "C50_errors_without_namespaces"
   ],
   "note": "Proved for all documents with one root where no prefix is declared again inside the scope of a declaration for it and only the root declares a default namespace; sources without namespaces give the document of the model without them. Refuted otherwise: a default namespace leaks to later siblings, a redeclared one does not apply to its own element, a valueless declaration takes the value of a later attribute, compound and entity values are misplaced"
  },
  {
   "property": "C51",
   "status": "partial",
   "theorems": [
    "C51_structure",
    "C51_joined_exists",
    "C51_joined_text",
    "C51_instruction_refuted",
    "C51_names_partial",
    "C51_names_without_default",
    "C51_prefix_refuted"
   ],
   "note": "Names, their order and number for all sources, and no prefix is changed or added; structure, attributes (with prefixes), values and texts for sources whose declarations have a text or quote as value, except where a processing instruction has attributes or children (refuted there). Refuted: an empty default namespace takes the prefix from the element"
  },
  {
   "property": "C52",
   "status": "partial",
   "theorems": [
    "C52_token_order",
    "C52_token_order_before_error",
    "C52_token_order_while_running",
    "C52_key_before_equals_refuted"
   ],
   "note": "Order and texts of the callbacks for all sources, runs and errors, and keys are followed by their values. Refuted: a name before an equals sign is reported as a name instead of a key when a no-break space comes between"
  },
  {
   "property": "C53",
   "status": "proved",
   "theorems": [
    "C53_only_xmq_is_accepted",
    "C53_only_xmq_is_reported"
   ],
   "note": "For a source followed by a zero byte"
  },
  {
   "property": "C54",
   "status": "partial",
   "theorems": [
    "C54_file_whole",
    "C54_file_size",
    "C54_file_safe",
    "C54_pipe_refuted",
    "C54_file_loads",
    "C54_stdin_whole",
    "C54_stdin_loads",
    "C54_file_document",
    "C54_stdin_document",
    "C54_short_file",
    "C54_stdin_error_refuted"
   ],
   "note": "All contents and schedules of reads for a file with a size; loaded bytes give the document of the buffer. Refuted for a file without positions (a pipe given by name): ftell is -1 and the first block overruns the buffer; a failing read of the standard input leaves no error number"
  },
  {
   "property": "C55",
   "status": "partial",
   "theorems": [
    "C55_plain_output",
    "C55_plain",
    "C55_terminal",
    "C55_html",
    "C55_tex",
    "C55_terminal_refuted",
    "C55_html_stray_refuted",
    "C55_tex_percent_refuted",
    "C55_tex_backslash_refuted"
   ],
   "note": "All documents, layouts and colors for terminals (output without escape bytes), html (no stray continuation byte after an escaped character) and tex (without the characters that tex needs escaped and that are not). Refuted outside of these conditions"
  },
  {
   "property": "C56",
   "status": "partial",
   "theorems": [
    "C56_terminal",
    "C56_html",
    "C56_html_error",
    "C56_terminal_error",
    "C56_plain_writes_nothing",
    "C56_tex_refuted"
   ],
   "note": "All sources and colors, with and without errors: html for all bytes with closed tags, terminals for sources without escape bytes. Refuted: nothing is written without colors, braces are lost in tex"
  },
  {
   "property": "C57",
   "status": "partial",
   "theorems": [
    "C57_html_nested",
    "C57_html_nested_lines",
    "C57_html_nested_refuted"
   ],
   "note": "All documents in which no run of newlines stands alone in a text (next to nothing but references), and no newline is in a doctype or processing instruction. Refuted: the tag of a text of newlines only is never closed"
  },
  {
   "property": "C58",
   "status": "partial",
   "theorems": [
    "C58_source_read_as_written_partial",
    "C58_extends_the_plain_grammar",
    "C58_undeclared_refuted",
    "C58_default_below_root_refuted",
    "C58_prefix_redeclared_refuted"
   ],
   "note": "Proved for all texts of the grammar with namespaces in which every prefix is declared, none again inside of its scope, and only the root declares a default namespace; the order of declarations is not told. Refuted outside of these conditions"
  },
  {
   "property": "C59",
   "status": "partial",
   "theorems": [
    "C59_compact_round_trip_partial",
    "C59_read_documents_are_well_placed",
    "C59_escaped_uri_refuted",
    "C59_quoted_uri_refuted",
    "C59_uri_with_newline_refuted",
    "C59_uri_semicolon_refuted",
    "C59_prefix_redeclared_refuted"
   ],
   "note": "Proved for all documents whose names, values and URIs are separated in the output and whose URIs need no escape, with prefixes declared and not declared again; documents that are read under C58 are of this kind as to their scopes. Refuted: URIs that need an escape, that contain a newline or end with a semicolon, and redeclared prefixes"
  },
  {
   "property": "C60",
   "status": "partial",
   "theorems": [
    "C60_grammar_describes_its_texts_partial",
    "C60_empty_group_refuted",
    "C60_long_set_refuted",
    "C60_comment_hangs_refuted",
    "C60_asserts_refuted",
    "C60_refused_refuted",
    "C60_accepted_refuted",
    "C60_error_name_refuted",
    "C60_second_use_refuted"
   ],
   "note": "Proved for every grammar that is written as in IxmlSpec.v, with repetitions and options of factors that are not empty, sets whose names fit the buffer, and no rule named error; ends at the rules handed to yaep; C77 goes on through the parser. Refuted: empty groups, long sets, asserts, a hang, a second use of the grammar"
  },
  {
   "property": "C61",
   "status": "partial",
   "theorems": [
    "C61_document_follows_marks_partial",
    "C61_items_of_described_texts",
    "C61_grammars_can_be_written",
    "C61_group_attribute_refuted",
    "C61_optional_string_refuted",
    "C61_marked_set_refuted",
    "C61_repeated_set_refuted",
    "C61_second_alternative_alias_refuted",
    "C61_nonterminal_alias_refuted",
    "C61_insertion_in_attribute_refuted",
    "C61_unwritten_mark_refuted",
    "C61_top_text_refuted"
   ],
   "note": "Proved for every tree that yaep can return, for grammars of C60 whose marks and aliases are kept by the reader (marks_ok), no insertions in attributes and one element at the top; that yaep returns such a tree: C79 and C80. Refuted: optional and repeated groups, strings and sets after a mark, marked sets, aliases of later alternatives and of uses, insertions in attributes, terminal marks that are not written"
  },
  {
   "property": "C62",
   "status": "partial",
   "theorems": [
    "C62_each_value_has_a_line_partial",
    "C62_lines_are_unambiguous",
    "C62_lines_tell_the_entries_partial",
    "C62_reference_is_lost_refuted",
    "C62_predefined_reference_refuted",
    "C62_reference_in_attribute_refuted",
    "C62_siblings_refuted"
   ],
   "note": "Proved for all documents without references to entities whose texts are UTF-8; the entries can be read back if no name has a slash or an equals sign or starts with an at sign. Refuted: references are left out or are undefined behaviour"
  },
  {
   "property": "C63",
   "status": "partial",
   "theorems": [
    "C63_text_is_kept_partial",
    "C63_text_through_xmq_partial",
    "C63_reference_refuted",
    "C63_nul_refuted"
   ],
   "note": "Proved for all texts without NUL; through compact xmq for the texts of C27. Refuted: NUL, references"
  },
  {
   "property": "C64",
   "status": "partial",
   "theorems": [
    "C64_int_partial",
    "C64_long_partial",
    "C64_attribute_partial",
    "C64_string_partial",
    "C64_every_integer",
    "C64_source_to_number_partial",
    "C64_foreach",
    "C64_leading_zero_refuted",
    "C64_hex_refuted",
    "C64_range_refuted",
    "C64_first_child_refuted",
    "C64_comment_refuted"
   ],
   "note": "Proved for all integers in range, in decimal without needless zeros, octal after 0 and hexadecimal after 0x, followed by anything that is not a letter or digit. Refuted: needless zeros, signs before 0x, out of range, comments or entities before or in the value. xmqGetDouble is not modelled"
  },
  {
   "property": "C65",
   "status": "partial",
   "theorems": [
    "C65_delete_partial",
    "C65_delete_keeps_elements",
    "C65_replace_with_text_partial",
    "C65_replace_with_node_partial",
    "C65_delete_attribute_refuted",
    "C65_top_reference_refuted",
    "C65_no_element_refuted",
    "C65_node_in_attribute_refuted",
    "C65_texts_not_joined_refuted",
    "C65_substitute_does_nothing_refuted",
    "C65_add_root"
   ],
   "note": "Proved for references below an element at the top and outside of attributes (text replacement also in attributes); refuted for references in attributes (delete), at the top (use after free), without a root, and for substitute of named entities"
  },
  {
   "property": "C66",
   "status": "proved",
   "theorems": [
    "C66_statistics"
   ],
   "note": "All counters, for all documents"
  },
  {
   "property": "C67",
   "status": "partial",
   "theorems": [
    "C67_value_partial",
    "C67_prepared",
    "C67_command_is_fixed",
    "C67_only_plain_names",
    "C67_variables_partial",
    "C67_same_plain_refuted",
    "C67_old_variable_refuted",
    "C67_references_refuted",
    "C67_inner_text_refuted",
    "C67_outside_refuted"
   ],
   "note": "Proved for all commands: the command does not depend on the document, only plain names are defined, and what lines are added. That a variable has its value only for plain names that were not in the environment, without references; refuted otherwise. The fork and the shell are not modelled"
  },
  {
   "property": "C68",
   "status": "partial",
   "theorems": [
    "C68_inside_partial",
    "C68_at_line_start_partial",
    "C68_down_partial",
    "C68_up_partial",
    "C68_long_line_refuted",
    "C68_end_refuted",
    "C68_read_behind_refuted",
    "C68_empty_first_line_refuted"
   ],
   "note": "Invariant proved for all keys, given a readable byte behind the text and, for the end key, 100 bytes; movement on lines that fit. Refuted: long lines, the end key on short texts, reads behind the text, an empty first line. What is shown is not modelled"
  },
  {
   "property": "C69",
   "status": "partial",
   "theorems": [
    "C69_delete_partial",
    "C69_select_partial",
    "C69_select_nested_partial",
    "C69_order_refuted",
    "C69_nested_refuted",
    "C69_two_attributes_refuted",
    "C69_outside_refuted"
   ],
   "note": "delete: proved for all selections in which what is in a node comes after it (the order of the document). select: what is given is proved, each node without the selected nodes in it, for elements and texts; the order and completeness are refuted, as are two attributes of an element (use after free)"
  },
  {
   "property": "C70",
   "status": "partial",
   "theorems": [
    "C70_agrees_partial",
    "C70_same_partial",
    "C70_comments_partial",
    "C70_lost_refuted",
    "C70_name_refuted",
    "C70_twice_refuted"
   ],
   "note": "Proved for all documents without references in style and script, and with such references to the entities of xml and to ascii numbers; refuted for others. That libxml2 reads what it has written is assumed"
  },
  {
   "property": "C71",
   "status": "partial",
   "theorems": [
    "C71_notation_is_read",
    "C71_what_is_read",
    "C71_refused",
    "C71_reads_inside",
    "C71_reads_inside_refuted",
    "C71_unknown_mark_refuted",
    "C71_terminal",
    "C71_terminal_unreadable",
    "C71_terminal_unreadable_refuted",
    "C71_commands_fit",
    "C71_theme_on_a_terminal",
    "C71_default_themes",
    "C71_html",
    "C71_html_read_again",
    "C71_theme_in_html",
    "C71_html_reported_refuted",
    "C71_tex",
    "C71_tex_style",
    "C71_tex_theme_refuted",
    "C71_pre_tag",
    "C71_pre_tag_refuted"
   ],
   "note": "Proved for all colours, marks, themes, names and for all texts that do not end with an underscore; refuted: texts that do, unknown marks, the dark theme in tex, long ids"
  },
  {
   "property": "C72",
   "status": "partial",
   "theorems": [
    "C72_read",
    "C72_refused",
    "C72_read_or_refused",
    "C72_ixml",
    "C72_detected_is_asked",
    "C72_text",
    "C72_text_with_zero_refuted",
    "C72_htmq_refuted",
    "C72_clines_refuted",
    "C72_utf16_refuted",
    "C72_negative_number_refuted",
    "C72_xmq_document",
    "C72_file",
    "C72_file_cannot_read",
    "C72_empty_root"
   ],
   "note": "Proved for xmq, xml, html, json, ixml, text and detection, whatever the readers of xml, html, json and ixml do; refuted for htmq, c-lines, utf-16 and texts with zeros"
  },
  {
   "property": "C73",
   "status": "proved",
   "theorems": [
    "C73_analysis"
   ],
   "note": "For every grammar that is taken"
  },
  {
   "property": "C74",
   "status": "proved",
   "theorems": [
    "C74_ends",
    "C74_taken",
    "C74_taken_strict",
    "C74_reported",
    "C74_names",
    "C74_same_texts",
    "C74_loops_only",
    "C74_named_loop_refuted",
    "C74_no_text_refuted",
    "C74_second_start_refuted"
   ],
   "note": "Exact conditions in both modes; refuted: the name in the message about a loop, grammars without texts are taken, a second rule $S"
  },
  {
   "property": "C75",
   "status": "proved",
   "theorems": [
    "C75_ends",
    "C75_taken_is_text",
    "C75_no_tree",
    "C75_before_error",
    "C75_exact",
    "C75_error_place",
    "C75_all_texts_refuted"
   ],
   "note": "Taken texts are texts of the grammar without a condition; the converse and the exact place of errors if no rule starts with two symbols that can be empty before a third, refuted otherwise"
  },
  {
   "property": "C76",
   "status": "proved",
   "theorems": [
    "C76_same_sets",
    "C76_ends",
    "C76_taken_is_text",
    "C76_exact",
    "C76_slots"
   ],
   "note": "For all grammars and texts; with C75 also for the texts that are taken"
  },
  {
   "property": "C77",
   "status": "partial",
   "theorems": [
    "C77_text_is_parsed_partial",
    "C77_large_character_aborts",
    "C77_returned_value_refuted",
    "C77_repeated_empty_refuted",
    "C77_two_empty_refuted"
   ],
   "note": "A tree is given for described texts only, and for all of them if no rule starts with two symbols that can be empty before a third; for grammars of C60 without loops in the generated rules and characters below 199998. Otherwise refuted; with large characters the program aborts (grammars without loops)"
  },
  {
   "property": "C78",
   "status": "partial",
   "theorems": [
    "C78_place_partial",
    "C78_ends",
    "C78_shown",
    "C78_column_refuted",
    "C78_overrun_refuted",
    "C78_mark_refuted"
   ],
   "note": "The line for all texts, the column in the first line; the text shown for ascii texts with a zero behind the buffer; that the place is the first one if no rule starts with two symbols that can be empty, for continuations with characters of the content. Refuted: columns in later lines, characters of several bytes, no zero behind the buffer"
  },
  {
   "property": "C79",
   "status": "partial",
   "theorems": [
    "C79_tree_is_derivation_partial",
    "C79_returned_tree",
    "C79_no_tree",
    "C79_trees_are_derivations",
    "C79_assertion_refuted"
   ],
   "note": "Every tree that is returned is a tree of the text, the walk ends and reads nothing outside of the sets, for all grammars and texts; the assertions hold if no rule starts with two symbols that can be empty, otherwise refuted. One parse without costs, every rule with all its symbols as children"
  },
  {
   "property": "C80",
   "status": "partial",
   "theorems": [
    "C80_text_to_document_partial",
    "C80_exact",
    "C80_aborts_refuted"
   ],
   "note": "From the bytes of the grammar and the text to the document, for the grammars of C60 and C61 without loops in the generated rules, characters from 1 to 199997, documents with one element at the top; if the text is described an empty document or an abort needs a rule that starts with two symbols that can be empty, and this abort is shown (refuted)"
  },
  {
   "property": "C81",
   "status": "partial",
   "theorems": [
    "C81_same_tree",
    "C81_warning_means_two",
    "C81_exact_partial",
    "C81_no_warning_means_one_partial",
    "C81_missing_warning_refuted"
   ],
   "note": "The warning means that there are two trees, for all grammars that give every rule once; no warning means that there is one tree, if no rule starts with two symbols that can be empty; without this condition the warning can be missing (refuted). Stated for the parse of the tokens; from the bytes of the ixml grammar: C82"
  },
  {
   "property": "C82",
   "status": "partial",
   "theorems": [
    "C82_no_warning_one_document_partial",
    "C82_missing_warning_refuted"
   ],
   "note": "For grammars and texts as in C80 whose rules are all different: the warning is printed only if there are two trees; if no rule starts with two symbols that can be empty, exactly then, and without it the document equals every document of the grammar for the text; without this condition the warning can be missing (refuted)"
  },
  {
   "property": "C83",
   "status": "partial",
   "theorems": [
    "C83_words_to_commands",
    "C83_in_order",
    "C83_crash_only_partial",
    "C83_all_performed_partial",
    "C83_print_with_for_each_refuted",
    "C83_crash_refuted",
    "C83_help_status_refuted",
    "C83_names_wrong_word_refuted",
    "C83_help_example_refuted",
    "C83_free_words",
    "C83_next_command",
    "C83_first_word",
    "C83_substitute_word",
    "C83_options_taken",
    "C83_delete_entity_refuted",
    "C83_names",
    "C83_tokenize"
   ],
   "note": "How words are split, which words a command takes, what is added, the order and the end at the first failure: proved for all command lines. That it does not crash: except with tokenize beside other commands and add without argument (refuted there); that all is performed: without for-each or no-output at the end, and with the conversion before the output. Refuted: delete-entity takes the next command as an argument, for-each with print, the status of help, the message for unknown commands, an example of the help text"
  },
  {
   "property": "C84",
   "status": "partial",
   "theorems": [
    "C84_all_written",
    "C84_omit_decl",
    "C84_omit_decl_only",
    "C84_standalone_refuted",
    "C84_print_is_save",
    "C84_print_large_refuted",
    "C84_print_large_ex",
    "C84_browse_omit_refuted",
    "C84_browse_here",
    "C84_browse_name",
    "C84_save_message_partial",
    "C84_save_status_refuted",
    "C84_browse_message_partial",
    "C84_browse_status_refuted"
   ],
   "note": "All bytes are written, the declaration is left out for version 1.0 without standalone, print is the same as save-to below 2 GiB, the file for the browser is in the current directory, a message if bytes are missing in a file: proved for all outputs. Refuted: --omit-decl with standalone, browse with --omit-decl, print from 2 GiB on, the status of save-to if bytes are missing"
  },
  {
   "property": "C85",
   "status": "partial",
   "theorems": [
    "C85_taken",
    "C85_options",
    "C85_order",
    "C85_line",
    "C85_source_partial",
    "C85_grammar_stdin_refuted",
    "C85_crash_only",
    "C85_content_refuted",
    "C85_grammar_name_refuted",
    "C85_trim_refuted"
   ],
   "note": "Which options are taken (both directions), what they mean, and where the input comes from: proved for all command lines. Missing in C85_source_partial: the standard input with a grammar, and -i without a content that can be told from a command or an option; refuted there. Also refuted: grammars in .xml and .xmq files, two --trim options"
  }
 ]
}