{
 "claims": [
  {
   "property": "C01",
   "status": "proved",
   "theorems": [
    "C01_reads_return_current_position",
    "C01_reads_follow_cursor",
    "C01_no_panic"
   ],
   "note": ""
  },
  {
   "property": "C02",
   "status": "partial",
   "theorems": [
    "C02_rollback_value_refuted",
    "C02_rollback_value_partial"
   ],
   "note": "The full statement is false of the code: after replayed elements are drained outside of a checkpoint the saved value is stale (C02_rollback_value_refuted). Proved for all histories without that pattern."
  },
  {
   "property": "C03",
   "status": "proved",
   "theorems": [
    "C03_cached_answers_transparent"
   ],
   "note": ""
  },
  {
   "property": "C04",
   "status": "proved",
   "theorems": [
    "C04_single_quote_round_trip",
    "C04_single_quote_accepted",
    "C04_single_unquote_inverse"
   ],
   "note": ""
  },
  {
   "property": "C05",
   "status": "partial",
   "theorems": [
    "C05_double_quote_refuted",
    "C05_double_quote_silent_refuted",
    "C05_double_quote_round_trip_partial"
   ],
   "note": "False for control characters written as \\xhh (two refutations: an out-of-range read and a silently wrong string). Proved for every string of JSON characters and characters with a one-letter escape."
  },
  {
   "property": "C06",
   "status": "proved",
   "theorems": [
    "C06_lossless"
   ],
   "note": ""
  },
  {
   "property": "C07",
   "status": "proved",
   "theorems": [
    "C07_terminates"
   ],
   "note": ""
  },
  {
   "property": "C08",
   "status": "proved",
   "theorems": [
    "C08_positions"
   ],
   "note": ""
  },
  {
   "property": "C09",
   "status": "proved",
   "theorems": [
    "C09_balanced_iff_dyck",
    "C09_add_accepts_iff_completable",
    "C09_peek_is_innermost",
    "C09_same_symbol_pair"
   ],
   "note": ""
  },
  {
   "property": "C10",
   "status": "partial",
   "theorems": [
    "C10_restore_refuted",
    "C10_restore_partial"
   ],
   "note": "False in general (only the stack size is saved). Proved when no bracket is opened after a saved one was closed."
  },
  {
   "property": "C11",
   "status": "proved",
   "theorems": [
    "C11_signed_round_trip"
   ],
   "note": ""
  },
  {
   "property": "C12",
   "status": "proved",
   "theorems": [
    "C12_unsigned_round_trip"
   ],
   "note": ""
  },
  {
   "property": "C13",
   "status": "proved",
   "theorems": [
    "C13_recognisers_exact",
    "C13_kinds_disjoint",
    "C13_boolean_round_trip"
   ],
   "note": ""
  },
  {
   "property": "C14",
   "status": "partial",
   "theorems": [
    "C14_signed_refuted",
    "C14_unsigned_refuted",
    "C14_signed_partial",
    "C14_unsigned_partial"
   ],
   "note": "False: recognised integers written with leading zeros convert to octal values or are refused, and an explicit plus sign is refused for unsigned numbers (refuted). Proved for numerals without leading zero."
  },
  {
   "property": "C15",
   "status": "proved",
   "theorems": [
    "C15_yayamls_builds_value",
    "C15_goyaml_builds_value"
   ],
   "note": ""
  },
  {
   "property": "C16",
   "status": "proved",
   "theorems": [
    "C16_yayamls_first_error_kept",
    "C16_goyaml_first_error_kept"
   ],
   "note": ""
  },
  {
   "property": "C17",
   "status": "proved",
   "theorems": [
    "C17_yayamls_reuse",
    "C17_goyaml_reuse"
   ],
   "note": ""
  },
  {
   "property": "C18",
   "status": "partial",
   "theorems": [
    "C18_yayamls_ends_partial",
    "C18_goyaml_ends_partial",
    "C18_yayamls_refuted",
    "C18_goyaml_refuted"
   ],
   "note": "False: raw YAML as the whole document stays open on the builder's route (yayamls) and yaml.v3's EndMapping ignores a pending key (refuted with witnesses). Proved exactly for histories in which raw YAML is inserted inside collections."
  },
  {
   "property": "C19",
   "status": "partial",
   "theorems": [
    "C19_yayamls_refuted",
    "C19_goyaml_refuted",
    "C19_yayamls_prefix_partial",
    "C19_yayamls_scalar_partial"
   ],
   "note": "False: empty histories, unclosed collections, a second document after a collection and entries without value are all accepted (refuted). Proved: accepted raw-free histories are prefixes of series of complete values; insertion after a scalar document is an error."
  },
  {
   "property": "C20",
   "status": "proved",
   "theorems": [
    "C20_string_independent_of_history",
    "C20_bytes_agree_with_string",
    "C20_stream_agrees_with_string",
    "C20_bytes_not_overwritten"
   ],
   "note": ""
  },
  {
   "property": "C21",
   "status": "partial",
   "theorems": [
    "C21_round_trip_partial",
    "C21_same_tree_partial",
    "C21_marks_partial",
    "C21_null_refuted",
    "C21_quoted_refuted",
    "C21_unquoted_refuted",
    "C21_empty_refuted",
    "C21_anchor_refuted",
    "C21_marked_alias_refuted",
    "C21_lines_refuted",
    "C21_stream_refuted"
   ],
   "note": "Proved for all trees, of any depth and width, of words, nulls (which come back as the text null), quoted texts without escapes, non-empty sequences and non-empty mappings with scalar keys, with aliases anywhere, with tags and anchors on values of mappings and on scalars in sequences, and with texts of several lines (literal blocks) as values and in sequences: parse(write t) = t (unquoted text comes back with the parser's label). Missing: complex keys, several documents. False in general: witnesses for null, quotes, unquoted text, empty collections, anchors at the root and on collections in sequences, tags on aliases, literal blocks that start with an empty line, a space or a bracket, and streams."
  },
  {
   "property": "C22",
   "status": "proved",
   "theorems": [
    "C22_yayamls_errors_are_kept",
    "C22_goyaml_errors_are_kept",
    "C22_fatal_error_is_final"
   ],
   "note": ""
  },
  {
   "property": "C23",
   "status": "proved",
   "theorems": [
    "C23_yayamls_reads_the_tree",
    "C23_yayamls_reads_the_stream",
    "C23_yayamls_every_scalar_once",
    "C23_yayamls_every_tree",
    "C23_goyaml_reads_the_tree",
    "C23_goyaml_reads_the_document",
    "C23_goyaml_every_scalar_once"
   ],
   "note": "Any alias-free node, any shape-matching client, both modes, streams too, both engines. Sizes of collections are C30 (goyaml doubles those of mappings)."
  },
  {
   "property": "C24",
   "status": "partial",
   "theorems": [
    "C24_goyaml_partial",
    "C24_yayamls_loop_after_error_refuted",
    "C24_yayamls_denied_loop_refuted",
    "C24_goyaml_denied_loop_refuted",
    "C24_yayamls_alias_loop_refuted",
    "C24_goyaml_alias_loop_refuted"
   ],
   "note": "False of the code, with witnesses for every number of loop rounds: yayamls after any fatal error, both engines when denials are collected, both engines when an alias is not the last element. What remains is proved: on goyaml, in the default mode and without aliases, every program whose loops read in each iteration ends, whatever it calls and however its loops are nested (Raw and Node excepted)."
  },
  {
   "property": "C25",
   "status": "partial",
   "theorems": [
    "C25_yayamls_merge_partial",
    "C25_goyaml_merge_partial",
    "C25_nested_mappings_refuted",
    "C25_merge_lists_refuted"
   ],
   "note": "Proved for mappings whose merged mappings hold no mappings and whose keys are explicit once; false for nested mappings (flattened) and for lists of mappings as merge value (entries lost), both refuted with witnesses."
  },
  {
   "property": "C26",
   "status": "partial",
   "theorems": [
    "C26_yayamls_aliases_partial",
    "C26_goyaml_aliases",
    "C26_unknown_alias_generic",
    "C26_unknown_alias_call",
    "C26_rebinding_refuted",
    "C26_capture_refuted",
    "C26_skipped_anchor_refuted",
    "C26_self_alias_refuted"
   ],
   "note": "Proved for documents in which names used inside anchored content are not anchored to anything else; unknown aliases are errors for all documents. False otherwise: generic reading visits alias targets again and so redefines or captures names; anchors inside skipped content are unknown; self-containing nodes never return. Single calls read an alias' target but leave the alias on the route (C24)."
  },
  {
   "property": "C27",
   "status": "proved",
   "theorems": [
    "C27_never_blocked",
    "C27_finite",
    "C27_same_answer"
   ],
   "note": "Labelled transition system of the three goroutines over unbuffered channels; trees without nil list elements (a nil element is a nil method call)."
  },
  {
   "property": "C28",
   "status": "partial",
   "theorems": [
    "C28_answer_partial",
    "C28_equal_trees_partial",
    "C28_same_form_partial",
    "C28_structure_refuted",
    "C28_quoting_refuted"
   ],
   "note": "False: list ends and quoting are not compared ([[a], b] equals [[a, b]]). Proved: the answer is exact for the listings of kinds and texts, hence for trees of one form up to quoting."
  },
  {
   "property": "C29",
   "status": "proved",
   "theorems": [
    "C29_document_unchanged",
    "C29_raw_restores",
    "C29_directness_is_needed",
    "C29_raw_of_a_cycle"
   ],
   "note": "For every sequence of calls on every graph in which aliases point to non-aliases (the only graphs yaml.v3 builds); C29_directness_is_needed shows the need. Raw of a self-containing node never returns (C29_raw_of_a_cycle)."
  },
  {
   "property": "C30",
   "status": "partial",
   "theorems": [
    "C30_yayamls_sizes",
    "C30_goyaml_mapping_size_refuted"
   ],
   "note": "Proved for yayamls; false for goyaml mappings (size is twice the number of entries)."
  },
  {
   "property": "C31",
   "status": "proved",
   "theorems": [
    "C31_names_exist",
    "C31_names_unique"
   ],
   "note": ""
  },
  {
   "property": "C32",
   "status": "proved",
   "theorems": [
    "C32_aliases_unique"
   ],
   "note": ""
  },
  {
   "property": "C33",
   "status": "proved",
   "theorems": [
    "C33_each_once"
   ],
   "note": ""
  },
  {
   "property": "C34",
   "status": "partial",
   "theorems": [
    "C34_fields_partial",
    "C34_inlined_map_refuted",
    "C34_depth_refuted",
    "C34_self_embedding_refuted"
   ],
   "note": "False as stated: a field with the inline option and a map or interface type is dropped silently; between embedded structs the later one wins whatever the depth; a struct embedding a pointer to itself sends the generator into endless recursion. Proved: one field per name, only candidate fields, every candidate's name, every own field."
  },
  {
   "property": "C35",
   "status": "proved",
   "theorems": [
    "C35_tags",
    "C35_every_tag"
   ],
   "note": ""
  },
  {
   "property": "C36",
   "status": "partial",
   "theorems": [
    "C36_versions_partial",
    "C36_ascii_texts",
    "C36_other_digits_refuted"
   ],
   "note": "Proved for the digits of unicode.IsDigit and for ASCII texts; false for YAML's ASCII digits: Arabic-Indic digits are accepted."
  },
  {
   "property": "C37",
   "status": "proved",
   "theorems": [
    "C37_parsing_finishes",
    "C37_parsing_tokens_finishes",
    "C37_accessor_is_cursor"
   ],
   "note": "For the model of the whole parser over the model of the tokenizer and the accessor; also for slices of tokens, and the parser never observes the defects of C02."
  },
  {
   "property": "C38",
   "status": "partial",
   "theorems": [
    "C38_whole_input_refuted",
    "C38_rest_dropped_refuted"
   ],
   "note": "False of the code: parseStream stops wherever no document can be parsed and does not check for the end of input (witnesses)."
  },
  {
   "property": "C39",
   "status": "proved",
   "theorems": [
    "C39_yayamls_encoder",
    "C39_goyaml_encoder",
    "C39_any_engine"
   ],
   "note": ""
  },
  {
   "property": "C40",
   "status": "proved",
   "theorems": [
    "C40_dead_end_exact",
    "C40_unstopped_client_refuted"
   ],
   "note": "Exact under the parser's protocol of stopping at the first report; C40_unstopped_client_refuted shows that the protocol is needed (8-bit wrap-around)."
  },
  {
   "property": "C41",
   "status": "partial",
   "theorems": [
    "C41_yayamls_partial",
    "C41_goyaml_partial",
    "C41_zero_exists",
    "C41_pointer_to_nil_refuted",
    "C41_nested_pointer_refuted",
    "C41_omitempty_refuted",
    "C41_unquoted_refuted",
    "C41_goyaml_text_refuted"
   ],
   "note": "Proved for both engines, for all types (recursive structs included) and all values that survive: floats and texts that come back from their own texts, no pointer to a nil, nothing but zero values in fields that are left out; for goyaml additionally no types with text methods. False otherwise: witnesses for nested pointers, omitempty, unquoted strings and goyaml text types. Not covered: interfaces, arrays of bytes, embedded pointers, own marshalling methods."
  },
  {
   "property": "C42",
   "status": "partial",
   "theorems": [
    "C42_line_form_partial",
    "C42_block_form_refuted"
   ],
   "note": "Proved for declarations in one line; false for the bracketed form `module (`, which gives the bracket."
  },
  {
   "property": "C43",
   "status": "partial",
   "theorems": [
    "C43_single_quoted_grammar",
    "C43_uri_grammar",
    "C43_tag_grammar",
    "C43_double_quoted_grammar",
    "C43_double_quoted_yaml_refuted",
    "C43_written_double_quoted_accepted_partial"
   ],
   "note": "Recognisers decide the grammars with the code's own escape letters; the code's letters differ from YAML's (backspace missing), which is the refutation; the writer's output is accepted unless it contains a backspace."
  },
  {
   "property": "C44",
   "status": "proved",
   "theorems": [
    "C44_kind_determines_text"
   ],
   "note": ""
  },
  {
   "property": "C45",
   "status": "partial",
   "theorems": [
    "C45_yayamls_misfit_stops",
    "C45_goyaml_misfit_stops",
    "C45_goyaml_denials_are_collected",
    "C45_yayamls_denials_are_collected_partial",
    "C45_yayamls_null_stale_refuted",
    "C45_yayamls_null_crash_refuted"
   ],
   "note": "Default mode: proved for both engines, all documents without aliases and all readings up to the misfit. Collected denials: proved for goyaml; for yayamls proved except at nulls, where it is false (a null node answers with the value read before, or with a nil collection state on which a loop crashes; refuted)."
  },
  {
   "property": "C46",
   "status": "partial",
   "theorems": [
    "C46_five_levels_partial",
    "C46_nested_flow_refuted"
   ],
   "note": "False of the code: seven levels are reported as a dead end. Proved up to five levels, for any word and padding (six: example)."
  },
  {
   "property": "C47",
   "status": "partial",
   "theorems": [
    "C47_goyaml_partial",
    "C47_goyaml_denied_refuted",
    "C47_goyaml_alias_refuted",
    "C47_yayamls_refuted",
    "C47_loop_after_error_refuted"
   ],
   "note": "False for yayamls: after an error a loop over unread items never ends (concrete witness for every fuel, and the general fact); false for goyaml when denials are collected and when there are aliases. Proved for goyaml in the default mode for all types (recursive structs included), all documents without aliases, fitting or not, and all previous values of the destination."
  },
  {
   "property": "C48",
   "status": "partial",
   "theorems": [
    "C48_null_struct_refuted",
    "C48_null_element_refuted",
    "C48_long_array_refuted",
    "C48_goyaml_null_element_refuted",
    "C48_goyaml_long_array_refuted"
   ],
   "note": "False on both engines: null for a struct makes the next mapping be read; the rest of a list that is longer than its array is read as keys and values. C51 says that nothing else goes wrong in this way."
  },
  {
   "property": "C49",
   "status": "proved",
   "theorems": [
    "C49_cursor"
   ],
   "note": "Both error modes, any sequence of requests. Excepted: documents with aliases, and the calls Raw (text by yaml.v3) and Node (returns the node itself). Answers that are collection states are compared through the answers they give."
  },
  {
   "property": "C50",
   "status": "partial",
   "theorems": [
    "C50_marshal_unmarshal_partial",
    "C50_escape_refuted",
    "C50_empty_refuted"
   ],
   "note": "yayamls. Proved through the text for all types (recursive structs included) and all values that survive generated code (as in C41) and can be read back (as in C21): strings without characters that need escapes, no empty collections, scalar keys. False otherwise: escapes are not undone, an empty collection is an error at the top and nil inside. For goyaml the text is made and read by yaml.v3, which is not modelled."
  },
  {
   "property": "C51",
   "status": "partial",
   "theorems": [
    "C51_goyaml_partial",
    "C51_goyaml_right_documents",
    "C51_yayamls_partial",
    "C51_zeros_exist"
   ],
   "note": "goyaml in the default error mode: proved for right and wrong documents (value, or exactly the first error). Both engines and both error modes (yayamls with text methods too): proved for the documents that give a value. Excluded, with refutations under C41, C47 and C48: text methods on goyaml, aliases, wrong documents on yayamls or with collected errors, null for a struct, lists longer than the array."
  },
  {
   "property": "C52",
   "status": "partial",
   "theorems": [
    "C52_streams_parse",
    "C52_documents_parse",
    "C52_json_parses",
    "C52_compact_json_refuted",
    "C52_last_dash_refuted",
    "C52_quoted_blanks_refuted",
    "C52_empty_crlf_line_refuted"
   ],
   "note": "Proved through the text for streams of any number of documents, with or without --- marks, of plain words and quoted text without escapes, on one line or folded over any number of lines with empty lines between them, flow collections on one line or several with sequences nested at most five deep (C46, C56), block collections with scalar keys at any indentation (sequences under a key also at the same one), values left out or on the next line, literal and folded block scalars (C55, C62), aliases, tags and anchors before values (C63), comments, empty lines, trailing spaces, LF and CRLF; JSON texts (in that fragment) with a space after colons are an instance. False for JSON without a space after colons ({\"a\":[1]} is rejected), for a dash as the last character of the input (the entry is dropped), for blanks before a line break between quotes (kept in the text) and for empty CRLF lines inside a scalar (the carriage return is kept). Directives are C64. Not covered: comments inside flow collections, explicit keys, ... marks."
  },
  {
   "property": "C53",
   "status": "partial",
   "theorems": [
    "C53_accepted_text_partial",
    "C53_rejected_text",
    "C53_pairs_refuted",
    "C53_unmarshal_partial"
   ],
   "note": "Proved for yayamls, for all types, destinations and all texts that the parser accepts and that have a meaning by C51; in particular the documents of C52. Texts that the parser does not accept are reported and leave the destination unchanged. Missing: texts without a meaning (C47_yayamls_refuted), aliases, pairs in flow sequences (C53_pairs_refuted: flattened)."
  },
  {
   "property": "C54",
   "status": "proved",
   "theorems": [
    "C54_characters",
    "C54_encodable",
    "C54_any_bytes",
    "C54_kept_exactly"
   ],
   "note": "Proved for all bytes and texts; the bytes are kept in the tokens exactly if they are UTF-8 (C54_kept_exactly)."
  },
  {
   "property": "C55",
   "status": "partial",
   "theorems": [
    "C55_literals_parse",
    "C55_entries_after_literals",
    "C55_lines_parse",
    "C55_leading_empty_line_refuted",
    "C55_empty_literal_refuted",
    "C55_brackets_refuted",
    "C55_quotes_refuted",
    "C55_crlf_refuted"
   ],
   "note": "Proved for all literal scalars with at least one line, indentation found from the first line, lines that end with LF, and first words of lines without quotes and without a bracket in front (the lines themselves are arbitrary). False without that: an empty first line or no line at all makes the rest of the document the text; a bracket at the start of a line is an error; a quote in the first word drops the entries after the scalar; CRLF stays in the text. Not covered: indentation indicators, a last line without a line break."
  },
  {
   "property": "C56",
   "status": "partial",
   "theorems": [
    "C56_flow_lines_parse",
    "C56_layout_does_not_matter",
    "C56_flow_values_parse",
    "C56_indented_json_parses",
    "C56_indented_json_under_key",
    "C56_comments_refuted",
    "C56_level_bracket_refuted"
   ],
   "note": "Proved for every layout without comments (line breaks LF or CRLF, empty lines and spaces around brackets and commas; spaces around colons; scalars inside the collection on one line), sequences nested at most five deep, and for indented JSON of any value whose strings need no escapes. False for comments inside of brackets, which become text, and for a closing bracket that is not indented more than the key, which loses the document. Not covered: line breaks around colons and inside of scalars of a flow collection."
  },
  {
   "property": "C57",
   "status": "partial",
   "theorems": [
    "C57_print_is_the_drawing",
    "C57_one_line_per_node",
    "C57_print_tells_the_tree",
    "C57_backslashes_refuted",
    "C57_quotes_refuted",
    "C57_one_line_refuted",
    "C57_nil",
    "C57_nil_elements_refuted"
   ],
   "note": "Proved: the drawing, one line per node, no panic for trees without nil elements, and that document trees without backslashes in their texts are told apart but for quotation marks. False with backslashes (a line feed is printed like the two characters \\n), for quotation marks (not printed), for a text as root (printed with its line feeds) and for trees with nil elements (panic)."
  },
  {
   "property": "C58",
   "status": "proved",
   "theorems": [
    "C58_any_tokens",
    "C58_any_bytes",
    "C58_parsed_trees_print",
    "C58_prints_tell_parsed_trees",
    "C58_parsed_trees_compare",
    "C58_documents_have_values",
    "C58_pairs_refuted"
   ],
   "note": "Proved for all bytes and all token streams: the tree is a stream of documents and can be printed and compared. Beyond the statement: documents without aliases and single pairs in sequences have a value for the decoders; C58_pairs_refuted says that single pairs have none (the reader flattens them, C53_pairs_refuted)."
  },
  {
   "property": "C59",
   "status": "partial",
   "theorems": [
    "C59_words",
    "C59_letters_kept",
    "C59_no_upper_case",
    "C59_files_refuted"
   ],
   "note": "Proved: the words (names without underscores), that letters are kept and no upper case is left (all names). False: that different types have different files."
  },
  {
   "property": "C60",
   "status": "partial",
   "theorems": [
    "C60_module_path",
    "C60_cache",
    "C60_gopath_refuted",
    "C60_outside_refuted",
    "C60_package_name",
    "C60_package_name_refuted"
   ],
   "note": "Proved for modules, for the cache (directories not called like a go.mod file) and for directories with one package. False for GOPATH (last name missing), for the directory above src, and for directories with several packages (order of a map)."
  },
  {
   "property": "C61",
   "status": "partial",
   "theorems": [
    "C61_success_partial",
    "C61_names",
    "C61_options",
    "C61_refused",
    "C61_failure_refuted"
   ],
   "note": "Proved: successes (if the names of the temporary files are free and can be removed), that nothing but four names is touched, that the program tells all options, and that refused commands touch nothing. False for failures: the stub replaces the output and stays."
  },
  {
   "property": "C62",
   "status": "partial",
   "theorems": [
    "C62_folded_parse",
    "C62_entries_after_folded",
    "C62_lines_fold",
    "C62_more_indented_refuted",
    "C62_brackets_refuted",
    "C62_quotes_refuted"
   ],
   "note": "Proved for folded scalars with at least one line, indentation found from the first line, lines indented alike that start with a word without quotes, brackets and colons and go on with any characters, any numbers of empty lines, every chomping mark, as a document, as a value anywhere in the grammar of C52, and with the entries after it. False: the break between two lines that are both indented more is doubled; a bracket at the start of a line is an error; a quote in the first word drops the entries after the scalar. Lines that are indented more are otherwise only covered by an example. Not covered: indentation indicators, a last line without a line break."
  },
  {
   "property": "C63",
   "status": "partial",
   "theorems": [
    "C63_marks_parse",
    "C63_entries_after_marks",
    "C63_aliases_parse",
    "C63_marked_collections_parse",
    "C63_marked_block_scalars_parse",
    "C63_first_key_refuted",
    "C63_tag_dash_refuted",
    "C63_handles_refuted"
   ],
   "note": "Proved for aliases, and for tags (primary, secondary or named handle) and anchors in either order before scalars on one line or several, flow collections, literal and folded scalars, and block collections indented more on the following lines, as a document (scalars and flow collections), as a value anywhere in the grammar of C52, and with the entries after it. False: an anchor or a tag before the first key of a mapping makes the parser drop the document without an error; tags with a dash are rejected; the handle of a tag is not part of the tree, so that !int and !!int are one tag. Not covered: tags and anchors of a sequence with the indentation of its key and of block collections and block scalars that are the whole document, before keys and inside flow collections, verbatim tags, nothing after the tag or the anchor."
  },
  {
   "property": "C64",
   "status": "partial",
   "theorems": [
    "C64_directives_parse",
    "C64_directives_change_nothing",
    "C64_local_prefixes_refuted",
    "C64_wrong_directives_refuted"
   ],
   "note": "Proved for YAML directives with versions in ASCII digits, for TAG directives with all three kinds of handles and global prefixes without escapes, and for directives with other names and any parameters (parts separated by spaces; no blanks or comments at the end of TAG and other lines; lines ending with LF), any number of them, before any stream of the grammar of C52 that starts with ---. False: a TAG directive with a local prefix makes the parser drop all documents without an error; wrong directives are not reported, and the documents are dropped. Not covered: directives of later documents (after ...)."
  },
  {
   "property": "C65",
   "status": "partial",
   "theorems": [
    "C65_items_partial",
    "C65_values_partial",
    "C65_parses_back_partial",
    "C65_marks_refuted",
    "C65_key_refuted"
   ],
   "note": "Proved (yayamls engine, any keeper-free writer, both error modes) for all entries of a sequence and for all values of a mapping whose keys are read as strings, for values without tag, anchor or alias of their own; with C21, the texts of trees of the grammar parse back to the entries. Missing: values in collections nested deeper than one level below the document. False: before a key Raw returns the whole entry and skips the value; tags and anchors of the value are dropped; aliases to anchors outside of the value stay in the text."
  },
  {
   "property": "C66",
   "status": "partial",
   "theorems": [
    "C66_break_refuted",
    "C66_padding_refuted",
    "C66_word_partial",
    "C66_spaced_partial",
    "C66_encoded_partial"
   ],
   "note": "Proved: exact for texts without white space (the unused bits of a padded group are not looked at), and every base64 text with any white space between its groups of four is recognised, in particular what encoders write. False: white space inside a group, and padding before the end (QQ== QQ==)."
  },
  {
   "property": "C67",
   "status": "partial",
   "theorems": [
    "C67_shadowed_refuted",
    "C67_vendored_refuted",
    "C67_type_names_partial"
   ],
   "note": "Proved for predeclared types, declared types of the own package and of others, pointers, slices, arrays, maps and structs without a name (fields with and without tags, embedded ones too), nested in any way, for the imports of both engines. False: a type of the package with the name of a predeclared type, and types of one name in different vendor directories. Missing: tags with back quotes (written by strconv.Quote); other types without a name, which are written as reflect prints them; instances of generic types."
  }
 ]
}