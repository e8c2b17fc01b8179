{
 "claims": [
  {
   "property": "C01",
   "status": "proved",
   "theorems": [
    "C01_fast_compression_lossless"
   ],
   "note": "Complete for fast mode, any surrounding bytes, either byte order."
  },
  {
   "property": "C02",
   "status": "partial",
   "theorems": [
    "C02_default_compression_refuted",
    "C02_default_compression_partial",
    "C02_default_without_blocks_partial"
   ],
   "note": "The full claim is false: the literal block heuristic may yield unordered positions and compression dies with AssertionError (witness proved). Proved: round trip for every run whose positions never go back, and success plus round trip when no literal block is requested. Missing: a syntactic condition on the code that rules the failure out."
  },
  {
   "property": "C03",
   "status": "partial",
   "theorems": [
    "C03_lz77_parse_partial",
    "C03_lz77_parse_without_blocks",
    "C03_ordered_positions_refuted"
   ],
   "note": "Complete without literal-block positions, for every callback. With ordered positions the claim is false (witness proved); with positions it is proved for every run whose yielded positions never go back."
  },
  {
   "property": "C04",
   "status": "proved",
   "theorems": [
    "C04_pxa_stream_decodes"
   ],
   "note": "Any valid item sequence; the decoder stops at the end of the written bytes."
  },
  {
   "property": "C05",
   "status": "proved",
   "theorems": [
    "C05_old_compression_lossless"
   ],
   "note": "Both speeds. Needs the two zero bytes that follow in the zero-padded area, since no terminator is written."
  },
  {
   "property": "C06",
   "status": "partial",
   "theorems": [
    "C06_old_default_total",
    "C06_old_fast_refuted"
   ],
   "note": "True in the default speed (proved). False in fast mode: a match of one character is possible and struct.error is raised (witness proved)."
  },
  {
   "property": "C07",
   "status": "proved",
   "theorems": [
    "C07_decompressor_terminates",
    "C07_decompressor_length",
    "C07_old_length",
    "C07_raw"
   ],
   "note": "Every byte stream."
  },
  {
   "property": "C08",
   "status": "proved",
   "theorems": [
    "C08_size_pxa",
    "C08_size_old",
    "C08_raw_storage",
    "C01_fast_compression_lossless",
    "C02_default_compression_partial"
   ],
   "note": "The old format counts the two-byte terminator. In default pxa mode it holds under the condition of C02."
  },
  {
   "property": "C09",
   "status": "proved",
   "theorems": [
    "C09_bit_streams"
   ],
   "note": "All widths and orders, arbitrary following bytes."
  },
  {
   "property": "C10",
   "status": "proved",
   "theorems": [
    "C10_roundtrip",
    "C10_reader",
    "C10_reader_ends"
   ],
   "note": "For every byte string, fast or not; the reader is also proved for every block of the format."
  },
  {
   "property": "C11",
   "status": "proved",
   "theorems": [
    "C11_block"
   ],
   "note": ""
  },
  {
   "property": "C12",
   "status": "proved",
   "theorems": [
    "C12_roundtrip"
   ],
   "note": "For all digits and sizes below 2^32, at any place among other bytes."
  },
  {
   "property": "C13",
   "status": "proved",
   "theorems": [
    "C13_pixels_carry_bytes",
    "C13_cart_image"
   ],
   "note": "The pixel claim is complete. The whole-cart theorem carries the conditions of C15; PNG coding itself and the drawing of the title text are outside the model."
  },
  {
   "property": "C14",
   "status": "proved",
   "theorems": [
    "C14_bytes",
    "C14_cart"
   ],
   "note": "Pixels as lists; PNG/QOI coding of the pictures is not modelled."
  },
  {
   "property": "C15",
   "status": "partial",
   "theorems": [
    "C15_rom_file_partial",
    "C15_rom_file_without_trailer_partial",
    "C15_keep_compression",
    "C15_marker_code_refuted"
   ],
   "note": "Proved for every digest function under three conditions: the parse condition of C02, two spare bytes of the code area for the old format, and code other than \":c:\". For \":c:\" the claim is false (witness proved)."
  },
  {
   "property": "C16",
   "status": "partial",
   "theorems": [
    "C16_tiny_rom_partial",
    "C16_tiny_rom_old_refuted"
   ],
   "note": "Proved for the pxa format under the parse condition of C02 (vacuous in fast mode). False for the old format (witness proved)."
  },
  {
   "property": "C17",
   "status": "proved",
   "theorems": [
    "C17_graphics"
   ],
   "note": "Python int(s,16), int(s) and str.lower are any functions right on plain digits and ASCII."
  },
  {
   "property": "C18",
   "status": "proved",
   "theorems": [
    "C18_sound"
   ],
   "note": "As C17."
  },
  {
   "property": "C19",
   "status": "proved",
   "theorems": [
    "C19_label"
   ],
   "note": "As C17; the rest of the cart as in C61."
  },
  {
   "property": "C20",
   "status": "partial",
   "theorems": [
    "C20_code",
    "C20_crlf_refuted",
    "C20_header_refuted"
   ],
   "note": "Proved for code whose lines do not look like section headers and do not end in a carriage return. A carriage return before a newline is lost (proved witness), which the statement does not exclude."
  },
  {
   "property": "C21",
   "status": "partial",
   "theorems": [
    "C21_url_partial",
    "C21_code_text",
    "C21_sheet_text",
    "C21_marker_refuted"
   ],
   "note": "Parse condition of C02; false for the code \":c:\" (proved witness)."
  },
  {
   "property": "C22",
   "status": "proved",
   "theorems": [
    "C22_clip",
    "C22_clip_cart"
   ],
   "note": ""
  },
  {
   "property": "C23",
   "status": "proved",
   "theorems": [
    "C23_p8str_roundtrip",
    "C23_to_p8str_in_range"
   ],
   "note": "Both capital styles; every P8SCII string; the other direction yields only P8SCII bytes."
  },
  {
   "property": "C24",
   "status": "proved",
   "theorems": [
    "C24_byte",
    "C24_word",
    "C24_dword",
    "C24_nibble"
   ],
   "note": "In-range, non-negative addresses."
  },
  {
   "property": "C25",
   "status": "proved",
   "theorems": [
    "C25_cells_hold_values",
    "C25_cells_disjoint"
   ],
   "note": "Cells of all sections, in the coordinates of the section; the only sharing is sprite rows 64-127 with map rows 32-63."
  },
  {
   "property": "C26",
   "status": "partial",
   "theorems": [
    "C26_merge",
    "C26_unknown_refused",
    "C26_meta_refuted"
   ],
   "note": "Code, data sections and label proved for every list of names; merging a \"meta:\" section always raises a TypeError (proved for every name)."
  },
  {
   "property": "C27",
   "status": "proved",
   "theorems": [
    "C27_binary",
    "C27_unary",
    "C27_builtin",
    "C27_binary_complete",
    "C27_unary_complete"
   ],
   "note": "All operators and builtin functions that are folded, on 16.16 numbers and 64-bit integers; also that every defined result is found. Picotron floats and the length of Picotron strings are outside the model."
  },
  {
   "property": "C28",
   "status": "partial",
   "theorems": [
    "C28_operators_terminate_partial",
    "C28_expressions_terminate_partial",
    "C28_shift_by_minimum_refuted"
   ],
   "note": "Terminates for every operand except shifts and rotations by the smallest number, where it recurses without end (proved)."
  },
  {
   "property": "C29",
   "status": "partial",
   "theorems": [
    "C29_number_of_values_partial",
    "C29_and_spreads_refuted"
   ],
   "note": "False for \"true and f()\" in a multi-value place (proved witness); holds for every expression without an and/or ending in a call in such a place."
  },
  {
   "property": "C30",
   "status": "proved",
   "theorems": [
    "C30_fixnum_roundtrip",
    "C30_requested_sign"
   ],
   "note": "Every 16.16 constant, sign request and base."
  },
  {
   "property": "C31",
   "status": "partial",
   "theorems": [
    "C31_luaint_roundtrip",
    "C31_decimal_partial",
    "C31_decimal_refuted"
   ],
   "note": "Proved for every 64-bit integer unless base 10 is forced; forced base 10 (Picotron data) is wrong at and below -10^18 (proved witness). Floats are not modelled."
  },
  {
   "property": "C32",
   "status": "proved",
   "theorems": [
    "C32_quoted_roundtrip"
   ],
   "note": "Any value, either language, either quote or automatic choice, with or without raw control characters. str.isdigit is any function that is right on ASCII."
  },
  {
   "property": "C33",
   "status": "partial",
   "theorems": [
    "C33_any_literal_partial",
    "C33_long_read",
    "C33_long_refuted"
   ],
   "note": "False when the printed long bracket literal ends with the start of its own closing bracket (proved witnesses for both minification modes); holds otherwise."
  },
  {
   "property": "C34",
   "status": "proved",
   "theorems": [
    "C34_printed_tokens",
    "C34_whitespace_exact",
    "C34_reprinted_source"
   ],
   "note": "Printing without comments; tokens any lexemes of the language."
  },
  {
   "property": "C35",
   "status": "proved",
   "theorems": [
    "C35_meaning",
    "C35_parts",
    "C35_numbers"
   ],
   "note": "For expressions (the parts inside function bodies and statements are one leaf): the minified tokens are read back as the minified tree, with the same meaning for every interpretation of operators, names, calls and tables. PICO-8 numbers are instantiated with the tool printer; strings and Picotron numbers are assumed printed with their value (C32, C31)."
  },
  {
   "property": "C36",
   "status": "proved",
   "theorems": [
    "C36_one_stream",
    "C36_ordered",
    "C36_distinct",
    "C36_valid",
    "C36_complete",
    "C36_alphabets",
    "C36_read_back"
   ],
   "note": "For every alphabet; C36_read_back ties the identifiers to the tokenizer."
  },
  {
   "property": "C37",
   "status": "partial",
   "theorems": [
    "C37_same_meaning",
    "C37_globals_apart",
    "C37_preserved_globals",
    "C37_preserved_members",
    "C37_members_apart",
    "C37_keys_as_globals",
    "C37_new_names",
    "C37_no_new_builtins",
    "C37_after_zero",
    "C37_labels",
    "C37_ends",
    "C37_members_refuted"
   ],
   "note": "Every program without hints: each name means after renaming what it meant before, by the scoping rules of Lua; globals and keys stay apart; preserved names stay. False for keys under the rule *=*.* (proved witness)."
  },
  {
   "property": "C38",
   "status": "proved",
   "theorems": [
    "C38_globals",
    "C38_members",
    "C38_as_globals",
    "C38_explicit_refuted"
   ],
   "note": "The exact rule for every list of patterns. C38_explicit_refuted shows that naming an identifier does not protect it from a negative wildcard."
  },
  {
   "property": "C39",
   "status": "partial",
   "theorems": [
    "C39_preprocess",
    "C39_items",
    "C39_result",
    "C39_unchanged",
    "C39_endless_refuted",
    "C39_level_refuted",
    "C39_slashes_refuted"
   ],
   "note": "What the output is, is proved for every text. Three parts of the claim are false (proved witnesses): an unclosed \"[[\" never ends, directives in long strings of level 1 and up are processed, an apostrophe in a // comment hides later includes."
  },
  {
   "property": "C40",
   "status": "partial",
   "theorems": [
    "C40_map_partial",
    "C40_nested_partial",
    "C40_tab_refuted"
   ],
   "note": "Nested includes of any depth without tab numbers, and tab includes of carts that are one piece. False for tab includes of other carts (proved witness)."
  },
  {
   "property": "C41",
   "status": "proved",
   "theorems": [
    "C41_tab",
    "C41_missing",
    "C41_tabs_exist",
    "C41_whole"
   ],
   "note": "An empty last tab counts as missing."
  },
  {
   "property": "C42",
   "status": "partial",
   "theorems": [
    "C42_line_col",
    "C42_location",
    "C42_tab_line_col",
    "C42_separator_refuted"
   ],
   "note": "Lines and columns for every text and index. With tabs, false for an index inside a separator (proved witness)."
  },
  {
   "property": "C43",
   "status": "proved",
   "theorems": [
    "C43_matches",
    "C43_order",
    "C43_filter"
   ],
   "note": "For every meaning of matching one pattern (fnmatch is a parameter)."
  },
  {
   "property": "C44",
   "status": "proved",
   "theorems": [
    "C44_roundtrip"
   ],
   "note": "For all file systems with distinct paths, contents below 4 GB and a version byte."
  },
  {
   "property": "C45",
   "status": "partial",
   "theorems": [
    "C45_roundtrip_partial",
    "C45_refuted",
    "C45_raw"
   ],
   "note": "Holds for contents that are written in base64 or have no carriage return and do not start with b64$; fails for others (carriage returns are lost, a b64$ start is decoded)."
  },
  {
   "property": "C46",
   "status": "partial",
   "theorems": [
    "C46_js",
    "C46_js_history",
    "C46_js_create",
    "C46_pod",
    "C46_pod_history",
    "C46_js_refuted"
   ],
   "note": "Js exports: for names without commas and square brackets; a name with a comma breaks the list. Pod exports: for names of at most 64 bytes, different for each cart."
  },
  {
   "property": "C47",
   "status": "partial",
   "theorems": [
    "C47_insert_partial",
    "C47_insert_ok",
    "C47_delete",
    "C47_rename",
    "C47_replace_partial",
    "C47_palette_refuted",
    "C47_trailing_refuted"
   ],
   "note": "Holds for every entry except a palette inserted before others, in pods without bytes behind the last entry."
  },
  {
   "property": "C48",
   "status": "proved",
   "theorems": [
    "C48_read",
    "C48_roundtrip",
    "C48_write",
    "C48_set",
    "C48_cart"
   ],
   "note": ""
  },
  {
   "property": "C49",
   "status": "partial",
   "theorems": [
    "C49_args",
    "C49_spelled",
    "C49_parse",
    "C49_rename",
    "C49_structure",
    "C49_cache",
    "C49_separator_refuted",
    "C49_names_refuted"
   ],
   "note": "Holds for every template without an empty separator. That the renamed string is read as the same parts needs new names without characters of a separator. Both are refuted otherwise."
  },
  {
   "property": "C50",
   "status": "proved",
   "theorems": [
    "C50_each_once",
    "C50_order",
    "C50_acyclic"
   ],
   "note": "Also for graphs with cycles: each node once, and the order holds for nodes no cycle leads to."
  },
  {
   "property": "C51",
   "status": "partial",
   "theorems": [
    "C51_resolved",
    "C51_ends",
    "C51_defined",
    "C51_refuted"
   ],
   "note": "What is returned is never an alias. Resolving ends for tables without cycles, which programs define if they never redefine a used target; false in general (proved witness)."
  },
  {
   "property": "C52",
   "status": "proved",
   "theorems": [
    "C52_metadata",
    "C52_header",
    "C52_exact"
   ],
   "note": "Metadata tables are those C54 covers. The entries come back in another order, as pod_format or pod_type is put first."
  },
  {
   "property": "C53",
   "status": "proved",
   "theorems": [
    "C53_roundtrip"
   ],
   "note": "For characters of any size, terminated or padded."
  },
  {
   "property": "C54",
   "status": "partial",
   "theorems": [
    "C54_text_partial",
    "C54_integer_refuted",
    "C54_true_refuted",
    "C54_keys_refuted"
   ],
   "note": "Proved for values without floats, integers of at most -10^18 and true as a key. The refuted theorems show that such integers become floats, that a key true becomes 1, and that a table with both keys loses an entry."
  },
  {
   "property": "C55",
   "status": "proved",
   "theorems": [
    "C55_label_image"
   ],
   "note": ""
  },
  {
   "property": "C56",
   "status": "proved",
   "theorems": [
    "C56_spritesheet_image"
   ],
   "note": ""
  },
  {
   "property": "C57",
   "status": "proved",
   "theorems": [
    "C57_folding_preserves"
   ],
   "note": "For every machine semantics that computes the operators as C27 states; the condition excludes only the C29 finding. Statements and constant variables are outside this theorem."
  },
  {
   "property": "C58",
   "status": "proved",
   "theorems": [
    "C58_literal_exact"
   ],
   "note": ""
  },
  {
   "property": "C59",
   "status": "partial",
   "theorems": [
    "C59_quoted_read_partial",
    "C59_quoted_token",
    "C59_quoted_read_refuted"
   ],
   "note": "False when a whitespace-skipping escape stands right before the closing quote (TypeError, proved witness). \\\\u escapes of Lua 5.4 are left out of the specification."
  },
  {
   "property": "C60",
   "status": "partial",
   "theorems": [
    "C60_tokenize_terminates_partial",
    "C60_tokenize_terminates_refuted",
    "C60_tokens_in_source"
   ],
   "note": "False for a text ending inside a string with backslash z and whitespace: endless loop (proved witness)."
  },
  {
   "property": "C61",
   "status": "proved",
   "theorems": [
    "C61_p8_text"
   ],
   "note": "As C17."
  },
  {
   "property": "C62",
   "status": "proved",
   "theorems": [
    "C62_p8_sections"
   ],
   "note": "As C17."
  },
  {
   "property": "C63",
   "status": "proved",
   "theorems": [
    "C63_raw_source"
   ],
   "note": "As C17."
  },
  {
   "property": "C64",
   "status": "proved",
   "theorems": [
    "C64_merge"
   ],
   "note": "For carts whose directories are all there."
  },
  {
   "property": "C65",
   "status": "partial",
   "theorems": [
    "C65_tiny_partial",
    "C65_smallest",
    "C65_tiny_refuted"
   ],
   "note": "Holds for programs of three or more bytes not starting with p64 or a compressed-code header, whose matches the compressor keeps in order (see C02); fails for a program starting with p64 and one of one byte."
  },
  {
   "property": "C66",
   "status": "proved",
   "theorems": [
    "C66_read",
    "C66_sound",
    "C66_exact",
    "C66_unambiguous",
    "C66_tokens"
   ],
   "note": "The function-body reader is a parameter that takes some tokens beginning with an opening parenthesis. The print shorthand inside an expression is not modelled."
  },
  {
   "property": "C67",
   "status": "partial",
   "theorems": [
    "C67_roundtrip",
    "C67_exact",
    "C67_unicode",
    "C67_short_refuted"
   ],
   "note": "Proved for the values of C54 whose userdata have as much data as their sizes say. Userdata with less data is written but cannot be read back when compressed (C67_short_refuted). Compression is shown to succeed when the plain bytes are fewer than 2^31-1."
  },
  {
   "property": "C68",
   "status": "partial",
   "theorems": [
    "C68_format",
    "C68_bytes",
    "C68_pod",
    "C68_remove",
    "C68_unended_refuted",
    "C68_bytes_refuted"
   ],
   "note": "Proved for files whose header is ended or which have none. Fails for a header without an end and for bytes that look like a header stored in a file without one."
  },
  {
   "property": "C69",
   "status": "proved",
   "theorems": [
    "C69_cart",
    "C69_read",
    "C69_missing"
   ],
   "note": ""
  },
  {
   "property": "C70",
   "status": "partial",
   "theorems": [
    "C70_locals_partial",
    "C70_assign_locals_partial",
    "C70_assign_safe_partial",
    "C70_locals_refuted",
    "C70_close_refuted",
    "C70_assign_safe_refuted",
    "C70_assign_unsafe_refuted"
   ],
   "note": "Proved for declarations (without closed variables, and unless the second has no value after a call) and for assignments to variables: locals that no function shares in every mode, all variables with safe reordering. Refuted for the rest, also for table targets with safe reordering."
  },
  {
   "property": "C71",
   "status": "partial",
   "theorems": [
    "C71_exact",
    "C71_text",
    "C71_read",
    "C71_unambiguous",
    "C71_total",
    "C71_return_refuted"
   ],
   "note": "The parser is proved to be exactly the grammar. One construct of Lua is not in it: a bare return as the last token of a program, which the parser rejects (refuted)."
  },
  {
   "property": "C72",
   "status": "partial",
   "theorems": [
    "C72_lines",
    "C72_minify",
    "C72_flat",
    "C72_tokens",
    "C72_print_refuted",
    "C72_nested_refuted",
    "C72_else_refuted"
   ],
   "note": "Proved for all programs whose shorthands can be told from what follows them (fits), which includes all programs where every shorthand ends with its line and has no other shorthand inside but prints (flat). Refuted for three nestings: a print shorthand at the end of a shorthand that ends within a line, and statements or an else after a shorthand that ends with a line but is inside another."
  },
  {
   "property": "C73",
   "status": "partial",
   "theorems": [
    "C73_same",
    "C73_minify",
    "C73_flat",
    "C73_tokens",
    "C73_do_refuted",
    "C73_return_refuted",
    "C73_call_refuted"
   ],
   "note": "Proved for all programs that fit (as in C72) and obey lua: targets are variables or fields, return is last in its block and not bare at the end of the program, the condition of a shorthand is in parentheses and its body does not begin with do behind a semicolon. Refuted without the last three: the shorthand while (a) ;do b() end c() becomes a loop that c() is no longer in. Spellings of strings and numbers are other properties."
  },
  {
   "property": "C74",
   "status": "partial",
   "theorems": [
    "C74_text",
    "C74_again",
    "C74_semi_refuted",
    "C74_minus_refuted",
    "C74_index_refuted",
    "C74_cond_refuted",
    "C74_elseif_refuted",
    "C74_else_refuted"
   ],
   "note": "Proved for all programs without the constructs that are refuted (neat): a semicolon before a statement that begins with a parenthesis, a minus before a minus, a bracket before a long string, a shorthand whose condition ends with the parentheses of a call, a shorthand after elseif, a semicolon in the else of a shorthand; and that obey Lua (targets, returns last). Comments are not modelled."
  },
  {
   "property": "C75",
   "status": "partial",
   "theorems": [
    "C75_same",
    "C75_minify",
    "C75_long",
    "C75_short",
    "C75_left",
    "C75_alone",
    "C75_body_refuted",
    "C75_behind_refuted",
    "C75_do_refuted",
    "C75_print_refuted"
   ],
   "note": "Proved for all programs whose shorthands each end with a line, inside another only at its end (lined), that obey Lua (targets, returns last), and without the constructs that are refuted (plain): statements that begin with a parenthesis, print() without arguments, bodies that begin with ; do. Which types are to be changed is a parameter."
  },
  {
   "property": "C76",
   "status": "partial",
   "theorems": [
    "C76_count",
    "C76_text",
    "C76_minify",
    "C76_shorthands",
    "C76_unminify",
    "C76_word_refuted",
    "C76_table_refuted"
   ],
   "note": "Proved for all programs, spacings and choices of shorthands, for programs with no minus or ~ between a word (... nil true false) and a number and no statement that begins with a sign (even); that the signs of numbers are right before them in the output (signs_close) is a hypothesis on the spacing; changes of shorthands for programs as in C75; C76_word_refuted shows that a minus behind ... counts only with a space behind it. Hints in comments that end the count are not modelled."
  },
  {
   "property": "C77",
   "status": "partial",
   "theorems": [
    "C77_runs",
    "C77_literals",
    "C77_read",
    "C77_body_refuted",
    "C77_behind_refuted",
    "C77_do_refuted"
   ],
   "note": "C77_runs: for all programs and machines (coroutines and the effect of <const>/<close> are not in the semantics), resolved programs run the same. C77_read: the output is read as a program that runs the same, for programs that obey Lua, without if/while shorthands and without statements that begin with a parenthesis; the other three show that the output does something else there."
  },
  {
   "property": "C78",
   "status": "partial",
   "theorems": [
    "C78_minify",
    "C78_tidy",
    "C78_lines",
    "C78_unminify"
   ],
   "note": "For all programs and machines, under the conditions of C75 (lined, lua, plain), C73 (fits, lua), C72 (fits) and C74 (neat); outside of them the refutations there apply. Folding of constants is C57 and C77; renaming is not part of this."
  },
  {
   "property": "C79",
   "status": "proved",
   "theorems": [
    "C79_tree",
    "C79_runs",
    "C79_safe"
   ],
   "note": "For all programs, rules, machines and runs. The conditions are part of the property: nothing but globals in _ENV, jumps as Lua allows them, no key preserved for some tables only, not the rule \"*=*.*\" (see C37_members_refuted). Strings used as names of keys or globals are values of the machine: the theorem says what happens when they follow the new names, as the README asks of the user. Hints in comments are not modelled."
  },
  {
   "property": "C80",
   "status": "partial",
   "theorems": [
    "C80_runs_partial",
    "C80_values_refuted",
    "C80_unreadable_refuted"
   ],
   "note": "For all machines and all programs of the trees of C71 that jump as Lua allows and are \"fine\" (S_Const): no local called _ENV and no local statement that declares print, assigned are only variables and members, no and/or with a call or ... on the right where several values count (C29), and where a local statement has more variables than values only its last value is a call or .... C80_values_refuted shows that the last condition is needed; C80_unreadable_refuted that the output of a program that does the same as a tree need not be readable (nil.z). Hints (--[[const]]) and constants from the command line are not modelled."
  },
  {
   "property": "C81",
   "status": "proved",
   "theorems": [
    "C81_not_found",
    "C81_builtin_assigned",
    "C81_runs"
   ],
   "note": "For all programs of the trees of C71, all options and builtins (no builtin is a local called _ENV). C81_runs: for programs whose jumps have labels and go where Lua allows and that have no local called _ENV; coroutines are not in the semantics. Places in the file, suggestions and hints in comments other than the two lists are not modelled."
  },
  {
   "property": "C82",
   "status": "proved",
   "theorems": [
    "C82_locals",
    "C82_globals",
    "C82_labels"
   ],
   "note": "For all programs and options."
  },
  {
   "property": "C83",
   "status": "partial",
   "theorems": [
    "C83_hiding",
    "C83_like_globals",
    "C83_labels_refuted"
   ],
   "note": "C83_hiding, C83_like_globals: for all programs and options. C83_labels_refuted: a label called like one more than one function beyond its neighbours is not reported, as LabelScope.find does not pass crossfunc on."
  },
  {
   "property": "C84",
   "status": "proved",
   "theorems": [
    "C84_spaces",
    "C84_minify",
    "C84_rename",
    "C84_safe"
   ],
   "note": "For all texts, rules, options, machines and runs, under the conditions in the property (S_Short: lined, plain_blk; S_Tidy: lua; P_Alpha: no_env, no_env_keys, even_keys), and that no other name becomes print. Composes C34, C37, C71, C75, C78 and C79 over a tokenizer that counts lines. The renamed tree is any tree of the shape of the old one with the new names (there is one, C79_tree). Folding constants is left out (C80_unreadable_refuted), as are comments that are kept, hints and includes."
  },
  {
   "property": "C85",
   "status": "proved",
   "theorems": [
    "C85_inside",
    "C85_keeps",
    "C85_check"
   ],
   "note": "For all carts, file systems and destinations, also when the writing stops with an error. The model has no symbolic links: what a link already in the destination would do is not covered."
  },
  {
   "property": "C86",
   "status": "partial",
   "theorems": [
    "C86_write",
    "C86_read",
    "C86_round_trip",
    "C86_write_one",
    "C86_read_one",
    "C86_refuted",
    "C86_same_name_refuted"
   ],
   "note": "C86_write, C86_read, C86_round_trip: for all carts whose files are each in a directory of the cart, with plain names and no file called like a directory. C86_refuted: a file whose directory is not itself in the cart is left out without an error. C86_same_name_refuted: a file called like a directory is put into it, over the one that belongs there."
  },
  {
   "property": "C87",
   "status": "partial",
   "theorems": [
    "C87_p8",
    "C87_lua",
    "C87_png",
    "C87_clip",
    "C87_url",
    "C87_code",
    "C87_rom",
    "C87_tiny",
    "C87_cr_refuted",
    "C87_lua_refuted",
    "C87_rom_refuted"
   ],
   "note": "C87_p8, C87_lua, C87_code, C87_png, C87_clip, C87_url: for all carts, both ways to read. C87_rom, C87_tiny: with the format named. The PNG coder is any pair of functions that undo each other. C87_cr_refuted: a carriage return becomes a newline if the format is named. C87_lua_refuted: code that begins like another format. C87_rom_refuted: roms are not recognised, all their memory is lost. Missing: exports."
  },
  {
   "property": "C88",
   "status": "partial",
   "theorems": [
    "C88_rom",
    "C88_p64",
    "C88_png",
    "C88_lua",
    "C88_lua_refuted"
   ],
   "note": "C88_rom: for roms of less than 16 megabytes (the header must have a zero byte to be recognised). C88_p64, C88_lua: under the conditions of C45, and if the code does not begin like another format (C88_lua_refuted). C88_png: only that the picture is handed to the reader of pictures."
  },
  {
   "property": "C89",
   "status": "partial",
   "theorems": [
    "C89_meta",
    "C89_key_refuted",
    "C89_regular_refuted"
   ],
   "note": "C89_meta: for all carts whose selected files have no header or one that is a table of strings to storable values (see C52), with the format first if it is raw, and raw contents that do not look like a header. C89_key_refuted: a key that is not a string stops the command. C89_regular_refuted: a header with pod_format raw that is not first."
  },
  {
   "property": "C90",
   "status": "proved",
   "theorems": [
    "C90_repack"
   ],
   "note": "For all carts whose pods can be read and are storable values (C67); if they are compressed, of less than 2 gigabytes each. Strings may change from one text to another with the same bytes."
  },
  {
   "property": "C91",
   "status": "proved",
   "theorems": [
    "C91_lines"
   ],
   "note": "For all texts of both languages. The specification of what is between tokens is in S_Gap. Comments with hints are comments here."
  },
  {
   "property": "C92",
   "status": "partial",
   "theorems": [
    "C92_contents",
    "C92_inside",
    "C92_inside_refuted"
   ],
   "note": "C92_contents: for all data, between double quotes. C92_inside: with plain text before and any literal body after, unless data that end with a zero byte are followed by a digit. C92_inside_refuted: in that case the escape takes in the digit, and the data are not those given."
  },
  {
   "property": "C93",
   "status": "proved",
   "theorems": [
    "C93_hints",
    "C93_tokens"
   ],
   "note": "For all texts of both languages, in a context without user-defined languages, compilers, includes and aliases; placeholders are left out. str.isspace is a parameter that is right on ASCII."
  },
  {
   "property": "C94",
   "status": "proved",
   "theorems": [
    "C94_rules",
    "C94_kept",
    "C94_lint",
    "C94_lint_quiet",
    "C94_count"
   ],
   "note": "For all texts of both languages, in a context as for C93. C94_rules, C94_kept: the rules, by C38 which names are kept. C94_lint, C94_lint_quiet: the linter, on top of C81 and C82. C94_count: the count. That trees keep the order of tokens (traverse_tokens) is taken from the code."
  },
  {
   "property": "C95",
   "status": "partial",
   "theorems": [
    "C95_kept_partial",
    "C95_text",
    "C95_none",
    "C95_where",
    "C95_opened_refuted",
    "C95_minus_refuted",
    "C95_glued_refuted",
    "C95_inner_refuted"
   ],
   "note": "C95_kept_partial: for all tokens and comments of both languages, if the text behind \"keep:\" does not begin a bracket comment, the comment may stand right behind the token before it, and a shorthand is not followed by a bracket comment that is glued to the next token or has a line break; the full claim is false of the code in each of these four cases (the refuted theorems). C95_text: what is kept of a comment. C95_none: with no comments this is the output of C34. C95_where: behind names, keywords, strings and brackets comments may always stand."
  },
  {
   "property": "C96",
   "status": "partial",
   "theorems": [
    "C96_orig_partial",
    "C96_tokens",
    "C96_line",
    "C96_where",
    "C96_bracket_refuted"
   ],
   "note": "C96_orig_partial: for all tokens, comments and texts between them of both languages, for any positions of removed tokens in these texts; if a comment that must become one in brackets does not end with a closing bracket (then the claim is false of the code: C96_bracket_refuted), and comments directly behind a token may stand there. The line break behind a shorthand is proved where no comment in brackets before the token goes over lines, or where the source has a break elsewhere if the token is on another line, as the tokenizer counts lines (a break in a comment in brackets is taken for the break needed, though it is not counted as one). The last comment of a file may end without a line break. C96_tokens: without comments, with no condition but that whitespace in the source is whitespace. C96_line: the comment in brackets. C96_where: behind names, keywords, strings and brackets comments may always stand."
  },
  {
   "property": "C97",
   "status": "partial",
   "theorems": [
    "C97_broken",
    "C97_lint",
    "C97_done_partial",
    "C97_written",
    "C97_code",
    "C97_script_refuted"
   ],
   "note": "For all options, carts and outputs, with the passes as any functions. C97_broken, C97_lint, C97_written: nothing is written. C97_done_partial: what is written; if the script of the user reports nothing or the linter is asked for. The full claim is false of the code: if a script reports something and there is no --lint, the cart is written with exit code 0, but not minified (C97_script_refuted). C97_code: what each exit code means."
  },
  {
   "property": "C98",
   "status": "proved",
   "theorems": [
    "C98_icon",
    "C98_unique",
    "C98_parts",
    "C98_short"
   ],
   "note": "For all data of 128x128 pixels (or more; with less it is an IndexError: C98_short). What is read is stated by the icns format (S_Icns): parts with lengths and packed runs, which are read and unpack in one way only (C98_parts, C98_unique)."
  },
  {
   "property": "C99",
   "status": "proved",
   "theorems": [
    "C99_template",
    "C99_found"
   ],
   "note": "For all data, prefixes without zeros and infixes; the bytes, before they are decoded. C99_found: a text with no other before it is the one found."
  }
 ]
}