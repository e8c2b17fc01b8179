{"id": "C01", "title": "Fast code compression loses nothing", "statement": "Storing cart code with the default (pxa) compression format in fast mode and reading it back returns exactly the same characters, and the size field stored in the header is the number of bytes written.", "quantifier": "every code string of 8-bit characters shorter than 65536 whose compressed form fits in 64k, every preceding stream content, every following stream content", "why_tests_cant": "the set of code strings is unbounded and the compressor's search state depends on the whole history of the string; tests compress a handful of carts", "anchors": ["pico_compress.py:compress_code", "pico_compress.py:uncompress_code", "pico_compress.py:get_lz77", "utils.py:BinaryBitWriter", "utils.py:BinaryBitReader"]}
{"id": "C02", "title": "Default (optimal) code compression loses nothing", "statement": "Storing cart code with the default compression options (cost-driven parse plus heuristic literal blocks) and reading it back returns the same characters.", "quantifier": "every code string of 8-bit non-NUL characters shorter than 65536", "why_tests_cant": "the literal-block heuristic reacts to a sliding window of costs over the whole code; only specially shaped codes trigger its bad states", "anchors": ["pico_compress.py:compress_code.preprocess_litblock_idxs", "pico_compress.py:get_lz77", "pico_compress.py:uncompress_code"]}
{"id": "C03", "title": "The LZ77 parse always spells out its input", "statement": "Whatever cost function, cost bound, cheaper-count function, offset steps, speed options and (ordered) literal-block positions are passed, the sequence of literals, back-references and literal blocks produced by the match finder expands back to exactly the input, with every back-reference pointing inside already produced output and respecting the count and offset limits.", "quantifier": "every input sequence, every cost callback, every option combination, every ordered list of literal-block positions", "why_tests_cant": "callbacks range over a function space and match lists switch representation only after hundreds of occurrences", "anchors": ["pico_compress.py:get_lz77", "pico_compress.py:Lz77Entry", "pico_compress.py:SubMatchDict"]}
{"id": "C04", "title": "The pxa stream format decodes every valid parse", "statement": "For any way of splitting code into literals, back-references (offset 1..32768, count at least 3) and literal blocks (no NUL inside), the bit stream written for it is decoded to exactly that code, and the decoder consumes exactly the bytes that were written.", "quantifier": "every item sequence that is valid for its own history; any trailing bytes after the stream", "why_tests_cant": "the move-to-front state makes each code word depend on all previous ones; infinitely many item sequences", "anchors": ["pico_compress.py:compress_code.write_literal", "pico_compress.py:compress_code.write_match", "pico_compress.py:compress_code.write_litblock", "pico_compress.py:uncompress_code", "pico_compress.py:update_mtf"]}
{"id": "C05", "title": "Old-format code compression loses nothing", "statement": "Storing cart code with --old-compression in a zero-padded rom area and reading it back returns the same characters.", "quantifier": "every code string of 8-bit non-NUL characters shorter than 65536 for which the compressor succeeds", "why_tests_cant": "unbounded inputs; depends on the no-overlap restriction holding for every match that can ever be found", "anchors": ["pico_compress.py:compress_code", "pico_compress.py:uncompress_code"]}
{"id": "C06", "title": "Old-format compression never fails on valid code", "statement": "Compressing with the old format (either speed) succeeds for every code string whose compressed size fits, i.e. every byte it writes is in range.", "quantifier": "every code string of 8-bit characters", "why_tests_cant": "the failing state needs more than 200 occurrences of the same three characters followed by a particular shape", "anchors": ["pico_compress.py:get_lz77.find_match", "pico_compress.py:compress_code.write_match"]}
{"id": "C07", "title": "The decompressor never returns code of the wrong length", "statement": "Reading arbitrary bytes as compressed pxa code either raises an error or returns exactly the number of characters declared in the header; a back-reference before the start of the output is always an error.", "quantifier": "every byte stream", "why_tests_cant": "all malformed inputs cannot be enumerated", "anchors": ["pico_compress.py:uncompress_code"]}
{"id": "C08", "title": "The reported compressed size is what is stored", "statement": "The size computed from a stored cart's code area equals the number of bytes the compressor wrote for it.", "quantifier": "every code string, each storage format", "why_tests_cant": "must hold for every code and format", "anchors": ["pico_compress.py:get_compressed_size", "pico_compress.py:compress_code"]}
{"id": "C09", "title": "Bit streams read back what was written", "statement": "Writing any sequence of bit fields and flushing, then reading fields of the same widths returns the same values, and the number of bytes is the total bit count rounded up.", "quantifier": "every list of (width, value) fields with value below 2^width, in any order and alignment", "why_tests_cant": "arbitrary interleavings of widths across byte boundaries", "anchors": ["utils.py:BinaryBitWriter", "utils.py:BinaryBitReader"]}
{"id": "C10", "title": "LZ4 blocks decode to what was encoded", "statement": "Compressing any bytes with the built-in LZ4 block writer and decompressing with the built-in reader returns the same bytes.", "quantifier": "every byte string", "why_tests_cant": "unbounded data, run-length extension bytes only appear for long matches/literal runs", "anchors": ["pico_export.py:lz4_compress", "pico_export.py:lz4_uncompress"]}
{"id": "C11", "title": "LZ4 blocks obey the end-of-block rules of the LZ4 format", "statement": "Every block written ends with a literals-only sequence; the last 5 bytes are literals and no match starts within the last 12 bytes, so standard LZ4 decoders accept it.", "quantifier": "every byte string", "why_tests_cant": "depends on the interaction of the parse with the end of input for every input", "anchors": ["pico_export.py:lz4_compress"]}
{"id": "C12", "title": "Picotron userdata (pxu) images survive a round trip", "statement": "Encoding a flat list of 8-bit or 16-bit values as a pxu and decoding it returns the same values.", "quantifier": "every value list, every width/height split, both element types", "why_tests_cant": "run lengths and the recency mapping evolve with the data; long runs need continuation bytes", "anchors": ["picotron_fs.py:write_pxu", "picotron_fs.py:read_pxu"]}
{"id": "C13", "title": "Cart bytes hidden in a PNG are recovered exactly and the picture stays almost the same", "statement": "Writing cart bytes into the pixels of the cart image and reading the image back yields the same bytes, and every colour channel of every pixel keeps its top 6 bits.", "quantifier": "every image of the right size, every byte string of cart size", "why_tests_cant": "2^(pixels*32) images", "anchors": ["pico_cart.py:write_cart_to_image", "pico_cart.py:read_cart_from_image"]}
{"id": "C14", "title": "Picotron cart bytes hidden in a PNG are recovered exactly", "statement": "Writing a Picotron rom into the image pixels (11 bits per pixel) and reading the image back yields the same bytes, and the upper channel bits are kept.", "quantifier": "every image, every rom that fits", "why_tests_cant": "unbounded", "anchors": ["picotron_cart.py:write_cart64_to_image", "picotron_cart.py:read_cart64_from_image"]}
{"id": "C15", "title": "A rom file preserves the whole cart", "statement": "Reading back a written rom returns the same data memory, the same code and the same version information.", "quantifier": "every cart (any data memory contents, any code that fits)", "why_tests_cant": "2^(8*0x4300) memories times all codes", "anchors": ["pico_cart.py:write_cart_to_rom", "pico_cart.py:read_cart_from_rom"]}
{"id": "C16", "title": "A tiny rom preserves the code", "statement": "A tiny (code only) rom file read back gives the same code.", "quantifier": "every code string", "why_tests_cant": "unbounded; the tail of the file is not padded", "anchors": ["pico_cart.py:write_cart_to_tiny_rom", "pico_cart.py:read_cart_from_tiny_rom"]}
{"id": "C17", "title": "The .p8 text format preserves graphics, map and flags", "statement": "The __gfx__, __map__ and __gff__ sections written for any memory, read back, reproduce that memory region byte for byte.", "quantifier": "every memory contents", "why_tests_cant": "state space of 0x3100 bytes; line trimming depends on content", "anchors": ["pico_cart.py:write_cart_to_source", "pico_cart.py:read_cart_from_source"]}
{"id": "C18", "title": "The .p8 text format preserves sound and music", "statement": "The __sfx__ and __music__ sections written for any memory, read back, reproduce that memory region byte for byte.", "quantifier": "every memory contents", "why_tests_cant": "note fields are split over nibbles with bit shuffles; state space too large", "anchors": ["pico_cart.py:write_cart_to_source", "pico_cart.py:read_cart_from_source"]}
{"id": "C19", "title": "The .p8 text format preserves the label picture", "statement": "A cart label (128x128 values 0..31) written to text and read back is the same, an absent or blank label reads back as absent.", "quantifier": "every label", "why_tests_cant": "32^16384 labels", "anchors": ["pico_cart.py:write_cart_to_source", "pico_cart.py:read_cart_from_source"]}
{"id": "C20", "title": "Code in a .p8 text file is read back unchanged", "statement": "The __lua__ section of a written .p8 read back yields the same code.", "quantifier": "every code string without include directives or section-header lines", "why_tests_cant": "arbitrary text", "anchors": ["pico_cart.py:write_cart_to_source", "pico_cart.py:read_cart_from_source"]}
{"id": "C21", "title": "URL carts preserve code and graphics", "statement": "A cart exported to a URL and read back has the same code and the same first-sprite-sheet graphics.", "quantifier": "every code and graphics memory that fits in the URL limit", "why_tests_cant": "run-length encoder state; unbounded inputs", "anchors": ["pico_cart.py:write_cart_to_url", "pico_cart.py:read_cart_from_url"]}
{"id": "C22", "title": "Clipboard carts are recovered exactly", "statement": "The [cart]...[/cart] clipboard text of any rom bytes reads back to the same bytes.", "quantifier": "every byte string", "why_tests_cant": "unbounded", "anchors": ["pico_cart.py:write_cart_to_clip", "pico_cart.py:read_cart_from_clip"]}
{"id": "C23", "title": "P8SCII <-> Unicode conversion is lossless", "statement": "Converting any 8-bit PICO-8 string to Unicode text and back returns the same string, even though some characters map to two code points.", "quantifier": "every string of characters 0..255", "why_tests_cant": "all strings, including adjacent multi-code-point characters whose encodings might run together", "anchors": ["pico_defs.py:to_p8str", "pico_defs.py:from_p8str", "pico_defs.py:k_charset"]}
{"id": "C24", "title": "Memory accessors behave like an array of bytes", "statement": "After writing a nibble/byte/word/dword at an address, reading it back gives the value modulo its width, and every non-overlapping location is unchanged.", "quantifier": "every memory, address and value", "why_tests_cant": "2^n states", "anchors": ["pico_defs.py:Memory"]}
{"id": "C25", "title": "Rom sections occupy disjoint memory except the shared sprite/map area", "statement": "Writing through the accessors of one rom section never changes what the accessors of another section read, except the documented overlap of the lower sprite sheet with the lower half of the map.", "quantifier": "every memory, every in-range coordinate", "why_tests_cant": "all coordinate pairs times all memories", "anchors": ["pico_defs.py:mem_sprite_addr", "pico_defs.py:mem_map_addr", "pico_defs.py:mem_flag_addr", "pico_defs.py:mem_music_addr", "pico_defs.py:mem_sfx_addr", "pico_defs.py:mem_sfx_info_addr"]}
{"id": "C26", "title": "Merging carts touches only the requested sections", "statement": "Merging sections of one cart into another changes exactly the requested sections (to the source's contents) and nothing else.", "quantifier": "every pair of carts, every list of section names", "why_tests_cant": "all memories and all section lists", "anchors": ["pico_cart.py:merge_cart"]}
{"id": "C27", "title": "Constant folding computes what PICO-8 computes", "statement": "Whenever a constant numeric expression is folded, the folded 16.16 fixed-point value equals the one the PICO-8 machine computes for the same operator and operands.", "quantifier": "every pair of 32-bit fixed point operands, every foldable operator", "why_tests_cant": "2^64 operand pairs per operator", "anchors": ["pico_constfold.py:lua_add..lua_rotr", "pico_defs.py:num_to_fixnum", "pico_defs.py:fixnum_to_num"]}
{"id": "C28", "title": "Constant folding always terminates", "statement": "Evaluating any foldable operator on any constant operands terminates.", "quantifier": "every operator and pair of operands", "why_tests_cant": "one operand value out of 2^32 triggers unbounded recursion", "anchors": ["pico_constfold.py:lua_shl", "pico_constfold.py:lua_shr", "pico_constfold.py:lua_lshr", "pico_constfold.py:lua_rotl", "pico_constfold.py:lua_rotr"]}
{"id": "C29", "title": "Constant folding keeps the number of values", "statement": "Replacing a foldable expression by its folded form never changes how many values it produces in a multi-value position (argument list, return, table constructor).", "quantifier": "every expression", "why_tests_cant": "all expression shapes", "anchors": ["pico_constfold.py:fold_consts"]}
{"id": "C30", "title": "Minified PICO-8 numbers keep their value", "statement": "Printing any 16.16 fixed-point constant and parsing the printed text as a PICO-8 number yields the same constant.", "quantifier": "all 2^32 fixed point values", "why_tests_cant": "2^32 values with shortest-decimal rounding at each", "anchors": ["pico_output.py:format_fixnum", "pico_tokenize.py:parse_fixnum"]}
{"id": "C31", "title": "Minified Picotron integers keep their value", "statement": "Printing any 64-bit integer constant and parsing the printed text yields the same constant.", "quantifier": "all 2^64 integer values", "why_tests_cant": "2^64 values", "anchors": ["pico_output.py:format_luanum", "pico_tokenize.py:parse_luanum"]}
{"id": "C32", "title": "Minified quoted strings keep their value", "statement": "A string constant printed between quotes is parsed back to the same string, and its printed form is a single string token.", "quantifier": "every string of 8-bit characters, both quote characters and delimiter choices", "why_tests_cant": "escape sequences interact with the next character (e.g. a digit after a numeric escape)", "anchors": ["pico_output.py:format_string_literal", "pico_tokenize.py:parse_string_literal"]}
{"id": "C33", "title": "Minified long-bracket strings keep their value", "statement": "A string constant printed in long brackets is parsed back to the same string.", "quantifier": "every string for which long brackets are chosen", "why_tests_cant": "needs strings ending in a prefix of the closing bracket", "anchors": ["pico_output.py:format_string_literal", "pico_output.py:get_long_brackets_equals"]}
{"id": "C34", "title": "Removing whitespace never fuses or splits tokens", "statement": "Two adjacent tokens printed without whitespace (because the printer decided none is needed) tokenize again to the same two tokens.", "quantifier": "every pair (and hence every sequence) of tokens", "why_tests_cant": "all token pairs including numbers followed by dots, comment starters and long-bracket openers", "anchors": ["pico_output.py:need_whitespace_between", "pico_tokenize.py:tokenize"]}
{"id": "C35", "title": "Removing parentheses never changes how an expression parses", "statement": "After dropping all parentheses the minifier considers redundant, the printed expression parses to the same tree (up to parentheses).", "quantifier": "every expression built from all binary/unary operators, calls, indexing and parentheses", "why_tests_cant": "unbounded nesting of operators of different precedence and associativity", "anchors": ["pico_minify.py:minify_code.fixup_nodes_pre", "pico_parse.py:parse_expr", "pico_parse.py:k_binary_op_precs"]}
{"id": "C36", "title": "Generated identifiers are distinct, valid and not keywords", "statement": "The stream of replacement identifiers never repeats, every element is a valid identifier, is not a keyword, does not start with a digit, and every valid short identifier over the alphabet eventually appears, shortest first.", "quantifier": "all positions in the infinite stream", "why_tests_cant": "infinite stream", "anchors": ["pico_rename.py:get_next_ident_char", "pico_rename.py:get_idents"]}
{"id": "C37", "title": "Renaming never makes two different live variables collide", "statement": "In any program, after renaming, two variables that the renamer must keep apart (both visible at a common use, or both globals/members) never get the same new name, and preserved names are never reused for something they could clash with.", "quantifier": "every set of variables, scopes and usage counts", "why_tests_cant": "all programs", "anchors": ["pico_rename.py:rename_tokens", "pico_rename.py:are_vars_compatible", "pico_rename.py:select_var"]}
{"id": "C38", "title": "Preserve rules combine as one rule whatever the list", "statement": "For any list of --preserve patterns, a name (or a key of a table) is preserved exactly when the most specific rule without wildcards about it (the last one that names it, for keys then table.* then *.key, then the built-in names, then the last *) does not say to rename it, no negative wildcard pattern matches it, and one of these preserves it; keys are renamed like globals exactly when *=*.* is given.", "quantifier": "every pattern list and every name", "why_tests_cant": "all rule lists", "anchors": ["pico_rename.py:IncludeExcludeMapping", "pico_rename.py:TableMemberPairIncludeExcludeMapping"]}
{"id": "C39", "title": "Preprocessing changes only include lines", "statement": "Code without include directives is passed through unchanged, include lines are replaced by exactly the included code, and directives inside strings, comments and long brackets are ignored.", "quantifier": "every code string and every included content", "why_tests_cant": "arbitrary text", "anchors": ["pico_preprocess.py:preprocess_code"]}
{"id": "C40", "title": "Every character of preprocessed code is mapped to the file it came from", "statement": "The location reported for any index in the preprocessed code designates, in the file it names, the very same character.", "quantifier": "every code, every include structure, every index", "why_tests_cant": "all includes and all indices", "anchors": ["pico_preprocess.py:preprocess_code", "pico_preprocess.py:read_included_cart", "pico_preprocess.py:trim_cart_to_tab", "pico_process.py:CartSource.get_location"]}
{"id": "C41", "title": "Tab selection picks exactly the n-th tab", "statement": "Including tab n of a cart yields exactly the text between the n-th and (n+1)-th tab separators, and an error if there are not enough tabs.", "quantifier": "every code and tab number", "why_tests_cant": "arbitrary text with overlapping separators", "anchors": ["pico_preprocess.py:trim_cart_to_tab"]}
{"id": "C42", "title": "Reported line and column identify the position", "statement": "The line number reported for an index is the number of newlines before it and the column is the distance to the last of them.", "quantifier": "every text and index", "why_tests_cant": "arbitrary text", "anchors": ["pico_process.py:get_line_col", "pico_process.py:get_tab_line_col"]}
{"id": "C43", "title": "Picotron path filters mean what they say", "statement": "A path is selected by a filter list exactly when some positive pattern matches it and no negative pattern does, independent of order.", "quantifier": "every pattern list and path", "why_tests_cant": "all lists and paths", "anchors": ["picotron_defs.py:Cart64Glob", "picotron_cart.py:filter_cart"]}
{"id": "C44", "title": "Picotron roms preserve all files", "statement": "Writing a Picotron cart to a rom and reading it back yields the same files with the same contents.", "quantifier": "every set of files", "why_tests_cant": "unbounded", "anchors": ["picotron_cart.py:write_cart64_to_rom", "picotron_cart.py:read_cart64_from_rom"]}
{"id": "C45", "title": "Picotron text carts (.p64) preserve all files", "statement": "Writing a Picotron cart to .p64 text and reading it back yields the same files with the same contents.", "quantifier": "every set of files", "why_tests_cant": "arbitrary file contents, including carriage returns and header look-alikes", "anchors": ["picotron_cart.py:write_cart64_to_source", "picotron_cart.py:read_cart64_from_source"]}
{"id": "C46", "title": "Editing the entry list of an exported cart bundle keeps all other carts", "statement": "Inserting, replacing, deleting or renaming one cart of an export changes only that entry.", "quantifier": "every bundle, every edit sequence", "why_tests_cant": "all edit histories", "anchors": ["pico_export.py:CartExport", "pico_export.py:PodFile", "pico_export.py:JsExport"]}
{"id": "C47", "title": "Pod export entry insertion keeps offsets consistent", "statement": "After inserting an entry into an exported binary, every previously existing entry's table position still designates its own contents.", "quantifier": "every pod file and insertion point", "why_tests_cant": "all layouts", "anchors": ["pico_export.py:PodFile.insert_content"]}
{"id": "C48", "title": "Picotron system rom entries are preserved", "statement": "Reading a system rom, changing one entry and writing it back changes only that entry.", "quantifier": "every sequence of entries", "why_tests_cant": "all histories", "anchors": ["picotron_export.py:SysRom"]}
{"id": "C49", "title": "Split-language strings keep their structure", "statement": "A split-language string that is parsed and printed again without renames is unchanged, and renaming changes only the parts declared renameable.", "quantifier": "every template and every string", "why_tests_cant": "all nested templates", "anchors": ["scripts/split.py:SplitSubLang"]}
{"id": "C50", "title": "Dependency ordering is a topological order", "statement": "The sorted order contains each item once and every item comes after the items it depends on (for acyclic dependencies).", "quantifier": "every finite dependency graph", "why_tests_cant": "all graphs", "anchors": ["picotron_defs.py:topologic_sort"]}
{"id": "C51", "title": "Language aliases resolve or terminate", "statement": "Resolving an alias name terminates and returns a name that is not itself an alias.", "quantifier": "every alias table", "why_tests_cant": "cyclic tables loop forever", "anchors": ["pico_process.py:ContextBase.map_aliases"]}
{"id": "C52", "title": "Metadata escaping is reversible", "statement": "Metadata written into a Picotron file header is parsed back unchanged whatever the text contains, and never terminates the header early.", "quantifier": "every metadata string", "why_tests_cant": "arbitrary text", "anchors": ["picotron_fs.py:escape_meta", "picotron_fs.py:PicotronFile"]}
{"id": "C53", "title": "Fixed-size zero-terminated fields are recovered", "statement": "A byte string without zero bytes stored in a zero-terminated or zero-padded field is read back unchanged.", "quantifier": "every byte string and field size", "why_tests_cant": "unbounded", "anchors": ["utils.py:_read_zbytes", "utils.py:_write_zbytes"]}
{"id": "C54", "title": "Pod values survive printing and parsing", "statement": "A Picotron pod value (nil, booleans, integers, strings, nested tables) printed to text and parsed back is the same value.", "quantifier": "every pod value of any nesting depth", "why_tests_cant": "unbounded nesting and string contents", "anchors": ["picotron_fs.py:format_pod", "picotron_fs.py:parse_pod"]}
{"id": "C55", "title": "Label pictures are recovered exactly", "statement": "Writing a cart's label as a picture file and reading that picture as a label gives the same label.", "quantifier": "every label with values 0..31", "why_tests_cant": "32^16384 labels", "anchors": ["pico_cart.py:write_cart_label", "pico_cart.py:read_cart_label"]}
{"id": "C56", "title": "Sprite sheet pictures are recovered exactly", "statement": "Writing a cart's sprite sheet as a picture and reading that picture as a sprite sheet gives the same sprite memory and leaves everything else at its default.", "quantifier": "every memory contents", "why_tests_cant": "all memories", "anchors": ["pico_cart.py:write_cart_spritesheet", "pico_cart.py:read_cart_spritesheet"]}
{"id": "C57", "title": "Folding an expression keeps its value, effects and errors", "statement": "Replacing an expression by its folded form never changes its value, the effects of evaluating it, or whether it fails, on any machine that computes the operators correctly; as an operand this holds always, in multi-value positions whenever no and/or ends in a call there.", "quantifier": "every expression, machine state and behaviour of the non-constant parts", "why_tests_cant": "all expression shapes and all programs around them", "anchors": ["pico_constfold.py:fold_consts", "pico_constfold.py:get_const", "pico_constfold.py:set_const"]}
{"id": "C58", "title": "Reading a PICO-8 number literal yields the exact constant", "statement": "Parsing a decimal or hexadecimal PICO-8 literal gives exactly its value rounded down to a 65536th (wrapped to 32 bits), although the parser computes with binary floating point: no literal is off by one unit.", "quantifier": "every unsigned literal whose denominator is at most a million and whose value is below 131071", "why_tests_cant": "about 2^37 literals, and rounding errors appear only at rare boundaries", "anchors": ["pico_tokenize.py:parse_fixnum", "pico_defs.py:num_to_fixnum"]}
{"id": "C59", "title": "Every quoted string literal is read as the string it denotes", "statement": "Reading a valid string literal in quotes, with any mix of named, decimal, hexadecimal and whitespace-skipping escapes, gives exactly the string it denotes, and the tokenizer sees it as one token whatever follows.", "quantifier": "every valid quoted literal in both languages", "why_tests_cant": "unbounded literals and escape combinations", "anchors": ["pico_tokenize.py:parse_string_literal", "pico_tokenize.py:tokenize"]}
{"id": "C60", "title": "Tokenizing always ends and tokens are where they claim to be", "statement": "The tokenizer terminates on every text; every token's text is the source text at the token's position, and without errors tokens are in order and do not overlap.", "quantifier": "every text, valid or not", "why_tests_cant": "unbounded texts; the endless loop needs one specific ending", "anchors": ["pico_tokenize.py:tokenize"]}
{"id": "C61", "title": "A .p8 text file holds the whole cart", "statement": "Writing a cart as .p8 text and reading that text gives the same memory, code, label, further (meta) sections and version, and hands the preprocessor the code with the line it starts at.", "quantifier": "every cart whose code and meta lines do not look like section headers or end in a carriage return", "why_tests_cant": "all memories, codes and labels at once; interactions between trimmed sections", "anchors": ["pico_cart.py:write_cart_to_source", "pico_cart.py:read_cart_from_source"]}
{"id": "C62", "title": "A .p8 text file of some sections holds exactly these", "statement": "Writing only the named sections and reading the text gives those sections' contents and the defaults everywhere else, whatever the rest of the cart holds.", "quantifier": "every cart and every list of section names", "why_tests_cant": "all memories and section lists", "anchors": ["pico_cart.py:write_cart_to_source", "pico_cart.py:read_cart_from_source"]}
{"id": "C63", "title": "Raw source files hold the code", "statement": "Code written as a raw source file and read as such is unchanged, except that one newline at its very end is dropped.", "quantifier": "every code whose lines do not end in a carriage return", "why_tests_cant": "unbounded code strings", "anchors": ["pico_cart.py:write_cart_to_raw_source", "pico_cart.py:read_cart_from_source"]}
{"id": "C64", "title": "Merging Picotron carts keeps what it should", "statement": "After merging, each path holds the file of the source cart if that has one which is selected, otherwise the file the destination had, otherwise a new directory if it is around a file taken over, otherwise nothing.", "quantifier": "every two carts with paths without empty directory names, every filter list", "why_tests_cant": "all sets of paths and filters", "anchors": ["picotron_cart.py:merge_cart64"]}
{"id": "C65", "title": "Tiny Picotron roms keep the program", "statement": "Writing a cart as a tiny rom and reading the result gives the program back.", "quantifier": "every program text, fast compression or not", "why_tests_cant": "unbounded program strings and three storage forms told apart by their first bytes", "anchors": ["picotron_cart.py:write_cart64_to_tiny_rom", "picotron_cart.py:read_cart64_from_rom"]}
{"id": "C66", "title": "Expressions are read exactly by Lua's operator grammar", "statement": "A token sequence is accepted as an expression if and only if it is the printed form of a tree that obeys the operator levels, associativity, call and table rules of the language; that tree is unique and is the one returned.", "quantifier": "every token sequence, every nesting of operators, calls, indexing, tables and function expressions, both languages", "why_tests_cant": "unbounded nesting; both directions (nothing else is accepted, nothing is rejected) and uniqueness are universal statements", "anchors": ["pico_parse.py:parse_expr", "pico_parse.py:parse_core_expr", "pico_parse.py:parse_table", "pico_parse.py:parse_call", "pico_parse.py:k_binary_op_precs"]}
{"id": "C67", "title": "Pod values survive being stored as bytes", "statement": "A Picotron value written as bytes, with any choice of compression, compressed userdata and base64, is read back as the same value: strings keep their bytes, everything else is equal.", "quantifier": "every value of any nesting depth, every option", "why_tests_cant": "unbounded nesting, arbitrary bytes in strings and five storage forms told apart by their first bytes", "anchors": ["picotron_fs.py:write_pod", "picotron_fs.py:read_pod", "picotron_fs.py:encode_luastr", "picotron_fs.py:decode_luastr"]}
{"id": "C68", "title": "Metadata and payload of a Picotron file are independent", "statement": "Setting the payload of a file keeps its metadata and is read back as it was set; setting or removing the metadata keeps the payload; whether a file holds bytes or a value follows its format entry.", "quantifier": "every file, payload and metadata table", "why_tests_cant": "arbitrary bytes before and after the header", "anchors": ["picotron_fs.py:PicotronFile"]}
{"id": "C69", "title": "Setting the cart of a Picotron html export changes only the cart", "statement": "Replacing the cart in an html export leaves all other text as it is, and reading the cart afterwards gives the new one; a page without a cart is refused.", "quantifier": "every page and every cart", "why_tests_cant": "the search must find the same place in every page, whatever text is around it", "anchors": ["picotron_export.py:HtmlExport64.find_cart", "picotron_export.py:HtmlExport64.set_cart", "picotron_export.py:HtmlExport64.get_cart"]}
{"id": "C70", "title": "Merging neighbouring assignments keeps what the program does", "statement": "When minify joins two neighbouring declarations or assignments into one, the program calls the same functions in the same order, every variable ends up with the same value, and errors happen in the same state.", "quantifier": "every pair of statements with expressions of any depth, every state, every behaviour of operators, calls and globals", "why_tests_cant": "it must hold whatever the functions called do, and for targets and values in any number", "anchors": ["pico_minify.py:minify_merge_assignments", "pico_minify.py:expr_is_trivial", "pico_minify.py:node_contains_vars", "pico_parse.py:is_vararg_expr"]}
{"id": "C71", "title": "Programs are read exactly by the grammar, shorthands by their lines", "statement": "A token sequence with line numbers is accepted as a program if and only if it is the tokens of a tree that obeys Lua's statement grammar, with shorthand if, while and ? statements ending with their lines; that tree is unique and is the one returned, and reading always ends.", "quantifier": "every token sequence with any lines, every nesting of statements, functions and shorthands, both languages", "why_tests_cant": "unbounded nesting; both directions and uniqueness are universal statements, and the meaning of a shorthand depends on where lines end", "anchors": ["pico_parse.py:parse_block", "pico_parse.py:parse_stmt", "pico_parse.py:parse_if", "pico_parse.py:parse_while", "pico_parse.py:parse_function", "pico_parse.py:parse_root"]}
{"id": "C72", "title": "Dropping line breaks keeps every statement in its shorthand", "statement": "Minified output, in which all line breaks are dropped but those that end shorthand statements, has the tokens of the source in order and is read back as the same program: no statement, else or end moves into or out of a shorthand if, while or ?.", "quantifier": "every program that parses, of any nesting of statements, functions and shorthands, both languages", "why_tests_cant": "whether a break is needed depends on the whole nesting around a statement, and on what follows it however deep; tests fix a few nestings", "anchors": ["pico_output.py:output_node", "pico_output.py:is_non_nested_short", "pico_parse.py:parse_if", "pico_parse.py:parse_while", "pico_parse.py:parse_block"]}
{"id": "C73", "title": "Cleaning up tokens keeps the program", "statement": "When minify drops needless semicolons, table separators and call parentheses, respells operators and drops line breaks, the output is read back as a program with the same statements and expressions in the same order, up to those tokens, and never has more tokens than the source.", "quantifier": "every program that parses and obeys Lua's rules on returns and assignment targets, of any size and nesting, both languages and every version", "why_tests_cant": "whether a semicolon or parenthesis is needed depends on the next token however far out in the nesting, and dropping one can join statements that no test puts side by side", "anchors": ["pico_minify.py:fixup_tokens", "pico_parse.py:is_short_block_stmt", "pico_tokenize.py:next_token", "pico_output.py:output_node"]}
{"id": "C74", "title": "Unminified code is the same program", "statement": "Laying a program out for reading (unminify) gives a text without lexical errors that is read back as the same program in long form: shorthands written out, no semicolons, all statements and expressions in the same order; doing it again gives the same program.", "quantifier": "every source text that parses, of any nesting and size, every indentation of blanks, both languages", "why_tests_cant": "whether two tokens put next to each other are read as two depends on both of them and on the text around; tests fix a few pairs and nestings", "anchors": ["pico_unminify.py:unminify_code", "pico_parse.py:is_short_block_stmt", "pico_parse.py:is_function_stmt", "pico_tokenize.py:tokenize"]}
{"id": "C75", "title": "Changing between shorthands and long forms keeps the program", "statement": "When minify rewrites if, while and print statements as shorthands, or shorthands as long forms, and drops line breaks, the output is read back as the same program: same statements and expressions in the same order and nesting. If they are to be made long none is left short; otherwise none is lost; and on versions without nested shorthands none is put inside another.", "quantifier": "every program that parses, of any nesting of statements, functions and shorthands, both languages, every choice of what is to be changed", "why_tests_cant": "whether a statement may become a shorthand depends on everything inside and around it and on where all of them end; tests fix a few nestings", "anchors": ["pico_minify.py:analyze_code_for_minify", "pico_minify.py:minify_change_block_shorthand", "pico_minify.py:minify_change_print_shorthand", "pico_output.py:output_node"]}
{"id": "C76", "title": "The token count is that of the program, and minifying never raises it", "statement": "The reported token count of a program depends only on its parts: names, numbers, strings, operators, keywords other than local and end, and pairs of brackets count one each, commas, points, colons and semicolons nothing, and the sign of a number nothing. Spaces cannot lower it. Neither the clean-up of tokens nor a change between shorthands and long forms raises it, and laying the program out for reading leaves it as it is.", "quantifier": "every program that parses, of any nesting, both languages, any spacing of its tokens, every choice of shorthands", "why_tests_cant": "whether a sign counts depends on the tokens and spaces around it, and the minified program is another program text; tests fix a few counts", "anchors": ["pico_tokenize.py:count_tokens", "pico_output.py:output_code", "pico_minify.py:minify_change_block_shorthand", "pico_unminify.py:unminify_code"]}
{"id": "C77", "title": "Resolving branches on constants keeps what the program does", "statement": "When the condition of an if or elseif is known (a constant, or anything evaluated to one without effects), the branch never taken is dropped and the one always taken stands for the statement; the resulting program, and what its output is read as, returns the same values or error and leaves the same memory as before, or runs on as before.", "quantifier": "every program, nested to any depth, with closures, loops, gotos and labels; every machine (operators, tables, builtins that may call the program's functions, globals), every memory and number of steps; every source of knowledge on conditions that is right", "why_tests_cant": "removing a block changes scopes, labels and what stands next to what; whether that matters depends on the whole program and its run", "anchors": ["pico_constfold.py:fold_consts", "pico_constfold.py:create_do_node_if_needed", "pico_constfold.py:create_else_node", "pico_constfold.py:remove_else_node", "pico_output.py:output_node"]}
{"id": "C78", "title": "Minified and unminified code does what the original does", "statement": "The output of minify (shorthands changed, tokens cleaned up, line breaks dropped), and of unminify, is read as a program that, run on any machine, returns the same values or error and leaves the same memory as the original, or runs on as it does.", "quantifier": "every program of any size with closures, loops, gotos; every machine for which the two spellings of an operator are one (for line breaks and unminify: every machine), every memory, every number of steps", "why_tests_cant": "equality of behaviour ranges over all programs, inputs and runs; tests run a few programs", "anchors": ["pico_minify.py:minify_code", "pico_output.py:output_code", "pico_unminify.py:unminify_code", "pico_parse.py:parse"]}
{"id": "C79", "title": "A renamed program does what the original does", "statement": "The program with renamed locals, labels, globals and keys is the original with other names, and run on any machine on which globals and keys go by their new names it returns the same values or error and leaves the same memory as the original, or runs on as it does; old and new names of globals and of keys correspond one to one, and preserved builtins keep theirs. If globals and keys are preserved, it does the same on the machine itself.", "quantifier": "every program of any size and nesting, with shadowed names, closures, methods, loops, gotos and labels, that does not use _ENV other than as the table of globals, jumps only where Lua allows and has no key preserved for only some tables; every set of preserve rules (without '*=*.*'), every alphabet; every machine, memory and number of steps", "why_tests_cant": "a wrong new name shows only when two variables meet in one scope and the program gets to use them; tests run a few programs", "anchors": ["pico_rename.py:rename_tokens", "pico_parse.py:Scope", "pico_parse.py:parse", "pico_parse.py:late_resolve_labels"]}
{"id": "C80", "title": "A program with folded constants does what the original does", "statement": "Folding constants (operators, builtin functions, and/or, conditions, and locals that are never assigned, whose uses become the constant and whose declarations go) leaves a program that, run on any machine that computes with constants as PICO-8 or Picotron does and where the builtins are at first what they are, returns the same values or error and leaves the same memory as the original, or runs on as it does.", "quantifier": "every program of any size and nesting, with closures, shadowed names, loops, gotos, repeat conditions that use the body's locals, builtins that are assigned or shadowed; both focuses; every machine, memory and number of steps", "why_tests_cant": "whether a local is a constant depends on assignments anywhere in its scope, also in functions, and whether a builtin is one on the whole program; a wrong answer shows only when the program gets to the use", "anchors": ["pico_constfold.py:fold_consts", "pico_constfold.py:erase_assign_targets", "pico_constfold.py:set_const", "pico_parse.py:mark_reassign"]}
{"id": "C81", "title": "The linter reports exactly the globals that nothing defines, and a program it passes asks for no other", "statement": "A name is reported as not found exactly if it stands as a global somewhere in the program (read or assigned, in any scope where no local of that name can be seen) and is neither builtin, nor given by --lint: or the globals option, nor assigned outside of functions or in _init; assignments to builtins likewise. If nothing is reported as not found, no run of the program ever reads or sets a global that is not known: on a machine that does anything else to the other globals it runs the same.", "quantifier": "every program of any size and nesting, with shadowed names, closures, methods, loops, labels; every set of builtins and options; for the runs also every machine, memory and number of steps", "why_tests_cant": "a use of an undefined global may stand in code that no test reaches; whether a name is a global depends on all scopes around it", "anchors": ["pico_lint.py:lint_code", "pico_parse.py:Scope.find", "pico_parse.py:parse_var"]}
{"id": "C82", "title": "The linter reports exactly the variables that are never used", "statement": "The reports about unused locals are, in the order of the text: for every new local (of local statements, local functions, loops, parameters and self) whose name does not start with _ and that is not read where it can be seen, that it is only assigned, if it is, else that it is not used, except for parameters that others follow. A global is reported as only assigned exactly if the program assigns it and never reads it, it is not declared used and does not start with _; that a global is not used at all is never reported. The labels reported as unused are, in the order of the text, exactly those not starting with _ that no goto in their block (or in an inner block of the same function without such a label) goes to.", "quantifier": "every program of any size and nesting, all options", "why_tests_cant": "whether a local is used depends on everything in its scope: inner functions, shadowing by later locals of the same statement, repeat conditions", "anchors": ["pico_lint.py:lint_code", "pico_parse.py:Scope", "pico_parse.py:parse_function", "pico_parse.py:parse_local"]}
{"id": "C83", "title": "The linter reports exactly the names that hide others", "statement": "The locals reported for having the name of another local are, in the order of the text, exactly the new locals called like a local of the program that can be seen where they are declared, except for _ and _ENV; of the other new locals, those called like a global that the program defines, or that stands in it otherwise, are reported as such, and no others. Every label called like a label further out is reported.", "quantifier": "every program of any size and nesting, all options", "why_tests_cant": "shadowing depends on all scopes around a declaration", "anchors": ["pico_lint.py:lint_code", "pico_parse.py:Scope.find", "pico_parse.py:LabelScope.find"]}
{"id": "C84", "title": "The text the minifier writes is read as a program that does what the original text does", "statement": "Take a text that is read as a program, rename its variables, change its shorthands, clean up its tokens, and write it with the fewest spaces and line breaks. The writing succeeds; the text written is read without errors; and the program read does, on any machine that knows the two spellings of operators as one and from any memory, what the program read from the original text does: the same values or error, the same memory, or no end. Globals and keys that were renamed go by their new names; if they are all preserved, or nothing is renamed, no such allowance is needed. Asked of the program: that it jumps as Lua allows, does nothing unusual with _ENV, preserves a key for all tables or for none, and has no body or statement that begins with a parenthesis where a shorthand is or will be (the cases of C75).", "quantifier": "every text of any length that is read as such a program, every set of preserve rules, both languages, all shorthand options, every choice of tokens put together without a check that were together, every machine, memory and number of steps", "why_tests_cant": "the steps are each tested on a few carts; that one step leaves what the next one asks for, and that the text is cut into the same tokens on the same lines, is a statement about all programs", "anchors": ["pico_process.py:process_code", "pico_rename.py:rename_tokens", "pico_minify.py:minify_code", "pico_output.py:output_node", "pico_tokenize.py:tokenize", "pico_parse.py:parse"]}
{"id": "C85", "title": "Writing a Picotron cart to a directory touches nothing outside of it", "statement": "Whatever names the files of a cart have (with .., ., empty parts, leading slashes), and whether the writing succeeds or stops with an error, the only files and directories that change are those at or inside the destination; above it, only missing directories are made. Unless the user asks for the destination to be deleted first, nothing that was there goes away and every new content is that of a file of the cart.", "quantifier": "every cart with any names and contents, every file system without symbolic links, every destination, relative or absolute, both ways to write (all of a cart or one file), with and without deleting first", "why_tests_cant": "carts come from strangers; one name that is read in another way by the check than by the operating system is enough to write anywhere", "anchors": ["picotron_cart.py:write_cart64_to_fs", "utils.py:path_is_inside", "utils.py:dir_create"]}
{"id": "C86", "title": "Picotron carts written to a directory are read back the same", "statement": "Writing a cart to a new directory (or one deleted first) puts every file and directory of the cart at its place with its contents and nothing else there; reading the directory gives the same cart, in whatever order the system lists it; with a filter, the files it selects.", "quantifier": "every cart of any number of files, contents, and depth of directories; every order of the files in the cart and of the directory listings", "why_tests_cant": "the traversal goes by counting slashes in names; the orders of dicts and listings vary", "anchors": ["picotron_cart.py:write_cart64_to_fs", "picotron_cart.py:read_cart64_from_fs"]}
{"id": "C87", "title": "PICO-8 carts written to a file are read back the same, whether the format is named or found out", "statement": "Whatever cart this program writes to a file, as text, code, picture, clipboard text or URL, reading the file gives what that format keeps of the cart, and the same whether the format is named or found out from the contents.", "quantifier": "every cart, every format, every way to compress and to write capitals, format named or not", "why_tests_cant": "which format contents are taken for depends on their first characters, and these on code, names and memory; encodings and newline translation act on any character", "anchors": ["pico_cart.py:read_cart_autodetect", "pico_cart.py:read_cart", "pico_cart.py:write_cart", "utils.py:file_open_text"]}
{"id": "C88", "title": "Picotron carts and code in a file are recognised for what they are", "statement": "A file with a Picotron rom, text cart, picture or Lua code that is read without naming its format is read as what it is, and gives the files written.", "quantifier": "every cart of any files and sizes, every version, every code", "why_tests_cant": "the formats are told apart by a few first bytes, among them a size and a version that can be anything", "anchors": ["picotron_cart.py:read_cart64_autodetect"]}
{"id": "C89", "title": "Removing metadata from a Picotron cart keeps the contents of its files", "statement": "Removing metadata (as minification does) keeps every file with its contents as they are, raw or pod, in the order of the cart, but for .info.pod files of whose metadata nothing is kept; of the metadata of the files selected exactly the keys to keep and what tells the format remain; files not selected stay as they are to the byte.", "quantifier": "every cart of any files, every list of path patterns and of key patterns, every metadata table of any depth", "why_tests_cant": "whether a file is raw is told by the very header that is rewritten, whose text, order and escapes depend on all its entries", "anchors": ["picotron_cart.py:preproc_meta", "picotron_cart.py:preproc_cart64"]}
{"id": "C90", "title": "Rewriting the pods of a Picotron cart keeps their values", "statement": "Whatever way pods are to be written (uncompressed, compressed, with compressed userdata, base64), after rewriting every pod file of the cart has the same value and metadata, and raw files are unchanged.", "quantifier": "every cart, every value in its pods, every combination of options and every runtime version", "why_tests_cant": "each file is decoded from one of many encodings and encoded in another", "anchors": ["picotron_cart.py:preproc_cart64", "picotron_fs.py:write_pod", "picotron_fs.py:read_pod"]}
{"id": "C91", "title": "Tokens are the whole program but for whitespace and comments, and are on the lines they stand on", "statement": "A program that is read without errors is the texts of its tokens, in order, with nothing but whitespace and comments between them. Two tokens are taken to be on one line, as shorthands ask for, just if there is no line break between them outside of comments in brackets and strings; a comment to the end of the line ends the line.", "quantifier": "every program text of any length, both languages", "why_tests_cant": "whether a character starts a comment depends on all before it: comments hold quotes, strings hold dashes, brackets have levels", "anchors": ["pico_tokenize.py:tokenize", "pico_tokenize.py:tokenize_line_comment", "pico_tokenize.py:tokenize_long_comment"]}
{"id": "C92", "title": "Data put into a program by a user's script are the data the program gets", "statement": "For any bytes or string, what bytes_to_string_contents returns is, between double quotes, a string literal for those very bytes: one token, whatever follows, which is read as the data. The same holds within a literal that has other text before and after.", "quantifier": "all data of any length with any bytes, both languages, any plain text before and any body of a literal after", "why_tests_cant": "whether an escape is cut short depends on the characters after it, for every pair", "anchors": ["pico_utils.py:bytes_to_string_contents", "pico_output.py:format_string_literal"]}
{"id": "C93", "title": "A hint in a comment is about the next token, and about it only", "statement": "In a program that is read without errors each token has the hints of the comments between it and the token before it, and no others: its kind as a variable (global, member, preserve), the kind of its keys, const or non-const, no-merge, force-safe, rename::name, func:: in lint hints, and the lists of preserve:, lint: and keep: hints in order. Where such hints differ the last one counts; any other comment changes nothing; hints in strings are not hints; the tokens are the same as without hints. Hints behind the last token are kept too.", "quantifier": "every program text of any length with any comments, both languages", "why_tests_cant": "which comments are before which token, and which of them say what, is a statement about all texts; tests have a comment of each kind in one place", "anchors": ["pico_tokenize.py:tokenize", "pico_tokenize.py:NextTokenMods", "pico_tokenize.py:process_comment"]}
{"id": "C94", "title": "What comments list counts for the whole program", "statement": "All the rules in preserve: comments of a program, wherever they are in it, decide which names are kept exactly as if they were given as options, in the order of the text, behind the options of the user. All names in lint: comments count as globals given by the user, and are never reported as not found; those behind used:: in them count as used, and are never reported as only assigned. The count of tokens ends at the first token that has a lint: comment with count::stop before it, and is that of the tokens before it.", "quantifier": "every program text of any length that is read without errors, any number of such comments anywhere in it, all options, both languages", "why_tests_cant": "the comments may be anywhere between any tokens, also behind the last one, and the rules interact with each other and the options; tests have one comment at the top", "anchors": ["pico_rename.py:rename_tokens", "pico_lint.py:lint_code", "pico_tokenize.py:count_tokens"]}
{"id": "C95", "title": "Comments that are kept stay, and change nothing", "statement": "A comment that begins with keep: stays when a program is minified: it is in the output before the same token, with the same text but for that word, and no other comments are. The tokens of the output are those of the program, also right behind and before such comments, and where a one-line statement has ended there is a line break.", "quantifier": "every list of tokens of any length, any number of kept comments of both kinds before each and at the end, in both languages, with line breaks kept or not", "why_tests_cant": "what comes out depends on the last token, the comment's text and kind and the next token together; tests have a comment or two at the top of a file", "anchors": ["pico_output.py:output_node", "pico_tokenize.py:Comment"]}
{"id": "C96", "title": "Without minifying whitespace the tokens stay the same too", "statement": "If whitespace and comments are not minified, the output has exactly the tokens of the transformed program, whatever tokens were removed, changed or moved around them. Each token has its comments before it; a comment to the end of a line that is now followed by code on its line becomes one in brackets with the same text, and one in brackets is put on one line. There is a line break where a one-line statement has ended, and tokens that belong on one line stay there.", "quantifier": "every list of tokens of any length with any text of the source between them, any comments, both languages", "why_tests_cant": "it depends on the text between any two tokens, which may be any part of the source after tokens are removed or moved; tests only have files that stay as they are", "anchors": ["pico_output.py:output_node", "pico_output.py:get_orig_wspace", "pico_output.py:get_long_brackets_equals"]}
{"id": "C97", "title": "Nothing is written of code that cannot be read", "statement": "If the code of any of the carts given cannot be read, or the linter is asked for and has something to say about it (and --no-lint-fail is not given), then no output is written, not even those of the other carts, and the exit code is not 0. Otherwise all outputs are written, each with all carts, and the code in them is that of the program as read, with all that was asked for done to it: minified, unminified, or else left as it was.", "quantifier": "all sets of options for linting, minifying, renaming, unminifying and counting, any number of carts with any number of code files each, any outputs, and whatever the passes do", "why_tests_cant": "the combinations of options, carts and errors are too many to test, and an output that is written after an error overwrites the user's file when it is changed in place", "anchors": ["pico_process.py:process_code", "run_shrinko.py:create_main"]}
{"id": "C98", "title": "The app for macOS has the label as its icon", "statement": "When carts with a label are exported to binaries, the icns file of the app is one that can be read: it begins with its name and length, its parts follow each other with their lengths, and its colours, unpacked, are the red, the green and the blue of each pixel of the label in order; its mask is the alpha of each pixel, or opaque if there is none.", "quantifier": "all labels, with and without an alpha channel", "why_tests_cant": "a wrong length, offset or channel shows only when another program reads the file, for some labels; tests compare with one file", "anchors": ["pico_export.py:FullExportBase.create_icns_data", "pico_export.py:FullExport.save"]}
{"id": "C99", "title": "The template of an app's properties is found wherever it is in the executable", "statement": "When carts are exported to binaries, the template for the properties of the app for macOS is looked for in an executable: what is found is the first text there that ends with a zero, begins as an XML file does and has the key looked for in it, and nothing is found only if there is no such text. Other texts that begin so, or a last one that is not ended, are passed over.", "quantifier": "all data, all prefixes without zeros and all keys", "why_tests_cant": "the executable is not part of the project and changes with each release of PICO-8; what comes before the template cannot be known", "anchors": ["pico_export.py:FullExportBase.find_zstr", "pico_export.py:FullExport.save"]}
