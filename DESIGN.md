# Formal model of shrinko8 in Rocq (Coq 8.16.1)

## Approach

The model is a shallow embedding: each Python function becomes a Gallina
function that mirrors it branch by branch.  Numbers that can be large or
negative are `Z`; lengths, indices and fuel are `nat`.  Python exceptions
(assertion failures, `struct.error`, index errors, ...) become the `Err`
constructor of a result type, so "the code crashes" is an observable outcome of
the model.  `while` loops whose termination is not structural take explicit
fuel; running out of fuel is the separate outcome `Err EFuel`, and theorems
exclude it or prove it unreachable.

Layout of `rocq/theories/`:

* `M_*.v`   : the model (definitions only, each citing /repo file and lines).
* `S_*.v`   : small independent specifications used in theorem statements.
* `L_*.v`   : lemmas and proofs.
* `P_*.v`   : the property theorems, each closed by `exact lemma`, with
  `Print Assumptions` beneath and an `Example` showing that the hypotheses are met.

## Plan per property

| id | modelled | proof |
|----|----------|-------|
| C01 | bit writer/reader, `compress_code` (new format, fast), `get_lz77` greedy path, `uncompress_code` | C03 + C04 composed |
| C02 | same plus measured path and literal-block heuristic | conditional theorem; refutation witness if the heuristic emits unordered positions |
| C03 | `get_lz77` with arbitrary callbacks, match dictionary as tree | invariant over the main loop: every stored match index j satisfies key equality and j<i |
| C04 | item encoder/decoder over bits | induction over items, MTF state as shared invariant |
| C05 | old format writer/reader | induction over items |
| C06 | same | refutation by computed witness, plus success theorem for the list-only regime |
| C07 | `uncompress_code` on arbitrary bytes | induction over decoder loop |
| C08 | `get_compressed_size` | from C04/C05 loops |
| C09 | `BinaryBitWriter`/`BinaryBitReader` as accumulators over bytes | refinement to `list bool` |
| C10, C11 | `lz4_compress`, `lz4_uncompress` | the block format as a grammar (`S_Lz4`); parse validity (C03) + induction over items for the writer, over the grammar for the reader |
| C12 | `write_pxu`, `read_pxu` | induction over runs with mapping-state invariant |
| C13, C14 | pixel pack/unpack | bit lemmas by finite sweep, lifted over lists; C14 over the 19-bit words of Picotron pictures |
| C15, C16 | rom layout, version trailer, code area | composition of code codecs with slices |
| C17-C20 | p8 section writers/readers over hex text | per-line bijection + trimming lemma |
| C21 | url RLE + base64 | induction over runs |
| C22 | clip hex | induction |
| C23 | charset tables | prefix-freeness by finite check, induction on string |
| C24, C25 | Memory accessors, address functions | arithmetic + finite sweeps |
| C26 | merge_cart | case analysis on section list, induction |
| C27, C28 | lua_* operators on fixnums | arithmetic against a rational/bit-level spec; refutation for shift by 0x8000 |
| C29 | fold_consts on an expression AST with multi-value semantics | refutation witness + positive theorem for single-value positions |
| C30 | format_fixnum, parse_fixnum | exact decimal arithmetic; sweep over 65536 fractions lifted to all values |
| C31 | format_luanum integer path | induction on digits |
| C32, C33 | format_string_literal, parse_string_literal, tokenizer string scan | induction on string; refutation for the long bracket case |
| C34 | need_whitespace_between + tokenizer | case analysis on token classes |
| C35, C66 | expression trees, their tokens, the precedence-climbing parser, the minifier's rules on groups, signs, spellings, short calls and separators | the grammar as a separate predicate on trees (`S_Expr.grammar`); soundness by induction on fuel, completeness by induction on trees; meaning as an arbitrary interpretation (`S_Expr.meaning`) |
| C36 | identifier generator | odometer = bijective numeration |
| C37 | names of a program with Lua's constructs, the parser's scopes, the renamer's loop | the scoping rules of Lua as a separate specification (`S_Rename.occurrences`); the parser's scopes are proved to agree with it; invariant over the loop; the renamed program is resolved again and every name means what it meant |
| C38 | IncludeExcludeMapping, TableMemberPairIncludeExcludeMapping, reading of rules | declarative rule in `S_Rename`, equivalence by induction on the rules |
| C39-C42 | preprocess_code, trim_cart_to_tab, locations | loop invariants |
| C43 | glob filter (matching one pattern is a parameter), `filter_cart64` | list induction against a declarative rule |
| C44, C65 | `write_cart64_to_rom`, `read_cart64_from_rom`, `write_cart64_to_tiny_rom` | induction over files, on top of C10; the order by a sorting invariant |
| C45 | `write_cart64_to_source`, `read_cart64_from_source` | induction over lines and files |
| C46 | `CartExport`, `JsExport`, `PodExport` | refinement: an edit of the file is the edit of a list of named carts; induction over histories |
| C47 | `PodFile` | invariant: the file is what its entries spell, in place |
| C48 | `SysRom` | the layout as an inductive relation, both directions |
| C69 | `HtmlExport64` | search for the first match, against a declarative "first"; on top of C44 |
| C49 | `parse_split_args`, `SplitSubLang` | induction over templates, against a declarative reading of strings |
| C70 | `minify_merge_assignments` | an abstract Lua machine with any operators, calls and metatables; both runs start with the same values, then the stores commute |
| C71 | `parse_root`, all statements, blocks with lines, functions in expressions | the grammar as rules over tokens with lines (`S_Stmt.program`), one rule per construct; soundness by induction on fuel, completeness by mutual induction on trees |
| C72 | `output_node` (where line breaks go) | `S_Emit.fits`: a shorthand is followed by the end of a line or a closing word, and by `else` only if it has one; adjacency facts read off the source's derivation, then the grammar's rules rebuilt along the output by mutual induction, and read by C71 |
| C73 | `fixup_tokens` as a function on trees | `S_Tidy.core`: a program without `;`, separators, call parentheses and spelling; `S_Tidy.lua`: what Lua asks of returns and targets; well-formedness, `fits` and the adjacency facts of C72 are kept by mutual induction, where only a `;` as next token may change, into one that continues nothing |
| C74 | `unminify_code` on trees, as what is appended to the output and the state `prev_token`, `prev_tight` run over it | `S_Unmin.long`: the program without shorthands and `;`; `S_Unmin.neat`: what must not be in it; the output's pieces are tracked by what is to their left (`runs`), so that the text gives back the tokens; the tokens of the long program are a program on any lines |
| C75 | `analyze_code_for_minify` as the list of shorthands (and what may become one) in each part, with whether they end where it ends, in the context of the shorthands around; `minify_change_block_shorthand`, `minify_change_print_shorthand` on trees | `S_Short.same_program`: equal with all shorthands written out; `lined`: how shorthands may be in the program; `plain`: what must not be in it; every shorthand of the changed program ends where its line may (`fits`), and nothing is read as going on with what is before, so that C72/C73's emission lemmas apply; `shorts`: counted; `alone`: none inside another |
| C76 | `count_tokens` over tokens with whether the next one is right behind (from `tokenize_pos`) | `S_Count.size`: the count by the parts of a program; `even`: no minus or `~` between `...`, `nil`, `true` or `false` and a number, no statement that begins with a sign; induction over the tree of the count of its tokens, for any token before and any tokens behind; then `size` of the cleaned-up, changed and laid-out trees |
| C77 | M_Branch: if/elseif on known conditions (keep, take a block, drop), "do" where needed. S_Run: an interpreter for the program trees over any machine, with closures, boxes for locals, loops, gotos and labels. Proved by a simulation in which every function body is the resolved one: same run for every step bound; the output is read back by the results of C71/C72. |
| C78 | The read-back theorems of C72-C75 give a program equal up to shorthand marks, spelling, separators or shorthands; by simulation (L_Sim, L_Same) each of these normal forms runs the same in S_Run. |
| C79 | S_Alpha: two trees in which every name means the same local, label, global or key, and Lua's rule for jumps, without the renamer. L_Alpha: such trees run the same (simulation over S_Run; locals live in boxes). M_Names: the names of a tree in the order the renamer walks them. L_Link: from the occurrences of C37 (same declaration, same label, globals and keys one to one) to such trees, by induction on the tree. L_Link2: the new names fit into the tree. |
| C80 | M_Const: fold_consts on whole programs: scopes with the constants of locals, what is assigned where, operators, builtins, and/or, local statements that shrink or go, branches. S_Const: a machine that computes with constants as it should (by S_Fold), programs that avoid what folding is known not to keep. L_Const: a simulation over S_Run with possible worlds: each box of the original is either kept, with its constant if it has one, or gone; worlds only grow. S_Calc: a concrete machine with all the operators and builtins that meets the conditions. |
| C81 | M_Lint: lint_code on the trees of M_Stmt with the parser's scopes. S_Lint: which names are globals, by lexical scoping alone (`globals`, `defines`). L_Lint: the nodes of the walk are the mentions of the specification. C81_runs: L_Lint5 turns the globals of the program into a renaming that sends unknown names elsewhere and uses the simulation of C79; S_Other: machines that differ in unknown globals only. |
| C82 | S_Lint: `unused_locals`, by asking of each new local whether it stands in the code where it can be seen (`on_blk`). L_Lint2: a local's number stands among the nodes of a piece exactly if its name does where it is visible; L_Lint3: induction over programs with what follows a block. Labels: `unused_labels`, by asking of each label whether a goto of its block, or of an inner block without a label of this name, names it; L_Lint7: the numbers of the gotos of a piece are of its own blocks or of the labels around it. |
| C83 | S_Lint: `hiding_locals`, `fresh_locals`. L_Lint6: as for C81, on new locals. Labels: a counterexample. |
| C84 | M_Lines: the tokenizer with the lines of the tokens, and printing with line breaks; M_Pipe: the last steps. S_Pipe: `reads`, `may_glue`. L_Lines: printed tokens are read back on their lines; L_Like: two trees that differ in names alone are laid out alike; L_Good: all tokens written are lexemes; L_Pipe: the steps after one another. |
| C85 | M_Fs: paths, a file system, `write_cart64_to_fs`. L_Fs: the check compares normal paths exactly; each step of the writing keeps all outside of its destination, which is inside the one before; induction on the depth of calls. |
| C86 | L_Fs2: names of places and back (`fsname`); what a directory of the cart becomes, by induction on the depth, over the list of files; reading likewise, over any order. Counterexamples for carts without their directories and for equal names. |
| C87 | M_Auto: files as bytes, utf-8 and universal newlines, `write_cart`, `read_cart`, `read_cart_autodetect`. L_Auto: texts survive encoding; which characters each format writes, and with which it begins; then C61, C63, C13, C21; for roms C15 and C16, with the format named. Counterexamples for carriage returns, code that begins like another format, and roms. |
| C88 | M_Auto: `read_cart64_autodetect`; what the writers begin with, then C44 and C45. |
| C89 | M_Meta: `preproc_meta`. L_Meta: entries as lists; any selection of storable entries is storable; adding the required ones. Then C52 and C68 for one file, induction over the files, and the deletions as a filter. |
| C90 | M_Meta: the loop over pods at the end of `preproc_cart64`; C67 and C68 for one file, induction. |
| C91 | M_Lines: `tokenize_lines`. S_Gap: whitespace and comments with their line breaks, as an inductive predicate. Each round of the tokenizer adds one token or one piece of a gap; induction. |
| C92 | M_Contents on M_Str; C32 for the literal alone; induction over the data with the rest of the literal for the literal around it. |
| C93 | M_Hints: `process_comment` and the main loop with what is pending for the next token. S_Hints: gaps with their comments, what a comment says, which one counts. L_Hints: each field for one comment more; then induction over the rounds as for C91. |
| C94 | M_HintUse: the preserve and lint hints of all tokens in order, `count_tokens` with its end. S_HintUse: all comments of a text and the words they list. From C93 by induction over the tokens, then C38, C81, C82; for the count a token right behind another one has no hints (induction over rounds). |
| C95 | M_Keep: `output_node` with comments that are kept, on the tokens as visited. S_Keep: what is kept of a comment, and the output as gaps (S_Gap, S_Hints) between tokens. Induction over the tokens: the tokenizer passes over any gap, and a token is read as itself before any character it was read as itself before. |
| C96 | M_Orig: `get_orig_wspace`, and `output_node` without minify_wspace and exclude_comments. S_Orig: what a comment becomes, and the output as gaps between tokens. As C95; `get_orig_wspace` gives only whitespace (by cases), with a line break just where one is needed or allowed. |
| C97 | M_Cli: `process_code`, `handle_processing` and the end of `main_inner`, over any passes (section variables, so the theorems hold for all). S_Cli: which files can be read, and what is wanted of them. Induction over files and carts. |
| C98 | M_Icns: `create_icns_data`. S_Icns: the icns format, its parts and packed runs. The rows of each channel are flattened by induction over their number; the lengths by arithmetic. |
| C99 | M_Zstr: `find_zstr`. S_Zstr: a text that ends with a zero at a place in data. Induction over the fuel, which is more than the bytes left; texts within the one passed over are ends of it. |
| C50 | topologic_sort | invariant over the loop: counts are the remaining incoming edges; well-founded induction for the order |
| C51 | map_aliases | refutation (cyclic) + termination for acyclic tables |
| C64 | `merge_cart64` | invariant over the files merged so far: the paths present, with all directories around them |
| C52, C68 | metadata escaping, headers and payloads of files | text as a list of pieces; escaping, encoding and decoding act piece by piece |
| C53 | `_read_zbytes`, `_write_zbytes` for characters of any size | induction over characters; invariant of the search loop |
| C54, C67 | `format_pod`/`parse_pod`, `write_pod`/`read_pod` | mutual induction on values and entries; the printed text is tokenised, parsed (C66) and evaluated; userdata by C12, compression by C10 |
| C55, C56 | image label and sprite sheet | as C13 |
| C57 | fold_consts over an abstract machine | simulation, induction on expressions |
| C58 | parse_fixnum with binary64 rounding on rationals | error bound below half a unit |
| C61-C63 | whole .p8 text files, raw source | chaining the section lemmas; line splitting |
| C59, C60 | parse_string_literal, tokenize | induction on the text; refutations for the `\z` cases |

## Trusted base

* Coq's kernel (8.16.1), including its `vm_compute` reduction machine.
* The fidelity of the model to the Python source, argued only by the citations
  in the comments (the code is never executed here).
* No axioms are declared in this development and none of the standard library's are used:
  `Print Assumptions` answers "Closed under the global context" for every theorem in the
  `P_*.v` files (each file prints it at its end).

### What is modelled

| model | code |
|-------|------|
| `M_BitIO`, `M_Lz77`, `M_Compress` | pico_compress.py: bit streams, `Lz77Entry`, `get_lz77`, `compress_code`, `uncompress_code`, `get_compressed_size`, literal block heuristic; utils.py zbytes |
| `M_Charset`, `M_Memory` | pico_defs.py charset, `Memory`, address functions, default rom |
| `M_Rom` | pico_cart.py rom, tiny rom, image, label and spritesheet readers and writers; version table |
| `M_Fold` | pico_constfold.py operators, tables, expression folding; pico_defs.py fixnum helpers |
| `M_Num` | pico_tokenize.py `parse_fixnum`, `parse_luanum` on integers; pico_output.py `float_str_*`, `format_fixnum`, `format_luanum` on integers. Floats are rationals rounded to 53 bits with an unbounded exponent |
| `M_Token` | pico_tokenize.py `tokenize` (tokens and positions; comments are skipped, error messages are one error value; hints not modelled); pico_output.py `need_whitespace_between`, `output_node` with minified whitespace and no comments |
| `M_Str` | pico_tokenize.py `parse_string_literal`; pico_output.py `format_string_literal`; pico_minify.py `minify_string_literal` |
| `M_Text` | pico_cart.py `read_cart_from_source`, `write_cart_to_source`, `write_cart_to_raw_source` |
| `M_Url` | pico_cart.py `read_cart_from_url`, `write_cart_to_url`, base64, clipboard texts, `merge_cart` |
| `M_Pre` | pico_preprocess.py (finding and reading an included file is a parameter), pico_process.py `get_line_col`, `get_tab_line_col`, `get_source_location`, `CartSource.get_location` |
| `M_Rename` | pico_rename.py `rename_tokens`, `get_idents`, `are_vars_compatible`, the preserve rules; pico_parse.py scopes, `Scope`, `LabelScope`, parse functions as far as they declare or use names. A program is reduced to its names and the constructs that scope them; hints in comments and sublanguages are not modelled |
| `M_Files` | picotron_defs.py `Cart64Glob`, `topologic_sort`; picotron_cart.py `filter_cart64`, `merge_cart64`; pico_process.py `map_aliases`, the hint def-alias |
| `M_Lz4` | pico_export.py `lz4_compress`, `lz4_uncompress` |
| `M_Pxu` | picotron_fs.py `read_pxu`, `write_pxu` (`int(s, 16)` is a parameter) |
| `M_Zbytes` | utils.py `_read_zbytes`, `_write_zbytes` |
| `M_Cart64` | picotron_cart.py `read_cart64_from_rom`, `write_cart64_to_rom`, `write_cart64_to_tiny_rom`, `read_cart64_from_image`, `write_cart64_to_image`, the rom file order; media.py only as functions from pixels to bytes |
| `M_P64` | picotron_cart.py `read_cart64_from_source`, `write_cart64_to_source`, `write_cart64_to_raw_source` |
| `M_Expr` | pico_parse.py `parse_expr`, `parse_core_expr`, `parse_table`, `parse_call`, `Node.get_tokens`; pico_minify.py `fixup_nodes_pre` and `fixup_tokens` inside expressions. A function body is one leaf, read by a parameter; scopes, hints and the print shorthand are left out |
| `M_Pod` | picotron_fs.py `encode_luastr`, `decode_luastr`, `parse_pod`, `parse_meta_pod`, `format_pod`, `escape_meta`, `format_meta_pod`, `read_pod`, `write_pod` and the getters and setters of `PicotronFile`. Floats are one opaque value; the caches of `PicotronFile` are left out; an error report is an error at once |
| `M_Export` | pico_export.py `CartExport`, `JsExport` (without the html around it), `PodFile`, `PodExport`; picotron_export.py `SysRom` without directories, `HtmlExport64`. Surfaces and palettes are the bytes the file holds of them; carts are their roms |
| `M_Split` | scripts/split.py (`str.isalpha` is a parameter; the change of cached templates is the relation `padded`) |
| `M_Merge` | pico_minify.py `node_contains_vars`, `expr_is_trivial`, `minify_merge_assignments` and when it is called; expressions carry resolved variables |
| `M_Stmt` | pico_parse.py l.342-373 (taking tokens), l.425-431, l.453-520 (functions), l.522-1012 (expressions, statements, blocks, `parse_root`), over tokens with lines; not scopes (`M_Rename`), hints, sublanguages; the error of a `?` that goes on as an operand is put where it is read |
| `M_Emit` | pico_output.py l.262-264, l.297-385 (`output_node` with everything minified): the line of each token; not the spaces (`M_Token`) and not comments. A break that is due is put before the next token, while the code waits for a gap in the source; they differ only after `?` with no gap behind it |
| `M_Tidy` | pico_minify.py l.444-482 (`fixup_tokens` under `minify_tokens`): `;`, table separators, parentheses of a single table or string argument, operators, `then`; not the spelling of strings and numbers, and not what the same walk does to nodes |
| `M_Unmin` | pico_unminify.py l.5-115 (`unminify_code`) for a program without comments; not sublanguages and the switch to another compiler |
| `M_Short` | pico_minify.py l.32-128 and l.157-205 (which `if`, `while` and `print` may change between shorthand and long form, and the change), l.409-410 (parentheses of conditions); the choice made from counts (l.130-146) is a parameter, and so is whether `print` is the builtin |
| `M_Count` | pico_tokenize.py l.711-729 (`count_tokens`); the comment hints that end the count are left out |
| `M_Branch` | pico_constfold.py l.535-569, 645-676: needs_do, in_place, branch_of and the traversal. Which conditions are known is a parameter; `literal` is the instance for constants. | comments; the hints that keep a branch |
| `S_Run` (specification) | What Lua programs do, for the trees of M_Stmt: `run m n b me`; the machine `m` (values, operators, tables, builtins, globals) is a parameter; builtins may call functions of the program (steps as interaction trees). "?" is a call of print (pico_parse.py l.834-839). | coroutines; `<const>`/`<close>` |
| `M_Names` | pico_parse.py l.457-1000: the names parse_var and its callers see, in the order of the text (`names_blk`), and the tree with blank names (`shape_blk`). | the variable before a "." and the mark after "0" (left open by `bare`) |
| `S_Alpha` (specification) | Trees that differ in names only (`alpha_blk`), jumps as Lua allows them (`legal`), a machine whose globals and keys go by other names (`renamed`). | |
| `M_Const` | pico_constfold.py l.370-420 (tables), 441-474, 498-530, 571-735; pico_parse.py l.862-865 (what is assigned). How constants are written as tokens and read from them is a parameter; so is the test whether the constant is longer when focusing on characters. | hints and constants from the command line; Picotron builtins that are locals; comments; errors of the recursion limit (C28) |
| `S_Const`, `S_Calc` (specification) | Machines that compute with constants as they should (`computes`), programs without the known exceptions (`fine`); a concrete machine (`calc`). | |
| `M_Lint` | `pico_lint.py` l.6-154 (`lint_code`: `preprocess_vars`, `lint_pre`); the scopes of `pico_parse.py` (`Scope`, `LabelScope`, and where the parser makes them) | no compiler switches, sublanguages or function kinds; messages without places and suggestions, in the order of the text; labels of one name in one block are one |
| `S_Lint`, `S_Other` (specification) | Globals of a program, locals that are not used, locals that hide others, by lexical scoping; machines that differ in some globals only. | |
| `M_Lines` | `Token.vline` in `tokenize` (pico_tokenize.py l.319-708), line breaks in `output_node` (pico_output.py l.297-385). | Comments that are kept, hints. |
| `M_Pipe` | `minify_code` and `output_code` after `rename_tokens` in `process_code` (pico_process.py l.365-378). | `simplify_code`, user transforms, several sources. |
| `S_Pipe` (specification) | A text is read as a program; tokens that may be put together unchecked. | |
| `M_Fs` | picotron_cart.py l.547-602 (`read_cart64_from_fs`, `write_cart64_to_fs`); utils.py l.2300-2303, l.2431-2478; `os.path.join`, `normpath`, `abspath`, `relpath`, `basename`, `os.makedirs`, `listdir`, `shutil.rmtree` | POSIX, no symbolic links, no permissions, no limits on names; `..` is resolved on the text of the path |
| `S_Fs` (specification) | | places, sound file systems, names in carts, tidy carts |
| `M_Auto` | pico_cart.py l.662-733 (`read_cart_autodetect`, `read_cart`, `write_cart`); picotron_cart.py l.604-626; utils.py l.2233, l.2305 (text files) | the formats label, spritesheet and the exports are left out; the PNG coder is a parameter; the file system is the contents of one file |
| `S_Auto` (specification) | | characters of Unicode, beginnings of formats |
| `M_Meta` | picotron_cart.py l.677-707 (`preproc_meta`), l.723-732 (end of `preproc_cart64`); utils.py l.1546-1549 | title, icon, label, export_home and runtime (l.711-721) are left out; matching of one pattern is a parameter |
| `S_Meta` (specification) | | what is left of metadata |
| `S_Gap` (specification) | | what is between tokens, and lines |
| `M_Contents` | pico_utils.py l.354-359 (`bytes_to_string_contents`) | |
| `M_Hints` | pico_tokenize.py l.307-374, l.430-544, l.566-573, l.650-699 (hints in comments) | user-defined languages, compilers, includes, aliases and placeholders; `all_comments` |
| `S_Hints` (specification) | | what hints say, and about which token |
| `M_HintUse` | pico_rename.py l.118-126, pico_lint.py l.29-37, pico_tokenize.py l.711-729 (what is done with lists in comments) | the tree: its tokens are taken in the order of the text |
| `S_HintUse` (specification) | | all comments of a text, and what they list |
| `M_Keep` | pico_output.py l.297-373 (`comment_output`, `wspace_output`, `token_output` with minify_wspace and exclude_comments) | comments that are not kept are left out; which tokens are glued or behind a shorthand is given |
| `S_Keep` (specification) | | kept comments in the source and in the output |
| `M_Orig` | pico_output.py l.272-373 (`get_orig_wspace`, `output_node` with the whitespace and comments of the source) | the text between tokens is given; where tokens are in it is any function; `str.isspace` is any function that is right on ASCII |
| `S_Orig` (specification) | | comments and whitespace in the source and in the output |
| `M_Cli` | pico_process.py l.327-403 (`process_code`, `simplify_code`, `transform_code`), run_shrinko.py l.485-496, l.593-748 (`handle_processing`, `handle_output`) | the passes are any functions; printing, exceptions, scripts that change a cart and failing writes are left out |
| `S_Cli` (specification) | | what is written, and when |
| `M_Icns` | pico_export.py l.740-766 (`create_icns_data`) | the check of indices comes first; the drawing of the label and the zip are left out |
| `S_Icns` (specification) | | icns files |
| `M_Zstr` | pico_export.py l.768-785 (`find_zstr`) | not decoded |
| `S_Zstr` (specification) | | texts that end with a zero |

### What is not modelled

PNG coding (pillow), file I/O, the command line but for M_Cli, Picotron floats, the drawing of title text on cart images,
and everything the rows above do not name.  Where a function is simplified the comment at its
definition says so.

## Findings

Places where the code, as modelled, does not satisfy a property. Each has a proved witness.

- **C02** `compress_code` with default options: `preprocess_litblock_idxs` may emit positions out of
  order (for a 39-character cart it yields 12, 6, 12, 34), and `get_lz77` then fails its final assertion. Fast mode
  compresses the same cart.
- **C03** `get_lz77` with ordered literal-block positions: a match may jump over a whole block; the
  parser then sets `i` back to the block's end and emits the text again (even with offset 0).
- **C06** old format in fast mode: with `no_repeat` the count of a match can be cut below 2, and
  `count - 2` shifted into a byte is negative: `struct.error`.
- **C15** a cart whose whole code is `:c:` is stored uncompressed and read back as an (empty) compressed code area.
- **C16** a tiny rom written with the old compression format cannot be read back.
- **C28** folding a shift or rotation by the smallest number (`1 >> 0x8000`) recurses without end, as negating that number gives it back.
- **C29** folding `true and f()` to `f()` in an argument list, return or table constructor passes on all of the call's values instead of one.
- **C31** `format_luanum` with base 10 forced (as the Picotron data writer does): integers from -2^63 to -10^18 are
  printed as their unsigned 64-bit value, which the parser reads as a float.
- **C33** strings in long brackets: the level is chosen so that the closing bracket does not occur in the string, but the
  string may end with the start of it: `[=[a]]=]` is minified to `[[a]]]`. When minifying for characters this also happens
  to `"\\\\\\]"`.
- **C59** reading `"a\z"` (whitespace skipped up to the closing quote) raises a TypeError.
- **C60** the tokenizer loops forever on a text that ends, inside a string, with `\z` and whitespace.
- **C20** in .p8 text a carriage return before a newline of the code is lost, and code from a line like
  `__a__` on (such a line may stand in a comment or long string) is taken for another section.
- **C63** reading raw source drops one newline at the end of the code.
- **C21** a cart whose whole code is `:c:` comes back from a URL with no code, as in C15.
- **C26** `merge_cart` of a `meta:` section reads `src.name[...]` and always raises a TypeError.
- **C39** code ending in an unclosed `[[` makes preprocessing loop for ever (`C39_endless_refuted`).
- **C39** `#include` lines inside `[=[ .. ]=]` are processed (`C39_level_refuted`).
- **C39** a quote character in a `//` comment starts a string, so a later `#include` is ignored (`C39_slashes_refuted`).
- **C40** including one tab of a cart whose code map has more than one piece (for example any line starting
  with `#`) locates the code at the wrong place (`C40_tab_refuted`).
- **C42** an index inside a tab separator gets a negative column (`C42_separator_refuted`).
- **C37** with the rule `*=*.*` (keys renamed as globals) a renamed key can take the name of a preserved key: preserved
  keys are only kept from renamed members, not from renamed globals, so `t.n` and `t.bar` can both become `t.n`
  (`C37_members_refuted`).
- **C38** a rule that names an identifier does not protect it from a negative wildcard: with `foo_x, !foo_*` the name
  `foo_x` is renamed (`C38_explicit_refuted`). The README does not say which wins.
- **C51** the hints `def-alias: a=b` and then `def-alias: b=a` make any later use of `a` loop for ever (`C51_refuted`).
- **C65** a tiny rom of a program that starts with `p64` and does not compress is taken for a full rom, and one of a
  program of one or two bytes cannot be read (`C65_tiny_refuted`).
- **C45** in `.p64` files carriage returns in contents are lost (a line behind one can even start a new file), and contents
  that begin with `b64$` come back decoded (`C45_refuted`).
- **C54** integers of at most -10^18 are printed in a form that is read back as a float (`C54_integer_refuted`); as `True == 1`
  in Python, a key `true` is printed as the index 1 (`C54_true_refuted`), and a table with keys `true` and `1` loses one when it
  is parsed (`C54_keys_refuted`).
- **C67** userdata with less data than its size, which Picotron fills up, is compressed to bytes that cannot be read
  (`C67_short_refuted`).
- **C68** setting the payload of a file whose header lacks its end adds `]]`; if the header ended in `]`, a bracket appears in
  the payload (`C68_unended_refuted`). Bytes that begin like a header, stored in a file without one, are taken for a header
  (`C68_bytes_refuted`).
- **C46** a cart name with a comma or bracket breaks the list of names of a js export: `ab,cd` becomes `a` and `d`
  (`C46_js_refuted`).
- **C47** inserting a palette before other entries: the loop over colors reuses the variable of the index, so the entry is put
  last in the list and nothing is shifted (`C47_palette_refuted`); the commands only append palettes. A pod with bytes behind its
  last entry can be opened, but not any more after an entry is appended (`C47_trailing_refuted`).
- **C49** arguments of a split string that end in a backslash (or have `\z`) give an empty separator and `str.split` raises a ValueError
  (`C49_separator_refuted`). A separator that can be in names, like `_`, may be in a new name (`C49_names_refuted`).
- **C70** minify (default options) turns `local a=f() local b` into `local a,b=f()`, so `b` gets the second value of `f()` instead of
  nil (`C70_locals_refuted`). Two declarations of closed variables (Picotron, `local a<close>=f() local b<close>=g()`) become one
  with two, which Lua rejects (`C70_close_refuted`). With safe reordering: `t.x=1 a=2` becomes `t.x,a=1,2`, which stores `a` first,
  so a `__newindex` of `t` sees it; `x=f() t[i()]=2` with a local `x` calls `i` before `f`; `a=1 b={[nil]=2}` fails before `a` is
  set (`C70_assign_safe_refuted`). Without: `t[1]=5 a=#t` takes the length first; `a=f() t[#u]=5` reads `#u` before calling `f`
  (`C70_assign_unsafe_refuted`).
- **C71** a program that ends in a bare `return` is rejected ("unexpected end of input"), though Lua and PICO-8 accept it; it is
  read with a `;` behind it (`C71_return_refuted`). Minify drops that `;`, so its output cannot be read again by the tool.
- **C72** `if x then if (a) ?1 else ?2 end` is written with a line break behind `?1`, so the `else` moves from the inner `if` to the
  outer one (`C72_print_refuted`): a print counts as a shorthand at level zero inside a shorthand that ends within a line.
- **C72** inside a shorthand no breaks are put at all: after a shorthand in a function in a shorthand, the next statement
  (`C72_nested_refuted`) or an `else` (`C72_else_refuted`) moves into it.
- **C73** `while (a) ;do b() end c()` loses its `;` and becomes `while(a)do b()end c()`, where `c()` is out of the loop
  (`C73_do_refuted`); `if` does the same in PICO-8. The test for a body with statements does not look at the first one.
- **C73** the last `;` of a program goes even behind a bare `return`, which the tool itself then cannot read (`C73_return_refuted`).
- **C73** `if (a)('x') b()` loses the `)` that makes it a shorthand (`C73_call_refuted`).
- **C74** unminify drops `;` everywhere: `a=b;(c)()` becomes one statement that calls `b` (`C74_semi_refuted`).
- **C74** unminify puts nothing behind a unary minus and `[`: `- -b` becomes a comment (`C74_minus_refuted`), `a[ [[x]] ]` has the
  string begin too early (`C74_index_refuted`).
- **C74** unminify takes the `(` and `)` of whatever node is the condition of a shorthand: of `if (a)(x) b()` it takes the call's
  (`C74_cond_refuted`). A shorthand after `elseif` is not written out (`C74_elseif_refuted`). A `;` in the `else` of a shorthand
  ends in an `AttributeError`, as the `else` node has no `cond` (`C74_else_refuted`).
- **C75** minify makes `if a then (f)() end` a shorthand, `if(a)(f)()`, which is read as a condition with no body
  (`C75_body_refuted`). A statement that begins with a parenthesis behind a new shorthand, `if a then b=c end (d)()`, is read (by the
  code's own parser) as going on with its body (`C75_behind_refuted`). A body that begins with `;do` becomes a long `if` that ends
  with the `do` block (`C75_do_refuted`). `print()` becomes a `?` without arguments, which is a syntax error (`C75_print_refuted`).
- **C76** the minus in `f(...-1)` is not counted, that in `f(... - 1)` is: an operator between `...`, `nil`, `true` or `false` and a
  number is taken for the number's sign (`C76_word_refuted`). `{1;-1}` counts one more than `{1,-1}` (`C76_table_refuted`).
- C77 (three): `a=b if true then (f)() end` becomes `a=b(f)()`, and so does `a=b if false then c() end (f)()`; unlike for erased assignments nothing is put between (C77_body_refuted, C77_behind_refuted: the output does something else). In `if (c) if true then local x f(x) end g()` the branch becomes `do ... end`, so the shorthand is read as a long `if (c) do ... end` and `g()` is called whatever `c` is (C77_do_refuted).
- The proof of C79 found a mistake in the specification S_Run, now mended: a jump back to a label that an earlier jump had skipped left the block.
- C80, `C80_values_refuted`: `local a,b,c=f(),3` where b is never assigned and c is becomes `local a,c=f()`, so c, which was nil, gets the second value of f.
- C80, `C80_unreadable_refuted`: a local that is declared without a value and never assigned is replaced by nil everywhere, also in front of a key or a call: `local t if x then y=t.z end` becomes `if x then y=nil.z end`, which neither the tool nor PICO-8 can read, so a cart whose faulty line is never reached no longer loads.
- C83, `C83_labels_refuted`: `LabelScope.find` does not pass `crossfunc` to the next scope, so a label with the name of a label outside of the function around its own function is not reported, while one a function nearer is.
- C82, `C82_globals`: the message "Global .. isn't used" can never be given: every place of a global counts either as a use or as an assignment.
- C86, `C86_refuted`: `write_cart64_to_fs` goes down only into directories that the cart names; a file "gfx/0.gfx" in a cart without "gfx/" (such as a .p64 text written by hand) is left out without an error or a warning.
- C86, `C86_same_name_refuted`: if the cart has "a/", "a/a" and "a", the last is written to "a/a" (the default for destinations that are directories), over the other.
- C87, `C87_cr_refuted`: a .p8 or .lua file whose format is named, or known by its extension, is opened with universal newlines, so a carriage return within the code (also within a string) is read as a newline, though it is written as it is; if the format is found out, it is kept.
- C87, `C87_lua_refuted`: code that begins with `__lua__`, `pico-8 cartridge`, `[cart]` or the URL of the editor is taken for another format; of "__lua__=1" nothing is left, without an error.
- C87, `C87_rom_refuted`: a PICO-8 rom whose format is not named is read as code without an error; the memory is that of a new cart.
- C88, `C88_lua_refuted`: Picotron code that begins with `picotron cartridge` gives a cart without files, without an error.
- C89, `C89_key_refuted`: `preproc_meta` matches the keys of metadata against patterns; a header with an entry without a name (`--[[pod,5]]`) has the key 1, and minifying the cart stops with a TypeError.
- C89, `C89_regular_refuted`: a header `--[[pod,pod_format="raw",y=2]]` counts as a pod's when the file is read; when its metadata is reduced, the format is put first, and the file counts as raw.
- C92, `C92_inside_refuted`: `bytes_to_string_contents` looks only at the data to see whether `\0` must be written `\000`; a script that replaces a placeholder within a literal by it, where a digit follows and the data end with a zero byte, gets `\07`: another character and one less.
- C95: comments with keep: can break the minified program (pico_output.py l.309-361). `--keep:[[x` becomes `--[[x`, which is never closed (C95_opened_refuted). No space is put between a minus (or, in PICO-8, a slash and a comment with slashes) and a comment: `a - --[[keep:x]]b` becomes `a---[[x]]b`, a comment to the end of the line (C95_minus_refuted). Behind a shorthand the line break is left out if the next token is glued to a bracket comment (C95_glued_refuted) or the comment has a line break in its brackets (C95_inner_refuted), so the next statement becomes part of the shorthand.
- C96: where a comment to the end of a line has to become one in brackets and its text ends with `]`, the comment ends one character early and a bracket is left behind as code: `--x]` becomes `--[[x]]]` (pico_output.py l.350-351; C96_bracket_refuted). `get_long_brackets_equals` looks at the text alone, not at what it makes together with the closing bracket.
- C97: an error reported by the `preprocess_syntax_main` of a user's script keeps the code from being minified (pico_process.py l.367), but without --lint it does not keep the cart from being written (run_shrinko.py l.652): the output is written as it was, with exit code 0 (C97_script_refuted).
- Reading of the code, not modelled: `node_to_value` calls `add_error` with one argument where it takes two, so a bad pod raises
  `TypeError` instead of the error report (picotron_fs.py l.61, l.87).
